(** tf.stack, tf.unstack and tf.split, from the TensorFlow documentation. *)
From Coq Require Import List Arith ZArith Bool.
From Verif Require Import Tensor FoldModel OnnxSpec.
Import ListNotations.
Local Open Scope list_scope.

(** stack: the tensors have the same shape; a new axis selects among them *)
Definition tf_stack {A} (axis : Z) (xs : list (tensor A)) : option (tensor A) :=
  match xs with
  | [] => None
  | x :: _ =>
      match norm_axis (S (length (shape x))) axis with
      | Some k =>
          if forallb (fun y => list_eqb (shape y) (shape x)) xs then
            build (firstn k (shape x) ++ length xs :: skipn k (shape x))
                  (fun ix => match nth_error xs (nth k ix 0) with Some y => get y (firstn k ix ++ skipn (S k) ix) | None => None end)
          else None
      | None => None
      end
  end.
(** unstack: tensor number i along the axis, which has num entries *)
Definition tf_unstack {A} (axis : Z) (num i : nat) (x : tensor A) : option (tensor A) :=
  match norm_axis (length (shape x)) axis with
  | Some k =>
      if Nat.eqb (nth k (shape x) 0) num && Nat.ltb i num then
        build (firstn k (shape x) ++ skipn (S k) (shape x)) (fun ix => get x (firstn k ix ++ i :: skipn k ix))
      else None
  | None => None
  end.
(** split: the entries from [start] to [start + len] of the axis *)
Definition section_of {A} (k start len : nat) (x : tensor A) : option (tensor A) :=
  build (firstn k (shape x) ++ len :: skipn (S k) (shape x))
        (fun ix => get x (firstn k ix ++ start + nth k ix 0 :: skipn (S k) ix)).
Definition tf_split {A} (axis : Z) (num i : nat) (x : tensor A) : option (tensor A) :=
  match norm_axis (length (shape x)) axis with
  | Some k => let d := nth k (shape x) 0 in
              if Nat.ltb 0 num && Nat.eqb (d mod num) 0 && Nat.ltb i num then section_of k (i * (d / num)) (d / num) x else None
  | None => None
  end.
(** sizes: every size is >= 0, except that one of them may be -1 and then is what is left over *)
Definition tf_split_sizes {A} (axis : Z) (sizes : list Z) (i : nat) (x : tensor A) : option (tensor A) :=
  match norm_axis (length (shape x)) axis with
  | Some k =>
      let d := Z.of_nat (nth k (shape x) 0) in
      let sum := fold_right Z.add 0%Z in
      let unknown := length (filter (Z.eqb (-1)) sizes) in
      let known := sum (filter (fun s => negb (Z.eqb s (-1))) sizes) in
      if forallb (fun s => (-1 <=? s)%Z) sizes && Nat.leb unknown 1
         && (if Nat.eqb unknown 0 then Z.eqb known d else (known <=? d)%Z) && Nat.ltb i (length sizes) then
        let full := map (fun s => if Z.eqb s (-1) then (d - known)%Z else s) sizes in
        section_of k (Z.to_nat (sum (firstn i full))) (Z.to_nat (nth i full 0%Z)) x
      else None
  | None => None
  end.
(** the static shape recorded for x: the same rank, every recorded dimension is either unknown (-1) or right *)
Definition static_of {A} (sh : list Z) (x : tensor A) : Prop := Forall2 (fun s d => s = (-1)%Z \/ s = Z.of_nat d) sh (shape x).
