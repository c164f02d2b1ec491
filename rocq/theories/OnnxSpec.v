(** Specifications of ONNX operators on tensors, written from the operator documentation
    (https://github.com/onnx/onnx/blob/main/docs/Operators.md), independent of the code under study.
    Each is a relation between inputs and output, given element by element. *)
From Coq Require Import List Arith ZArith Permutation Bool.
From Verif Require Import Tensor.
Import ListNotations.
Local Open Scope list_scope.

(** a list of axes read by position *)
Definition pick (p l : list nat) : list nat := map (fun i => nth i l 0) p.
Definition is_perm (p : list nat) (r : nat) : Prop := Permutation p (seq 0 r).

(** Transpose: output dimension i is input dimension perm[i] *)
Definition transpose_rel {A} (perm : list nat) (x y : tensor A) : Prop :=
  is_perm perm (length (shape x)) /\ wf x /\ wf y /\ shape y = pick perm (shape x) /\
  forall ix, inb ix (shape x) -> get y (pick perm ix) = get x ix.

(** a negative axis counts from the end *)
Definition norm_axis (r : nat) (a : Z) : option nat :=
  if (0 <=? a)%Z then (if (a <? Z.of_nat r)%Z then Some (Z.to_nat a) else None)
  else if (- Z.of_nat r <=? a)%Z then Some (Z.to_nat (a + Z.of_nat r)) else None.
Fixpoint norm_axes (r : nat) (l : list Z) : option (list nat) :=
  match l with
  | [] => Some []
  | a :: l' => match norm_axis r a, norm_axes r l' with Some x, Some xs => Some (x :: xs) | _, _ => None end
  end.
(** the entries whose position (counted from k) is not among the axes *)
Fixpoint drop_from (k : nat) (axes : list nat) (l : list nat) : list nat :=
  match l with
  | [] => []
  | x :: l' => if existsb (Nat.eqb k) axes then drop_from (S k) axes l' else x :: drop_from (S k) axes l'
  end.
Definition drop_axes := drop_from 0.

(** Squeeze with axes: the named dimensions are 1 and disappear.  Unsqueeze is the converse; there, axes count
    in the output. *)
Definition squeeze_rel {A} (axes : list Z) (x y : tensor A) : Prop :=
  wf x /\ wf y /\ exists ax, norm_axes (length (shape x)) axes = Some ax /\ NoDup ax /\
    (forall a, In a ax -> nth a (shape x) 0 = 1) /\ shape y = drop_axes ax (shape x) /\
    forall ix, inb ix (shape x) -> get y (drop_axes ax ix) = get x ix.
Definition unsqueeze_rel {A} (axes : list Z) (x y : tensor A) : Prop :=
  wf x /\ wf y /\ length (shape y) = length (shape x) + length axes /\
  exists ax, norm_axes (length (shape y)) axes = Some ax /\ NoDup ax /\
    (forall a, In a ax -> nth a (shape y) 0 = 1) /\ shape x = drop_axes ax (shape y) /\
    forall ix, inb ix (shape y) -> get y ix = get x (drop_axes ax ix).

(** Reshape: elements keep their row-major position.  A dimension -1 is inferred, a dimension 0 copies the
    input dimension unless allowzero is set. *)
Definition dim_ok (allowzero : bool) (insh : list nat) (k : nat) (target : Z) (d : nat) : Prop :=
  (target = (-1)%Z \/
   (target = 0%Z /\ (if allowzero then d = 0 else nth_error insh k = Some d)) \/
   (0 < target)%Z /\ d = Z.to_nat target).
Definition reshape_rel {A} (allowzero : bool) (target : list Z) (x y : tensor A) : Prop :=
  wf x /\ wf y /\ length (filter (Z.eqb (-1)) target) <= 1 /\
  length (shape y) = length target /\
  (forall k t d, nth_error target k = Some t -> nth_error (shape y) k = Some d -> dim_ok allowzero (shape x) k t d) /\
  size (shape y) = size (shape x) /\
  forall ix jx, inb ix (shape x) -> inb jx (shape y) -> ravel (shape x) ix = ravel (shape y) jx -> get y jx = get x ix.

(** an index with position [ax] shifted by [off] *)
Fixpoint shift (ax off : nat) (ix : list nat) : list nat :=
  match ax, ix with
  | _, [] => []
  | 0, i :: ix' => off + i :: ix'
  | S ax', i :: ix' => i :: shift ax' off ix'
  end.
Fixpoint set_dim (ax v : nat) (sh : list nat) : list nat :=
  match ax, sh with
  | _, [] => []
  | 0, _ :: sh' => v :: sh'
  | S ax', d :: sh' => d :: set_dim ax' v sh'
  end.
(** y contains x at offset [off] along [ax] *)
Definition part_at {A} (ax off : nat) (y x : tensor A) : Prop :=
  forall ix, inb ix (shape x) -> inb (shift ax off ix) (shape y) /\ get y (shift ax off ix) = get x ix.
Fixpoint parts_at {A} (ax off : nat) (y : tensor A) (xs : list (tensor A)) : Prop :=
  match xs with
  | [] => off = nth ax (shape y) 0
  | x :: xs' => part_at ax off y x /\ parts_at ax (off + nth ax (shape x) 0) y xs'
  end.
(** Concat: the inputs agree outside the axis and lie side by side in the output *)
Definition concat_rel {A} (axis : Z) (xs : list (tensor A)) (y : tensor A) : Prop :=
  xs <> [] /\ wf y /\ exists ax, norm_axis (length (shape y)) axis = Some ax /\
    (forall x, In x xs -> wf x /\ length (shape x) = length (shape y) /\ shape x = set_dim ax (nth ax (shape x) 0) (shape y)) /\
    parts_at ax 0 y xs.
(** Split is the converse; the lengths along the axis are given, or equal *)
Definition split_rel {A} (axis : Z) (lens : option (list nat)) (x : tensor A) (ys : list (tensor A)) : Prop :=
  concat_rel axis ys x /\
  exists ax, norm_axis (length (shape x)) axis = Some ax /\
  match lens with
  | Some l => map (fun y => nth ax (shape y) 0) ys = l
  | None => forall y, In y ys -> nth ax (shape y) 0 * length ys = nth ax (shape x) 0
  end.

(** elementwise operators with multidirectional broadcasting: missing leading dimensions are 1, and a
    dimension 1 is read at 0 *)
Definition bcast_ix (r : nat) (sh ix : list nat) : list nat :=
  map (fun '(d, i) => if Nat.eqb d 1 then 0 else i) (combine sh (skipn (r - length sh) ix)).
Definition elementwise_rel {A} (f : A -> A -> A) (x1 x2 y : tensor A) : Prop :=
  wf x1 /\ wf x2 /\ wf y /\
  let r := Nat.max (length (shape x1)) (length (shape x2)) in
  length (shape y) = r /\
  (forall k, k < r ->
     let d1 := nth k (repeat 1 (r - length (shape x1)) ++ shape x1) 0 in
     let d2 := nth k (repeat 1 (r - length (shape x2)) ++ shape x2) 0 in
     (d1 = d2 \/ d1 = 1 \/ d2 = 1) /\ nth k (shape y) 0 = if Nat.eqb d1 1 then d2 else d1) /\
  forall ix, inb ix (shape y) -> exists a b, get x1 (bcast_ix r (shape x1) ix) = Some a /\
    get x2 (bcast_ix r (shape x2) ix) = Some b /\ get y ix = Some (f a b).
