(** tf.roll, from the TensorFlow documentation: the elements are shifted by shift[j] positions along axis[j], those that
    roll past the end come back at the other end; shifts of an axis given more than once add up. *)
From Coq Require Import List Arith ZArith Bool.
From Verif Require Import Tensor FoldModel OnnxSpec.
Import ListNotations.
Local Open Scope list_scope.

Definition total_shift (ax : list nat) (shifts : list Z) (k : nat) : Z :=
  fold_right Z.add 0%Z (map snd (filter (fun '(a, _) => Nat.eqb a k) (combine ax shifts))).
Definition rolled (ax : list nat) (shifts : list Z) (sh ix : list nat) : list nat :=
  map (fun '(k, (d, i)) => Z.to_nat ((Z.of_nat i - total_shift ax shifts k) mod Z.of_nat d)%Z)
      (combine (seq 0 (length sh)) (combine sh ix)).
Definition tf_roll {A} (shifts axes : list Z) (x : tensor A) : option (tensor A) :=
  match norm_axes (length (shape x)) axes with
  | Some ax => if Nat.leb 1 (length (shape x)) && Nat.eqb (length shifts) (length ax)
               then build (shape x) (fun ix => get x (rolled ax shifts (shape x) ix)) else None
  | None => None
  end.
