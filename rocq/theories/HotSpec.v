(** tf.one_hot, from the TensorFlow documentation: a new axis of length depth at position [axis] (-1 = last), where
    result[.., i, ..] = on_value if indices[.., ..] = i and off_value otherwise (also if the index is out of range). *)
From Coq Require Import List Arith ZArith Bool.
From Verif Require Import Tensor FoldModel OnnxSpec.
Import ListNotations.
Local Open Scope list_scope.

Definition one_hot_axis (rank : nat) (axis : Z) : option nat :=
  if Z.eqb axis (-1) then Some rank else if (0 <=? axis)%Z && (axis <=? Z.of_nat rank)%Z then Some (Z.to_nat axis) else None.
Definition tf_one_hot {A} (axis : Z) (depth : nat) (on off : A) (idx : tensor Z) : option (tensor A) :=
  match one_hot_axis (length (shape idx)) axis with
  | None => None
  | Some k =>
      build (firstn k (shape idx) ++ depth :: skipn k (shape idx))
            (fun ix => match get idx (firstn k ix ++ skipn (S k) ix) with
                       | Some v => Some (if Z.eqb v (Z.of_nat (nth k ix 0)) then on else off)
                       | None => None
                       end)
  end.
