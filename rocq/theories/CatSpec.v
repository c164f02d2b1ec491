(** tf.concat, from the documentation of TensorFlow's ConcatV2: tensors of equal shapes but for one axis are put one after the other along it; a negative axis
    counts from the end. *)
From Coq Require Import List Arith ZArith Bool.
From Verif Require Import Tensor OnnxSpec.
Import ListNotations.
Local Open Scope list_scope.

Definition sum (l : list nat) : nat := fold_right Nat.add 0 l.
(** [pre], [post]: the dimensions before and after the axis; [ds]: the dimensions along it *)
Definition inputs_ok {A} (pre post : list nat) (ds : list nat) (ts : list (tensor A)) : Prop :=
  ts <> [] /\ Forall2 (fun t d => wf t /\ shape t = pre ++ d :: post) ts ds.
Definition tf_concat {A} (axis : Z) (pre post ds : list nat) (ts : list (tensor A)) (z : tensor A) : Prop :=
  norm_axis (length pre + S (length post)) axis = Some (length pre) /\ wf z /\ shape z = pre ++ sum ds :: post /\
  forall k t, nth_error ts k = Some t -> forall p c q, inb p pre -> c < nth k ds 0 -> inb q post ->
    exists v, get t (p ++ c :: q) = Some v /\ get z (p ++ (sum (firstn k ds) + c) :: q) = Some v.
