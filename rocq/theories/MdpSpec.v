(** The diagonals of matrices, from the documentation of TensorFlow's MatrixDiagPart (tensorflow/core/ops/array_ops.cc): "diagonal[i, j, k, ..., n] =
    input[i, j, k, ..., n, n]", of shape [I, J, K, ..., min(M, N)]; and the ONNX operator GatherElements. *)
From Coq Require Import List Arith ZArith Bool.
From Verif Require Import Tensor FoldModel OnnxSpec.
Import ListNotations.
Local Open Scope list_scope.

Definition tf_diagonal {A} (lead : list nat) (rows cols : nat) (x y : tensor A) : Prop :=
  shape x = lead ++ [rows; cols] /\ wf x /\ shape y = lead ++ [Nat.min rows cols] /\ wf y /\
  forall p n, inb p lead -> n < Nat.min rows cols -> exists v, get x (p ++ [n; n]) = Some v /\ get y (p ++ [n]) = Some v.

(** GatherElements along the last axis: the indices have the rank of the data and are no longer along the other axes; negative ones count from the end *)
Definition f_gather_last {A} (t : tensor A) (idx : tensor Z) : option (tensor A) :=
  if Nat.ltb 0 (length (shape t)) && Nat.eqb (length (shape idx)) (length (shape t)) &&
     forallb (fun '(a, b) => Nat.leb a b) (combine (removelast (shape idx)) (removelast (shape t))) then
    build (shape idx) (fun ix => match get idx ix with
      | Some z => match norm_axis (last (shape t) 0) z with Some j => get t (removelast ix ++ [j]) | None => None end
      | None => None
      end)
  else None.
