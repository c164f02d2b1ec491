(** Softmax, log-softmax and the softmax cross entropies over the real numbers, and the ONNX operators used for them. *)
From Coq Require Import Reals List Arith ZArith Bool.
From Verif Require Import Tensor FoldModel OnnxSpec TOps ReduceSpec BnSpec.
Import ListNotations.
Local Open Scope R_scope.
Local Open Scope list_scope.

Definition softmax_of (row : list R) (v : R) : R := exp v / sum (map exp row).
Definition log_softmax_of (row : list R) (v : R) : R := v - ln (sum (map exp row)).
(** ** TensorFlow *)
(** along the last axis *)
Definition tf_rowwise (h : list R -> R -> R) (x y : tensor R) : Prop :=
  exists pre d, shape x = pre ++ [d] /\ wf x /\ wf y /\ shape y = shape x /\
    forall p, inb p pre -> exists row, Forall2 (fun j v => get x (p ++ [j]) = Some v) (seq 0 d) row /\
      forall j v, (j < d)%nat -> nth_error row j = Some v -> get y (p ++ [j]) = Some (h row v).
(** entry (i, j) of a matrix that is broadcast *)
Definition entry (t : tensor R) (i j : nat) : option R := get t (bcast_ix 2 (shape t) [i; j]).
Definition times (l m : list R) : list R := map (fun p => fst p * snd p) (combine l m).
(** SoftmaxCrossEntropyWithLogits: features and labels are broadcast against each other *)
Definition tf_cross_entropy (features labels loss : tensor R) : Prop :=
  exists b n, bcast_dims (shape features) (shape labels) = Some [b; n] /\ wf loss /\ shape loss = [b] /\
    forall i, (i < b)%nat -> exists fs ls, Forall2 (fun j v => entry features i j = Some v) (seq 0 n) fs /\ Forall2 (fun j v => entry labels i j = Some v) (seq 0 n) ls /\
      get loss [i] = Some (- sum (times ls (map (log_softmax_of fs) fs))).
(** SparseSoftmaxCrossEntropyWithLogits: a label is the number of a class *)
Definition sparse_args (b n : nat) (features : tensor R) (labels : tensor Z) : Prop :=
  wf features /\ shape features = [b; n] /\ wf labels /\ shape labels = [b] /\
  forall i, (i < b)%nat -> exists l, (l < n)%nat /\ get labels [i] = Some (Z.of_nat l).
Definition tf_sparse_cross_entropy (features : tensor R) (labels : tensor Z) (loss : tensor R) : Prop :=
  exists b n, sparse_args b n features labels /\ wf loss /\ shape loss = [b] /\
    forall i, (i < b)%nat -> exists fs l, Forall2 (fun j v => get features [i; j] = Some v) (seq 0 n) fs /\ get labels [i] = Some (Z.of_nat l) /\
      get loss [i] = Some (- log_softmax_of fs (nth l fs 0)).

(** ** ONNX *)
(** Softmax and LogSoftmax.  Before opset 13: all elements with the same indices before the axis, which is 1 if left out; from 13 on: along
    one axis, the last one if left out *)
Definition f_softmax (opset : nat) (h : list R -> R -> R) (axis : option Z) (x : tensor R) : option (tensor R) :=
  match norm_axis (length (shape x)) (match axis with Some a => a | None => if Nat.ltb opset 13 then 1 else -1 end) with
  | None => None
  | Some ax => build (shape x) (fun ix =>
      match get x ix, sequence (if Nat.ltb opset 13 then map (fun r => get x (firstn ax ix ++ r)) (indices (skipn ax (shape x)))
                                else map (fun j => get x (set_dim ax j ix)) (seq 0 (nth ax (shape x) 0%nat))) with
      | Some v, Some row => Some (h row v)
      | _, _ => None
      end)
  end.
(** the largest element of a list that is not empty *)
Definition largest (l : list R) : R := match l with [] => 0 | v :: l => fold_left Rmax l v end.
(** Range(0, limit, 1) *)
Definition f_range_to (limit : tensor Z) : option (tensor Z) :=
  match shape limit, data limit with [], [n] => Some (zvec (map Z.of_nat (seq 0 (Z.to_nat n)))) | _, _ => None end.
