(** Model of the handlers of Softmax and LogSoftmax (tf2onnx/onnx_opset/math.py:202-222) and of the softmax cross entropies
    (tf2onnx/onnx_opset/nn.py:1804-1998).  Casts of integer labels to int64 are left out. *)
From Coq Require Import Reals List Arith ZArith Bool.
From Verif Require Import Tensor FoldModel OnnxSpec TOps BnSpec CeSpec.
Import ListNotations.
Local Open Scope R_scope.
Local Open Scope list_scope.

(** math.py:202-222.  [axis]: the attribute of the node, if it has one; [rank]: of the input, if known *)
Definition softmax_axis (opset : nat) (axis : option Z) (rank : option nat) : option (option Z) :=
  if Nat.ltb opset 13 then
    match axis, rank with Some a, _ => Some (Some a) | None, Some r => Some (Some (Z.of_nat r - 1)%Z) | None, None => None end
  else Some axis.
Definition softmax (opset : nat) (h : list R -> R -> R) (rank : option nat) (x : tensor R) : option (tensor R) :=
  obind (softmax_axis opset None rank) (fun axis => f_softmax opset h axis x).
Definition minus_one : tensor R := Tensor [] [-1].
(** _make_softmax_cross_entropy_with_logits, 1804-1824 *)
Definition cross_entropy (opset : nat) (label logit : tensor R) : option (tensor R) :=
  obind (f_softmax opset log_softmax_of None logit) (fun log_softmax =>
  obind (f_binary Rmult label log_softmax) (fun mul1 =>
  obind (f_reduce sum [-1]%Z true mul1) (fun reduce_sum =>
  obind (f_binary Rmult minus_one reduce_sum) (fun mul2 =>
  f_squeeze [1]%Z mul2)))).
(** _make_sparse_softmax_cross_entropy_with_logits, 1888-1920 *)
Definition masked_cross_entropy (label logit : tensor R) : option (tensor R) :=
  obind (f_reduce largest [-1]%Z true logit) (fun logit_max =>
  obind (f_binary Rminus logit logit_max) (fun logit_norm =>
  let logit_exp := f_unary exp logit_norm in
  obind (f_reduce sum [-1]%Z false logit_exp) (fun logit_exp_sum =>
  obind (f_binary Rmult label logit_exp) (fun masked =>
  obind (f_reduce sum [-1]%Z false masked) (fun masked_sum =>
  obind (f_binary Rdiv masked_sum logit_exp_sum) (fun probability =>
  f_binary Rmult (f_unary ln probability) minus_one)))))).
(** numpy.eye *)
Definition eye (n : nat) : tensor R := Tensor [n; n] (map (fun k => if Nat.eqb (k / n) (k mod n) then 1 else 0) (seq 0 (n * n))).
(** SparseSoftmaxCrossEntropyWithLogits.version_7, 1925-1959; [classes]: the number of classes, if the shape of the logits tells *)
Definition sparse7 (opset : nat) (classes : option nat) (features : tensor R) (labels : tensor Z) : option (tensor R) :=
  let small := match classes with Some n => Z.leb (Z.of_nat n) 20000 | None => false end in
  match classes with
  | Some n => if small then
      obind (f_gather 0 (eye n) labels) (fun onehot =>
      obind (f_softmax opset log_softmax_of None features) (fun log_softmax =>
      obind (f_binary Rmult onehot log_softmax) (fun mul1 =>
      obind (f_reduce sum [1]%Z true mul1) (fun reduce_sum =>
      obind (f_binary Rmult minus_one reduce_sum) (fun mul2 => f_squeeze [1]%Z mul2)))))
    else None
  | None => None
  end.
(** sparse_softmax_cross_entropy_with_logits_op_by_gathernd, 1827-1869, for unknown or many classes.  make_gathernd (tensor.py:535-626) is
    replaced by the operator that its loops spell out; its result has one dimension for each but the last of the indices. *)
Definition sparse7_by_gathernd (opset : nat) (features : tensor R) (labels : tensor Z) : option (tensor R) :=
  obind (f_unsqueeze [1]%Z labels) (fun indices_unsqueeze =>
  obind (f_range_to (Tensor [] [Z.of_nat (size (shape labels))])) (fun ids =>
  obind (f_unsqueeze [1]%Z ids) (fun id_unsqueeze =>
  obind (f_concat 1 [id_unsqueeze; indices_unsqueeze]) (fun indices_with_id =>
  obind (f_softmax opset log_softmax_of None features) (fun log_softmax =>
  obind (f_gather_nd 0 log_softmax indices_with_id) (fun gathered =>
  obind (f_binary Rmult minus_one gathered) (fun mul2 => f_squeeze [1]%Z mul2))))))).
(** version_9, 1961-1998 *)
Definition sparse9 (opset : nat) (classes : option nat) (features : tensor R) (labels : tensor Z) : option (tensor R) :=
  obind (match classes with
         | Some n => Some (zvec [Z.of_nat n])
         | None => f_slice [-1]%Z [2147483647]%Z None (zvec (map Z.of_nat (shape features)))
         end) (fun depth_node =>
  obind (if Nat.ltb opset 11 then
           match data depth_node with
           | [depth] => obind (f_one_hot false (-1) depth 0%Z 1%Z labels) (fun t => Some (f_unary IZR t))
           | _ => None
           end
         else
           obind (f_unsqueeze [-1]%Z labels) (fun index_unsq =>
           obind (f_squeeze [0]%Z depth_node) (fun depth_sq =>
           obind (f_range_to depth_sq) (fun dp_range =>
           obind (f_binary Z.eqb index_unsq dp_range) (fun t => Some (f_unary (fun b : bool => if b then 1 else 0) t)))))) (fun label_node =>
  masked_cross_entropy label_node features)).
(** the handler that an opset has: version_7 for 7 and 8, version_9 from 9 on (1936-1938 for the choice between the two graphs) *)
Definition sparse (opset : nat) (classes : option nat) (features : tensor R) (labels : tensor Z) : option (tensor R) :=
  if Nat.ltb opset 9 then
    if match classes with Some n => Z.ltb 20000 (Z.of_nat n) | None => true end then sparse7_by_gathernd opset features labels
    else sparse7 opset classes features labels
  else sparse9 opset classes features labels.
