(** Model of the handler of AdjustContrastv2, tf2onnx/onnx_opset/nn.py:1521-1538. *)
From Coq Require Import Reals List Arith ZArith Bool.
From Verif Require Import Tensor OnnxSpec TOps BnSpec.
Import ListNotations.
Local Open Scope R_scope.
Local Open Scope list_scope.

(** nn.py:1530: list(range(rank))[-3:-1] *)
Definition axes_to_reduce (rank : nat) : list Z := map Z.of_nat (skipn (rank - 3) (firstn (rank - 1) (seq 0 rank))).
(** [same_type]: the images have the type of the factor.  If not, nn.py:1526 makes a Cast whose input is a number, not a name: the conversion fails.
    [rank]: ctx.get_rank of the images *)
Definition adjust_contrast (same_type : bool) (rank : option nat) (images contrast_factor : tensor R) : option (tensor R) :=
  if negb same_type then None else
  match rank with
  | None => None
  | Some rank =>
      obind (f_reduce average (axes_to_reduce rank) true images) (fun mean =>
      obind (f_binary Rminus images mean) (fun diff =>
      obind (f_binary Rmult diff contrast_factor) (fun scaled => f_binary Rplus scaled mean)))
  end.
