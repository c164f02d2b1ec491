(** Model of the two places of tf2onnx/optimizer/transpose_optimizer.py that merge a constant into a Conv. *)
From Coq Require Import List Arith Reals Bool.
From Verif Require Import Tensor FoldModel.
Import ListNotations.
Local Open Scope nat_scope.
Local Open Scope list_scope.
(** 579-581 _mul_handler: the multiplier has shape (), (N), (1, N), (1, 1, N), ... *)
Definition multiplier_ok (c : tensor R) : bool := forallb (Nat.eqb 1) (removelast (shape c)).
(** 582-590 _mul_handler: the weights of the Conv, None = numpy raises *)
Definition fold_multiplier (w c : tensor R) : option (tensor R) :=
  match np_transpose w (Some [2; 3; 1; 0]) with
  | None => None
  | Some t => match np_binary Rmult t c with None => None | Some r => np_transpose r (Some [3; 2; 0; 1]) end
  end.
(** 489-505 _add_handler: the constant reshaped to (M), None = it is not merged, or numpy raises *)
Definition bias_of (c : tensor R) (size_m : nat) : option (tensor R) :=
  let sh := shape c in
  if Nat.ltb 1 (length sh - length (filter (Nat.eqb 1) sh)) then None
  else let bias_size := fold_right Nat.max 0 sh in
       if negb (Nat.eqb bias_size size_m) then None
       else if Nat.eqb (length (data c)) bias_size then Some (Tensor [bias_size] (data c)) else None.
