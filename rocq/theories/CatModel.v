(** Model of the handler of ConcatV2, tf2onnx/onnx_opset/tensor.py:275-318, from opset 8 on. *)
From Coq Require Import List Arith ZArith Bool.
From Verif Require Import Tensor OnnxSpec TOps.
Import ListNotations.
Local Open Scope list_scope.

(** an input: whether it is a constant, its rank if its shape is known at conversion time, its value *)
Record input (A : Type) := Input { is_const : bool; known_rank : option nat; value : tensor A }.
Arguments Input {A}. Arguments is_const {A}. Arguments known_rank {A}. Arguments value {A}.
Fixpoint first_rank {A} (l : list (input A)) : option nat :=
  match l with [] => None | i :: l' => match known_rank i with Some r => Some r | None => first_rank l' end end.
(** 284-317; [axis]: the value of the axis input if it is a constant.  If no input is left but the axis, the Concat has no inputs and is invalid *)
Definition concat_v2 {A} (inputs : list (input A)) (axis : option Z) : option (tensor A) :=
  let kept := filter (fun i => negb (is_const i && Nat.eqb (size (shape (value i))) 0)) inputs in
  match axis with
  | None => None
  | Some axis_val =>
      match (if (axis_val <? 0)%Z then match first_rank kept with Some r => Some (Z.of_nat r + axis_val)%Z | None => None end else Some axis_val) with
      | None => None
      | Some axis_val => f_concat axis_val (map value kept)
      end
  end.
