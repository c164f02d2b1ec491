(** Model of the handler Range (tf2onnx/onnx_opset/controlflow.py:25-134).  Inputs: 0 start, 1 limit, 2 delta (scalars).
    Simplifications: names, recorded shapes and types; the Identity nodes behind the constant and the Loop. *)
From Coq Require Import ZArith List Bool String.
From Flocq Require Import Core BinarySingleNaN.
From Verif Require Import ElemSpec ElemModel RangeSpec.
Import ListNotations.
Local Open Scope string_scope.
Local Open Scope list_scope.

Definition is_int32_or_64 (d : dtype) : bool := match d with INT I32 | INT I64 => true | _ => false end.
(** 45-66: the number of iterations *)
Definition trip_count (d : dtype) : build ref :=
  do diff <- make "Sub" NoAttr [In_ 1; In_ 0];
  do diff_delta <- (if is_int32_or_64 d then
                      do c1 <- make "Cast" (To (FLT F32)) [diff];
                      do c2 <- make "Cast" (To (FLT F32)) [In_ 2];
                      ret (c1, c2)
                    else ret (diff, In_ 2));
  let '(diff_output, delta_cast) := diff_delta in
  do q <- make "Div" NoAttr [diff_output; delta_cast];
  do c <- make "Ceil" NoAttr [q];
  make "Cast" (To (INT I64)) [c].
(** 74-86: the body; In_ 0 = prev, In_ 1 = delta: the next value of the loop variable and the scan output *)
Definition body_current : build ref := make "Add" NoAttr [In_ 0; In_ 1].
Definition body_range : build ref := make "Identity" NoAttr [In_ 0].
(** 25-35, 94-98, 117-134: a constant, a Loop started with the value of start, or the operator Range *)
Inductive range_graph := ConstRange (l : list val) | LoopRange (trip current scan : list step * ref) | RangeOp.
Definition range_ints (opset : nat) (t : ity) (consts : option (Z * Z * Z)) : option range_graph :=
  if Nat.ltb opset 7 then None
  else if Nat.ltb opset 11 then
    match consts with
    | Some (start, limit, delta) => option_map ConstRange (np_arange_ints t start limit delta)
    | None => match built (trip_count (INT t)), built body_current, built body_range with
              | Some a, Some b, Some c => Some (LoopRange a b c) | _, _, _ => None end
    end
  else Some RangeOp.
(** the same for computed floats before opset 11 *)
Definition range_floats_7 (f : fty) : option range_graph :=
  match built (trip_count (FLT f)), built body_current, built body_range with
  | Some a, Some b, Some c => Some (LoopRange a b c) | _, _, _ => None end.
