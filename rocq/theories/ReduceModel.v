(** Model of the handlers ReduceOpBase, ArgMax and AllAny of tf2onnx/onnx_opset/reduction.py:22-181 and of
    graph_builder.py:84-121 _make_reduce_op.  Simplifications: names, recorded shapes and dtypes of new tensors; data and
    axes are different tensors (insert_new_node_on_input would otherwise change the first of two equal inputs).
    [rank], [axes_rank]: what is recorded (None: unknown); [axes]: the value if the axes are a constant. *)
From Coq Require Import List Arith ZArith Bool String.
From Verif Require Import ElemSpec ElemModel ReduceSpec.
Import ListNotations.
Local Open Scope string_scope.
Local Open Scope list_scope.

(** the registration: reduction.py:22-26 *)
Definition onnx_name (tf : string) : option string :=
  if String.eqb tf "Max" then Some "ReduceMax" else if String.eqb tf "Mean" then Some "ReduceMean"
  else if String.eqb tf "Min" then Some "ReduceMin" else if String.eqb tf "Prod" then Some "ReduceProd"
  else if String.eqb tf "Sum" then Some "ReduceSum" else None.
Definition negative (z : Z) : bool := Z.ltb z 0.
Definition shift_axes (rank : nat) (axes : list Z) : list Z := map (fun v => if negative v then (v + Z.of_nat rank)%Z else v) axes.
(** 29-48 version_1 *)
Definition reduce_1 (opset : nat) (op : string) (rank : option nat) (axes : option (list Z)) (keep : bool) : option reduce_node :=
  match axes with
  | None => None
  | Some axes =>
      match rank with
      | None => if existsb negative axes && Nat.ltb opset 11 then None else Some (ReduceNode op (AxAttr axes) keep false)
      | Some r => Some (ReduceNode op (AxAttr (shift_axes r axes)) keep false)
      end
  end.
(** 56-68 and 71-82: the axes stay an input *)
Definition reduce_input (op : string) (axes_type : ity) (axes_rank : option nat) (keep : bool) : reduce_node :=
  ReduceNode op (AxInput ((match axes_type with I64 => [] | _ => [CastI64] end) ++
                          (match axes_rank with Some 1 => [] | _ => [ReshapeFlat] end))) keep true.
Definition reduce (opset : nat) (tf : string) (rank : option nat) (axes : option (list Z)) (axes_type : ity) (axes_rank : option nat) (keep : bool) : option reduce_node :=
  match onnx_name tf with
  | None => None
  | Some op =>
      if Nat.ltb opset 13 then reduce_1 opset op rank axes keep
      else if Nat.ltb opset 18 then if String.eqb op "ReduceSum" then Some (reduce_input op axes_type axes_rank keep) else reduce_1 opset op rank axes keep
      else Some (reduce_input op axes_type axes_rank keep)
  end.

(** 84-112 ArgMax.version_1: "dim_count = len(input_shape) if input_shape else 0" *)
Definition arg (tf : string) (rank : option nat) (axis : option Z) (output_type : ity) : option arg_node :=
  match axis with
  | None => None
  | Some axis => Some (ArgNode tf (if negative axis then (Z.of_nat (match rank with Some r => r | None => 0 end) + axis)%Z else axis) false
                               (match output_type with I32 => Some I32 | _ => None end))
  end.

(** graph_builder.py:84-121 for a ReduceSum with axes and noop_with_empty_axes = 1 *)
Definition make_reduce_sum (opset : nat) (axes_const : list Z) (axes_input : list axes_step) (keep : bool) : reduce_node :=
  if Nat.ltb opset 13 then ReduceNode "ReduceSum" (AxAttr axes_const) keep false else ReduceNode "ReduceSum" (AxInput axes_input) keep true.
(** the nodes before the reduction, the reduction of float32, the nodes behind it *)
Record all_any_graph := AllAnyGraph { aa_before : list step * ref; aa_reduce : reduce_node; aa_behind : list step * ref }.
Definition zero32 : val := VF F32 fzero.
Definition greater_zero (is_not : bool) : build ref :=
  do z <- make_const [] zero32;
  do g <- make "Greater" NoAttr [In_ 0; z];
  if is_not then make "Not" NoAttr [g] else ret g.
Definition to_float (is_not : bool) : build ref :=
  do r <- (if is_not then make "Not" NoAttr [In_ 0] else ret (In_ 0));
  make "Cast" (To (FLT F32)) [r].
Definition aa_graph (before : build ref) (r : reduce_node) (behind : build ref) : option all_any_graph :=
  match built before, built behind with Some b, Some c => Some (AllAnyGraph b r c) | _, _ => None end.
(** 127-158 version_6 *)
Definition all_any_6 (opset : nat) (all : bool) (rank : option nat) (axes : option (list Z)) (keep : bool) : option all_any_graph :=
  match axes with
  | None => None
  | Some axes =>
      let axes' := if Nat.ltb opset 11 then match rank with Some r => shift_axes r axes | None => axes end else axes in
      if Nat.ltb opset 11 && existsb negative axes' then None
      else aa_graph (to_float false)
                    (if all then ReduceNode "ReduceMin" (AxAttr axes') keep false else make_reduce_sum opset axes' [] keep)
                    (greater_zero false)
  end.
(** 160-181 version_13 *)
Definition all_any_13 (opset : nat) (all : bool) (axes_type : ity) (axes_rank : option nat) (keep : bool) : option all_any_graph :=
  aa_graph (to_float all)
           (make_reduce_sum opset [] ((match axes_rank with Some 0 => [UnsqueezeZero] | _ => [] end) ++ (match axes_type with I64 => [] | _ => [CastI64] end)) keep)
           (greater_zero all).
Definition all_any (opset : nat) (all : bool) (rank : option nat) (axes : option (list Z)) (axes_type : ity) (axes_rank : option nat) (keep : bool) : option all_any_graph :=
  if Nat.ltb opset 13 then all_any_6 opset all rank axes keep else all_any_13 opset all axes_type axes_rank keep.
