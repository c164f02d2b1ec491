(** Model of the handlers TopKV2 (tf2onnx/onnx_opset/tensor.py:1206-1268) and InvertPermutation (math.py:1016-1044).
    Simplifications: names and recorded shapes; make_unsqueeze is one Unsqueeze node (graph_builder.py:202-238, C60). *)
From Coq Require Import ZArith List Bool String.
From Verif Require Import ElemSpec ElemModel TopSpec.
Import ListNotations.
Local Open Scope string_scope.
Local Open Scope list_scope.

(** k of the TopK node: the attribute, or Unsqueeze of the result of nodes that read the input k *)
Inductive k_input := KAttr (k : Z) | KUnsqueeze (p : list step * ref) (axes : list Z).
(** the nodes between the input and TopK (In_ 0 = the input), the nodes behind the two outputs (In_ 0 = the output), and
    what the other consumers of the input tensor read (In_ 0 = the input tensor) *)
Record top_graph := TopGraph { to_data : list step * ref; to_k : k_input; to_values : list step * ref; to_indices : list step * ref; to_others : list step * ref }.
Definition made (m : build ref) : list step * ref := match built m with Some p => p | None => ([], In_ 0) end.
Definition nothing : list step * ref := ([], In_ 0).
(** tensor.py:1208-1234 version_1; [k] = node.inputs[1].get_tensor_value(), which raises if k is no constant.
    insert_new_node_on_output("Cast", node.input[0]) puts the Cast before every consumer of the tensor (graph.py:1343-1385). *)
Definition top_k_1 (d : dtype) (k : option Z) : option top_graph :=
  match k with
  | None => None
  | Some k =>
      let cast_in := if dtype_eqb d (FLT F32) then nothing else made (make "Cast" (To (FLT F32)) [In_ 0]) in
      let cast_out := if dtype_eqb d (FLT F32) then nothing else made (make "Cast" (To d) [In_ 0]) in
      Some (TopGraph cast_in (KAttr k) cast_out (made (make "Cast" (To (INT I32)) [In_ 0])) cast_in)
  end.
(** tensor.py:1236-1268 any_version_after10; dtypes[1] = int32; insert_new_node_on_input casts for this node only *)
Definition top_k_10 (d : dtype) : top_graph :=
  let cast_in := if dtype_eqb d (FLT F32) then nothing else made (make "Cast" (To (FLT F32)) [In_ 0]) in
  let cast_out := if dtype_eqb d (FLT F32) then nothing else made (make "Cast" (To d) [In_ 0]) in
  TopGraph cast_in (KUnsqueeze (made (make "Cast" (To (INT I64)) [In_ 0])) [0%Z]) cast_out (made (make "Cast" (To (INT I32)) [In_ 0])) nothing.
(** the handler for the opset *)
Definition top_k (opset : nat) (d : dtype) (k : option Z) : option top_graph :=
  if Nat.ltb opset 10 then top_k_1 d k else Some (top_k_10 d).

(** math.py:1016-1044: TopK(Neg(x), Shape(x)), the indices; the recorded dtype is that of x *)
Record inv_graph := InvGraph { inv_data : val -> option val; inv_k : ten -> ten; inv_result : list step * ref; inv_dtype : dtype }.
Definition invert_permutation (opset : nat) (d : dtype) : option inv_graph :=
  if Nat.ltb opset 11 then None
  else if in_dtypes [INT I32; INT I64] d then Some (InvGraph neg shape_of (made (make "Identity" NoAttr [In_ 0])) d)
  else None.
