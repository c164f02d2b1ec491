(** Model of the handler Roll (tf2onnx/onnx_opset/tensor.py:371-432): the expression that replaces the node.  Input 0 of the
    environment is the tensor, input 1 the shifts; the axes (input 2) are the value of a Const node: a python int for a
    0-d tensor and a list for a vector (graph.py:303-322 get_tensor_value).  [None] = the handler raises, or no handler
    for the opset.  Simplifications: names, output shapes and dtypes are left out; the DAG is written as a tree. *)
From Coq Require Import List Arith ZArith Bool.
From Verif Require Import Tensor FoldModel TOps SpaceModel.
Import ListNotations.
Local Open Scope list_scope.

Inductive const_value := Scalar (a : Z) | Vector (l : list Z).

Section Roll.
Context {A : Type} (opset : nat).
Notation expr := (expr A).
(** 375-379 *)
Definition axes_list (axes : const_value) : list Z := match axes with Scalar a => [a] | Vector l => l end.
Definition norm_with (rank : option nat) (a : Z) : option Z :=
  if (0 <=? a)%Z then Some a else match rank with Some r => Some (a + Z.of_nat r)%Z | None => None end.
(** 381-394 *)
Definition shifts_casted (is_int64 : bool) : expr := if is_int64 then Inp 1 else Op Cast [Inp 1].
Definition shifts_split (is_int64 : bool) (n : nat) : list expr :=
  if Nat.eqb n 1 then [make_unsqueeze opset [0%Z] (shifts_casted is_int64)]
  else map (fun k => Op (Split 0 n k) [shifts_casted is_int64]) (seq 0 n).
(** 401-414, one round of the loop *)
Definition roll_step (data : expr) (axis : Z) (shift : expr) : expr :=
  let len_along_axis := Op (Slice None) [Op Shape [Inp 0]; vec [axis]; vec [(axis + 1)%Z]] in
  let shift_mod := Op Mod [shift; len_along_axis] in
  let remaining_len := Op Sub [len_along_axis; shift_mod] in
  let axes_const := vec [axis] in
  let slice_one := Op (Slice None) [data; vec [0%Z]; remaining_len; axes_const] in
  let slice_two := Op (Slice None) [data; remaining_len; len_along_axis; axes_const] in
  Op (Concat axis) [slice_two; slice_one].
Definition roll_loop (data : expr) (steps : list (Z * expr)) : expr :=
  fold_left (fun d '(a, s) => roll_step d a s) steps data.
(** 373-417; version_10 is the first one *)
Definition roll (rank : option nat) (is_int64 : bool) (axes : const_value) : option expr :=
  if Nat.ltb opset 10 then None else
  match FoldModel.sequence (map (norm_with rank) (axes_list axes)) with
  | Some ax => Some (roll_loop (Inp 0) (combine ax (shifts_split is_int64 (length ax))))
  | None => None
  end.
End Roll.
