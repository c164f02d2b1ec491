(** Model of the handlers of Bincount, DenseBincount, DynamicPartition, DynamicStitch and Unique, tf2onnx/onnx_opset/tensor.py:2366-2486
    and 3079-3159: each output as an expression.  Casts between integer types are left out (they do not change the numbers). *)
From Coq Require Import String List ZArith Bool.
From Verif Require Import PartSpec.
Import ListNotations.
Local Open Scope string_scope.
Local Open Scope list_scope.

(** Bincount.any_version, 2408-2475.  [rank]: recorded rank of arr; [weights]: recorded shape of the weights; [binary]: binary_output *)
Definition bincount (rank : option nat) (weights : option (list Z)) (binary : bool) : option pexpr :=
  let arr := PIn "arr" in let size := PIn "size" in
  match weights with
  | Some ws => if existsb (Z.eqb 0) ws then
      let is2 := match rank with Some 2 => true | _ => false end in
      let inp_shape := PE OShape [arr] in
      let num_rows := PE (OSlice 0 1 0) [inp_shape] in
      let row_idx := PE ORange [PE (OConst 0) []; PE (OSqueeze 0) [num_rows]; PE (OConst 1) []] in
      let row_idx_expand := PE OExpand [PE (OUnsqueeze 1) [row_idx]; inp_shape] in
      let concat := PE (OConcat 2) [PE (OUnsqueeze 2) [row_idx_expand]; PE (OUnsqueeze 2) [arr]] in
      let reshaped := PE OReshape [concat; PE (OConstVec [-1; 2]%Z) []] in
      let '(values, counts) := if is2 then (PE (OUniqueRows UValues) [reshaped], PE (OUniqueRows UCounts) [reshaped]) else (PE (OUnique UValues) [arr], PE (OUnique UCounts) [arr]) in
      let to_check := if is2 then PE (OSqueeze 1) [PE (OSlice 1 2 1) [values]] else values in
      let size_unsq := PE (OUnsqueeze 0) [size] in
      let output_shape := if is2 then PE (OConcat 0) [num_rows; size_unsq] else size_unsq in
      let valid := PE OAnd [PE OGreater [to_check; PE (OConst (-1)) []]; PE OLess [to_check; size]] in
      let valid_values := PE OCompress [values; valid] in
      let valid_counts := if binary then PE (OConstantOfShape 1) [PE (OSlice 0 1 0) [PE OShape [valid_values]]] else PE OCompress [counts; valid] in
      let zeros := PE (OConstantOfShape 0) [output_shape] in
      Some (PE (if is2 then OScatterND else OScatterElements) [zeros; valid_values; valid_counts])
    else None
  | None => None
  end.
(** DynamicPartition.any_version, 3081-3106: output i; [shape]: recorded shape of the partitions *)
Definition partition (shape : option (list Z)) (n i : nat) : option pexpr :=
  match shape with
  | Some [_] =>
      let range := PE (OConstMat 1 (map (fun k => [Z.of_nat k]) (seq 0 n))) [] in
      let equal := PE OCastInt [PE OEqual [PIn "partitions"; range]] in
      Some (PE OCompress [PIn "data"; PE (OSqueeze 0) [PE OCastBool [PE (OSplit n i) [equal]]]])
  | _ => None
  end.
(** Concat of the inputs, one after the other *)
Fixpoint concat_of (l : list pexpr) : option pexpr :=
  match l with [] => None | [e] => Some e | e :: l' => match concat_of l' with Some r => Some (PE (OConcat 0) [e; r]) | None => None end end.
(** DynamicStitch.any_version, 3120-3150.  [index_shapes], [data_shapes]: recorded; data of rank 1 are taken as rows of one cell, what is
    behind the first axis is flattened (the Unsqueeze of the indices to the rank of the data, 3137-3140, is an Unsqueeze to rank 2) *)
Definition stitch (index_shapes data_shapes : list (option (list Z))) (indices datas : list pexpr) : option pexpr :=
  if forallb (fun s => match s with Some [_] => true | _ => false end) index_shapes && forallb (fun s => match s with Some _ => true | None => false end) data_shapes then
    match concat_of indices, concat_of datas with
    | Some ix, Some d =>
        let shape := PE OShape [d] in
        Some (PE OScatterElements [PE OZeros [shape]; PE OExpand [PE (OUnsqueeze 1) [ix]; shape]; d])
    | _, _ => None
    end
  else None.
(** Unique.version_11, 2371-2405: the type to which the input is cast (2369-2373), if any; the types of ONNX *)
Inductive elem := EBool | EInt8 | EInt16 | EInt32 | EInt64 | EUint8 | EUint16 | EUint32 | EUint64 | EFloat | EDouble | EString.
Definition unique_cast (t : elem) : option elem :=
  match t with EBool | EInt32 | EInt16 | EUint8 | EUint16 | EUint32 | EUint64 => Some EInt64 | EDouble => Some EFloat | _ => None end.
(** outputs of the Unique node (sorted = 0) that become the outputs of the operator: values, inverse indices, counts; the values are cast back *)
Definition unique_outputs (n_outputs : nat) : list nat := match n_outputs with 3 => [0; 2; 3] | _ => [0; 2] end.
