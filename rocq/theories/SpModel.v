(** Model of the handlers of SparseToDense, RaggedTensorToTensor, SparseReshape and SparseFillEmptyRows,
    tf2onnx/onnx_opset/tensor.py:2489-2501, 2611-2671, 2865-2985: each output as an expression of the inputs.  Casts between integer types are
    left out.  What is behind the ragged dimensions (has_uniform_dims, 2638-2645, 2660-2668) is part of a value. *)
From Coq Require Import String List ZArith Bool.
From Verif Require Import SpSpec RagSpec RagModel.
Import ListNotations.
Local Open Scope string_scope.
Local Open Scope list_scope.

Definition zero64 := C (CConst 0) [].
Definition one64 := C (CConst 1) [].
(** SparseToDense.version_11, 2490-2501; [idx_shape], [val_shape]: recorded shapes.  A recorded shape [] of the values raises an IndexError *)
Definition sparse_to_dense (idx_shape val_shape : option (list Z)) : option cexpr :=
  let first s := match s with Some (d :: _) => Some (Z.eqb d 1) | Some [] => None | None => Some false end in
  match first val_shape, first idx_shape with
  | Some val_is_scalar, Some idx_is_scalar =>
      if negb val_is_scalar || idx_is_scalar then Some (C CScatterND [C CExpandDense [CIn "default"; CIn "out_shape"]; CIn "sparse_indices"; CIn "sparse_vals"]) else None
  | _, _ => None
  end.
(** the second part of RaggedTensorToTensor.version_11, 2636-2671, behind the computation of sparse_indices and dense_shape; [rank]: recorded
    rank of the shape; the shape behind the ragged dimensions is cut off (2640-2645) *)
Definition to_tensor (rank : option nat) : cexpr :=
  let indices := CIn "sparse_indices" in let values := CIn "values" in
  match rank with
  | Some 0 => C CScatterND [C CExpandDense [CIn "default"; CIn "dense_shape"]; indices; values]
  | _ =>
      let unspec := C CLess [CIn "shape"; zero64] in
      let out_shape := C CWhere [unspec; CIn "dense_shape"; CIn "shape"] in
      let amount := C CSub [C CUnsqueeze0 [out_shape]; indices] in
      let in_bounds := C CGreater [C CReduceMinRows [amount]; zero64] in
      C CScatterND [C CExpandDense [CIn "default"; out_shape]; C CCompress [indices; in_bounds]; C CCompress [values; in_bounds]]
  end.
(** the first part, 2613-2635: the layouts *)
Inductive layout := RowSplits | RowIds.
Definition layout_of (types : list string) : option layout :=
  if Nat.leb 2 (List.length types) && match types with first :: rest => String.eqb first "FIRST_DIM_SIZE" && forallb (String.eqb "VALUE_ROWIDS") rest | [] => false end then Some RowIds
  else if forallb (String.eqb "ROW_SPLITS") types then Some RowSplits else None.
Definition to_tensor_indices (types : list string) (partitions : list expr) : option (expr * expr) :=
  match layout_of types with
  | Some RowSplits => nested_splits_to_sparse partitions
  | Some RowIds => match partitions with first :: ids => nested_row_ids_to_sparse first ids | [] => None end
  | None => None
  end.
(** np.tri(n, n) *)
Definition tri (n : nat) : list (list bool) := map (fun i => map (fun j => Nat.leb j i) (seq 0 n)) (seq 0 n).
(** cum_prod_of_vector, 2883-2898; [shape]: recorded shape of the vector (its one dimension is -1 if not known) *)
Definition cum_prod (shape : option (list Z)) (v : cexpr) : option cexpr :=
  let terms m := C CReduceProdRows [C CWhere [m; one64; v]] in
  let dynamic := terms (C CCastBool [C CCumSum0 [C CEyeLike [C (CConstantOfShape 0) [C CConcatTwice [C CShape [v]]]]; zero64]]) in
  match shape with
  | Some (n :: _) => if Z.eqb n (-1) then Some dynamic else Some (terms (C (CConstBoolMat (Z.to_nat n) (tri (Z.to_nat n))) []))
  | Some [] => None
  | None => Some dynamic
  end.
(** SparseReshape.any_version, 2867-2913: the indices and the shape; [shape_s], [shape_n]: recorded shapes of the shape and of the new shape
    (which is also recorded for the output of Where) *)
Definition sparse_reshape (shape_s shape_n : option (list Z)) : option (cexpr * cexpr) :=
  let indices := CIn "indices" in let shape := CIn "shape" in let new_shape := CIn "new_shape" in
  let product_curr := C CReduceProd [shape] in
  let product_new := C CReduceProd [new_shape] in
  let missing := C CNeg [C CDiv [product_curr; product_new]] in
  let out_shape := C CWhere [C CLess [new_shape; zero64]; missing; new_shape] in
  match cum_prod shape_s shape, cum_prod shape_n out_shape with
  | Some curr, Some new =>
      let inc := C (CPadVec 0 (-1)) [C CConcat [product_curr; new]] in
      let flat := C CMatMul [indices; curr] in
      Some (C CDiv [C CMod [C CUnsqueeze1 [flat]; inc]; new], out_shape)
  | _, _ => None
  end.
(** SparseFillEmptyRows.any_version, 2928-2974: indices, values, indicator; [consumers]: number of consumers of reverse_index_map *)
Definition fill_empty_rows (consumers : nat) : option (cexpr * cexpr * cexpr) :=
  if Nat.eqb consumers 0 then
    let indices := CIn "indices" in
    let unique := C CUnique [C (CSliceCols 0 1) [indices]] in
    let len := C (CSlice 0 1) [CIn "dense_shape"] in
    let indicators := C CScatterBools [C (CConstantOfShapeBool true) [len]; unique; C (CConstantOfShapeBool false) [C CShape [unique]]] in
    let range := C CRange [zero64; C CSqueeze0 [len]; one64] in
    let new_indices := C CCompress [range; indicators] in
    let new_values := C CExpand [CIn "default"; C CShape [new_indices]] in
    let width := C CSub [C (CSlice 1 2) [C CShape [indices]]; one64] in
    let new_2d := C CPad [C CUnsqueeze1 [new_indices]; C CConcat [C (CConstVec [0; 0; 0]%Z) []; width]] in
    Some (C CConcat [indices; new_2d], C CConcat [CIn "values"; new_values], indicators)
  else None.
