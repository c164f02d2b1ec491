(** Model of the handlers of the ragged operators, tf2onnx/onnx_opset/tensor.py:2504-2806: each output as an expression (a node
    that is used twice is written once, by let).  Casts between integer types and the Casts of the maximum to double and
    back at opset 11 (2704-2708) do not change the integers and are left out. *)
From Coq Require Import String List ZArith Bool.
From Verif Require Import RagSpec.
Import ListNotations.
Local Open Scope string_scope.
Local Open Scope list_scope.

Definition max_int64 : Z := 9223372036854775807.
Definition zero : expr := E (KConst 0) [].
(** ragged_lengths_to_sparse_indices, 2504-2524: num_rows, num_cols, row_indices, col_indices *)
Definition lengths_to_sparse (lens : expr) : expr * expr * expr * expr :=
  let num_cols := E KReduceMax [lens] in
  let num_rows := E KShape [lens] in
  let range_len := E (KArith Mul) [num_cols; num_rows] in
  let range := E (KCumSum true) [E (KConstantOfShape 1) [range_len]; zero] in
  let cols := E (KArith Mod) [range; num_cols] in
  let rows := E (KArith Div) [range; num_cols] in
  let keep := E (KCompare Less) [cols; E KGather [lens; rows]] in
  (num_rows, num_cols, E KCompress [rows; keep], E KCompress [cols; keep]).
(** ragged_row_ids_to_sparse_indices, 2527-2545: num_cols, col_indices *)
Definition row_ids_to_sparse (ids : expr) : expr * expr :=
  let counts := E (KUnique Counts) [ids] in
  let shifted := E (KSlice 0 (-1)) [E KConcat [E (KConstVec [0%Z]) []; E (KArith Sub) [E (KConst 1) []; counts]]] in
  let deltas := E KScatterElements [E (KConstantOfShape 1) [E KShape [ids]]; E (KUnique First) [ids]; shifted] in
  (E KReduceMax [counts], E (KCumSum false) [deltas; zero]).
(** lengths of the rows, 2554-2558 and 2755-2760 *)
Definition lengths_of (splits : expr) : expr := E (KArith Sub) [E (KSlice 1 max_int64) [splits]; E (KSlice 0 (-1)) [splits]].
(** ragged_nested_splits_to_sparse_indices, 2548-2570: the indices and the dims (2569: concatenated) *)
Fixpoint nested_splits_loop (l : list expr) (sparse : option expr) (dims : list expr) : option expr * list expr :=
  match l with
  | [] => (sparse, dims)
  | s :: l' =>
      let '(num_rows, num_cols, rows, cols) := lengths_to_sparse (lengths_of s) in
      let dims := match dims with [] => [num_rows] | _ => dims end ++ [num_cols] in
      let row_indices := match sparse with None => E KUnsqueeze1 [rows] | Some sp => E KGather [sp; rows] end in
      nested_splits_loop l' (Some (E KConcat1 [row_indices; E KUnsqueeze1 [cols]])) dims
  end.
(** Concat of the dims *)
Fixpoint concat_all (l : list expr) : option expr :=
  match l with [] => None | [e] => Some e | e :: l' => match concat_all l' with Some r => Some (E KConcat [e; r]) | None => None end end.
Definition nested_splits_to_sparse (l : list expr) : option (expr * expr) :=
  let '(sparse, dims) := nested_splits_loop l None [] in
  match sparse, concat_all dims with Some s, Some d => Some (s, d) | _, _ => None end.
(** ragged_nested_row_ids_to_sparse_indices, 2573-2592 *)
Fixpoint nested_row_ids_loop (l : list expr) (sparse : option expr) (dims : list expr) : option expr * list expr :=
  match l with
  | [] => (sparse, dims)
  | ids :: l' =>
      let '(num_cols, cols) := row_ids_to_sparse ids in
      let row_indices := match sparse with None => E KUnsqueeze1 [ids] | Some sp => E KGather [sp; ids] end in
      nested_row_ids_loop l' (Some (E KConcat1 [row_indices; E KUnsqueeze1 [cols]])) (dims ++ [num_cols])
  end.
Definition nested_row_ids_to_sparse (num_rows : expr) (l : list expr) : option (expr * expr) :=
  let '(sparse, dims) := nested_row_ids_loop l None [E KUnsqueeze0 [num_rows]] in
  match sparse, concat_all dims with Some s, Some d => Some (s, d) | _, _ => None end.
(** RaggedTensorToSparse, 2596-2608; [rank]: the recorded rank of the values.  The second output is the values *)
Definition to_sparse (rank : option nat) (nested : list expr) : option (expr * expr) :=
  match rank with None | Some 1 => nested_splits_to_sparse nested | _ => None end.
(** RaggedRange, 2675-2734, for integers: the splits and the values; [rank_s], [rank_d]: recorded ranks of starts and deltas *)
Definition ragged_range (rank_s rank_d : option nat) : expr * expr :=
  let starts := EIn "starts" in let limits := EIn "limits" in let deltas := EIn "deltas" in
  let diff := E (KArith Sub) [limits; starts] in
  let div := E (KArith Div) [diff; deltas] in
  let offset := E KCastBool [E KNot [E (KCompare Equal) [E (KArith Mul) [div; deltas]; diff]]] in
  let row_lens := E (KArith Maximum) [E (KArith RagSpec.Add) [div; offset]; zero] in
  let '(num_rows, _, rows, cols) := lengths_to_sparse row_lens in
  let splits := E KConcat [E (KConstVec [0%Z]) []; E (KCumSum false) [row_lens; zero]] in
  let expand r e := match r with Some 1 => e | _ => E KExpand [e; num_rows] end in
  (splits, E (KArith RagSpec.Add) [E KGather [expand rank_s starts; rows]; E (KArith Mul) [cols; E KGather [expand rank_d deltas; rows]]]).
(** RaggedGather, 2738-2805: the splits and the values; [ranks]: PARAMS_RAGGED_RANK, OUTPUT_RAGGED_RANK and the number of splits;
    [rank_s], [rank_v]: recorded ranks of the splits and the values *)
Definition ragged_gather (in_rank out_rank n_splits : nat) (rank_s rank_v : option nat) : option (expr * expr) :=
  let ok r := match r with None | Some 1 => true | _ => false end in
  if Nat.eqb in_rank 1 && Nat.eqb out_rank 1 && Nat.eqb n_splits 1 && ok rank_s && ok rank_v then
    let splits := EIn "splits" in let indices := EIn "indices" in
    let lens := E KGather [lengths_of splits; indices] in
    let gathered_splits := E (KCumSum false) [E KConcat [E (KConstVec [0%Z]) []; lens]; zero] in
    let total := E (KSlice (-1) max_int64) [gathered_splits] in
    let starts := E KGather [splits; indices] in
    let non_zero := E (KCompare Greater) [lens; zero] in
    let prev_lens := E (KSlice 0 (-1)) [E KConcat [E (KConstVec [0%Z]) []; E KCompress [lens; non_zero]]] in
    let nz_starts := E KCompress [starts; non_zero] in
    let nz_splits := E KCompress [gathered_splits; non_zero] in
    let prev_starts := E KConcat [E (KConstVec [1%Z]) []; E (KSlice 0 (-1)) [nz_starts]] in
    let deltas := E (KArith RagSpec.Add) [E (KArith Sub) [E (KArith Sub) [nz_starts; prev_starts]; prev_lens]; E (KConst 1) []] in
    let full := E KScatterElements [E (KConstantOfShape 1) [total]; nz_splits; deltas] in
    Some (gathered_splits, E KGather [EIn "values"; E (KCumSum false) [full; zero]])
  else None.
