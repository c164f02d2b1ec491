(** Model of the handler SegmentSum, tf2onnx/onnx_opset/reduction.py:192-351 (opsets 11 and 13: the same nodes).
    Simplifications: Casts of ids and num_segments to int64 do not change them; the identity row (319-325: Shape, Slice,
    ConstantOfShape, Unsqueeze) is one node; the reshaping of the amounts to the rank of the data (332-344) is part of the
    division of row i by amount i. *)
From Coq Require Import List Arith ZArith Bool String.
From Verif Require Import ElemSpec SegSpec.
Import ListNotations.
Local Open Scope string_scope.
Local Open Scope list_scope.

Inductive rop := RSum | RProd | RMax | RMin.
(** the nodes, the tensor that is reduced along axis 1, the reduction, the tensor by which the result is divided *)
Record seg_graph := SegGraph { g_nodes : list snode; g_grid : string; g_reduce : rop; g_scale : option string }.

Fixpoint strip_prefix (p s : string) : option string :=
  match p with
  | "" => Some s
  | String a p' => match s with String b s' => if Ascii.eqb a b then strip_prefix p' s' else None | "" => None end
  end.
Definition strip_suffix (p s : string) : option string :=
  let n := String.length s - String.length p in
  if String.eqb (substring n (String.length p) s) p then Some (substring 0 n s) else None.
(** 204-210: num_segments is given; the name without WithNumSegments and Unsorted *)
Definition specified (tf : string) : bool * string :=
  match strip_suffix "WithNumSegments" tf with
  | Some s => (true, s)
  | None => match strip_prefix "Unsorted" tf with Some s => (true, s) | None => (false, tf) end
  end.
(** 213-219 *)
Definition sparse (t : string) : bool * string := match strip_prefix "Sparse" t with Some s => (true, s) | None => (false, t) end.
(** 236-260: the reduction and the identity; for integers and Max, Min np.iinfo(..).min is a Python int, and 323
    "identity_value.tolist()" raises *)
Definition reduction_of (t : string) (is_float : bool) : option (rop * identity) :=
  if existsb (String.eqb t) ["SegmentSum"; "SegmentMean"; "SegmentSqrtN"] then Some (RSum, IZero)
  else if String.eqb t "SegmentProd" then Some (RProd, IOne)
  else if String.eqb t "SegmentMax" then if is_float then Some (RMax, INegInf) else None
  else if String.eqb t "SegmentMin" then if is_float then Some (RMin, IPosInf) else None
  else None.
(** 262-266 *)
Definition num_nodes : list snode :=
  [SNode (OReduceMax false) ["segment_inp"] ["max_segment"]; SNode (OConst 1) [] ["one_const"]; SNode OAdd ["max_segment"; "one_const"] ["num_segments"]].
(** 267-280 *)
Definition sort_nodes : list snode :=
  [SNode OUnsqueeze0 ["num_segments"] ["num_segments_unsq"]; SNode OShape ["segment_inp"] ["seg_shape"]; SNode OSqueeze0 ["seg_shape"] ["seg_shape_sq"];
   SNode OTopKSmallest ["segment_inp"; "seg_shape"] ["segs_sorted"; "indices"]; SNode OUnique ["segs_sorted"] ["seg_values"; "inv_indices"; "seg_cnts_sorted"];
   SNode (OReduceMax true) ["seg_cnts_sorted"] ["max_cnt"]].
(** 282-302; the name of the amounts *)
Definition scale_nodes (t : string) (given : bool) (num_const : option Z) : list snode * option string :=
  if existsb (String.eqb t) ["SegmentMean"; "SegmentSqrtN"] then
    let cnts := [match num_const with
                 | Some n => SNode (OConstVec (repeat 0%Z (Z.to_nat n))) [] ["zeros"]
                 | None => SNode (OConstantOfShape 0) ["num_segments_unsq"] ["zeros"]
                 end;
                 SNode OScatterElements ["zeros"; "seg_values"; "seg_cnts_sorted"] ["seg_cnts"]; SNode OCastAmount ["seg_cnts"] ["seg_cnts_float"]] in
    let '(nodes, amt) := if String.eqb t "SegmentMean" then (cnts, "seg_cnts_float") else (cnts ++ [SNode OSqrt ["seg_cnts_float"] ["seg_cnts_sqrt"]], "seg_cnts_sqrt") in
    if given then (nodes ++ [SNode OMaxOne [amt] ["scaling_max"]], Some "scaling_max") else (nodes, Some amt)
  else ([], None).
(** 305-327 *)
Definition grid_nodes (data_inp : string) (i : identity) : list snode :=
  [SNode (OConst 0) [] ["zero_const_int64"]; SNode (OConst 1) [] ["one_const_int64"]; SNode ORange ["zero_const_int64"; "seg_shape_sq"; "one_const_int64"] ["seg_range"];
   SNode OGather ["seg_cnts_sorted"; "inv_indices"] ["id_to_cnt"]; SNode OMod ["seg_range"; "id_to_cnt"] ["range_mod"];
   SNode OConcat0 ["num_segments_unsq"; "max_cnt"] ["idx_grid_shape"]; SNode (OConstantOfShape (-1)) ["idx_grid_shape"] ["idx_grid"];
   SNode OUnsqueezeLast ["segs_sorted"] ["segs_sorted_unsq"]; SNode OUnsqueezeLast ["range_mod"] ["range_mod_unsq"];
   SNode OConcat1 ["segs_sorted_unsq"; "range_mod_unsq"] ["scatter_indices"]; SNode OScatterND ["idx_grid"; "scatter_indices"; "indices"] ["scatted_grid"];
   SNode (OIdentityRow i) [data_inp] ["id_unsq"]; SNode OConcat0 [data_inp; "id_unsq"] ["data_with_id"]; SNode OGather ["data_with_id"; "scatted_grid"] ["data_grid"]].
(** the whole graph; its inputs are data, indices_inp (sparse), segment_inp, num_segments (if given); [num_const]: the value
    of num_segments if it is a constant; [seg_rank]: the recorded rank of the ids *)
Definition segment_graph (tf : string) (d : dtype) (seg_rank : option nat) (num_const : option Z) : option seg_graph :=
  let '(given, t1) := specified tf in
  let '(is_sparse, t) := sparse t1 in
  let gather := if is_sparse then [SNode OGather ["data"; "indices_inp"] ["data_gathered"]] else [] in
  let data_inp := if is_sparse then "data_gathered" else "data" in
  match seg_rank, d with
  | Some 1, (FLT _ | INT (I8 | I16 | I32 | I64)) =>
      match reduction_of t (match d with FLT _ => true | _ => false end) with
      | None => None
      | Some (r, i) =>
          let '(scale, amt) := scale_nodes t given (if given then num_const else None) in
          Some (SegGraph (gather ++ (if given then [] else num_nodes) ++ sort_nodes ++ scale ++ grid_nodes data_inp i) "data_grid" r amt)
      end
  | _, _ => None
  end.
