(** Model of the handlers BatchToSpace (tf2onnx/onnx_opset/tensor.py:1514-1687) and SpaceToBatch (1690-1845): the ONNX
    expression that replaces the node.  Input 0 of the environment is the tensor, input 2 the crops / paddings matrix
    (input 1, the block shape, is never read by the graph).  [None] = the handler raises.
    Simplifications: block_shape is a list of natural numbers (TensorFlow requires >= 1); node names, output shapes and
    dtypes are left out; the DAG is written as a tree. *)
From Coq Require Import List Arith ZArith Bool.
From Verif Require Import Tensor FoldModel TOps.
Import ListNotations.
Local Open Scope list_scope.

Definition int32_max := 2147483647%Z.
Definition int64_max := 9223372036854775807%Z.
Definition znat := map Z.of_nat.
(** python's range(a, b, s) for s > 0 *)
Definition py_range (a b s : nat) : list nat := map (fun k => a + s * k) (seq 0 ((b - a + s - 1) / s)).

Section Builder.
Context {A : Type} (opset : nat).
Definition vec (l : list Z) : expr A := CI (zvec l).
(** graph_builder.py:165-200 make_squeeze and 202-238 make_unsqueeze with constant axes *)
Definition make_squeeze (axes : list Z) (x : expr A) : expr A :=
  if Nat.ltb opset 13 then Op (Squeeze (Some axes)) [x] else Op (Squeeze None) [x; vec axes].
Definition make_unsqueeze (axes : list Z) (x : expr A) : expr A :=
  if Nat.ltb opset 13 then Op (Unsqueeze (Some axes)) [x] else Op (Unsqueeze None) [x; vec axes].
(** graph_builder.py:26-82 make_slice with constant starts, ends, axes *)
Definition make_slice_const (starts ends axes : list Z) (x : expr A) : expr A :=
  if Nat.ltb opset 10 then Op (Slice (Some (starts, ends, Some axes))) [x] else Op (Slice None) [x; vec starts; vec ends; vec axes].
(** the same with computed starts and ends: before opset 10 convert_to_attribute raises *)
Definition make_slice_dyn (starts ends axes : expr A) (x : expr A) : option (expr A) :=
  if Nat.ltb opset 10 then None else Some (Op (Slice None) [x; starts; ends; axes]).
End Builder.

Section Handlers.
Context {A : Type} (opset : nat) (block : list nat) (xlen : nat).
Notation expr := (expr A).
Definition blocklen := length block.
(** 1527-1529 and 1703-1709 cond1, cond2/cond3 *)
Definition square_2d : bool :=
  (Nat.eqb xlen 3 || Nat.eqb xlen 4) && Nat.eqb blocklen 2 && Nat.eqb (nth 0 block 0) (nth 1 block 0).
Definition input0 : expr := Inp 0.
Definition input2 : expr := Inp 2.
Definition bshape : expr := vec (znat block).

(** 1540-1549 and 1723-1733: to the layout "CNHW" *)
Definition trans1 : expr :=
  if Nat.eqb xlen 3 then Op (Transpose (Some [3; 0; 1; 2])) [make_unsqueeze opset [3%Z] input0]
  else Op (Transpose (Some [1; 0; 2; 3])) [Op (Transpose (Some [0; 3; 1; 2])) [input0]].
(** 1605-1618 and 1761-1772: and back *)
Definition trans_back (x : expr) : expr :=
  if Nat.eqb xlen 3 then make_squeeze opset [3%Z] (Op (Transpose (Some [1; 2; 3; 0])) [x])
  else Op (Transpose (Some [0; 2; 3; 1])) [Op (Transpose (Some [1; 0; 2; 3])) [x]].

(** 1560-1567 *)
Definition crop_end (e : Z) : Z := if negb (Z.eqb e 0) then Z.opp e else int32_max.
(** 1568-1593: the crops computed in the graph *)
Definition four (k : nat) : expr := Op (Split 0 4 k) [Op Cast [Op Reshape [input2; vec [(-1)%Z]]]].
Definition crop_to_end (crop : expr) : expr :=
  let eq := Op Equal [crop; vec [0%Z]] in
  let not_eq := Op Not [eq] in
  let cast_eq := Op Cast [eq] in
  let cast_not_eq := Op Cast [not_eq] in
  let neg := Op Neg [cast_not_eq] in
  Op Add [Op Mul [crop; neg]; Op Mul [vec [int32_max]; cast_eq]].
Definition dyn_starts : expr := Op (Concat 0) [four 0; four 2].
Definition dyn_ends : expr := Op (Concat 0) [crop_to_end (four 1); crop_to_end (four 3)].

(** 1530-1618: the path through DepthToSpace; [crops] = the constant value of input 2, if it is one *)
Definition b2s_square (crops : option (list (Z * Z))) : option expr :=
  let reorganize := Op (DepthToSpace (nth 0 block 0)) [trans1] in
  match crops with
  | Some [(top, bottom); (lft, rgt)] =>
      Some (trans_back (make_slice_const opset [top; lft] [crop_end bottom; crop_end rgt] [2%Z; 3%Z] reorganize))
  | Some _ => None
  | None => option_map trans_back (make_slice_dyn opset dyn_starts dyn_ends (vec [2%Z; 3%Z]) reorganize)
  end.

(** 1638-1682: the general path *)
Definition x_shape : expr := Op Shape [input0].
Definition one_const : expr := vec [1%Z].
Definition minus1_const : expr := vec [(-1)%Z].
Definition blocklenplus1_const : expr := vec [Z.of_nat (blocklen + 1)].
Definition spatial_of (shape_ : expr) : expr := Op (Slice None) [shape_; one_const; blocklenplus1_const].
Definition depth_of (shape_ : expr) : expr := Op (Slice None) [shape_; blocklenplus1_const; vec [int64_max]].
Definition target_spatial : expr := Op Mul [spatial_of x_shape; bshape].
(** 1652-1655 and 1822-1825: a1 b1 a2 b2 ... *)
Definition interleave (a : expr) : expr :=
  let ccat1 := Op (Concat 0) [a; bshape] in
  let re1 := Op Reshape [ccat1; vec [(-1)%Z; Z.of_nat blocklen]] in
  let tr1 := Op (Transpose None) [re1] in
  Op Reshape [tr1; minus1_const].
(** 1656 *)
Definition b2s_shape1 : expr := Op (Concat 0) [minus1_const; interleave (spatial_of x_shape); depth_of x_shape].
(** 1659-1661 and 1828-1831 *)
Definition evens : list nat := py_range 2 (2 * blocklen + 1) 2.
Definition odds : list nat := py_range 1 (2 * blocklen + 1) 2.
Definition gperm : list nat := evens ++ [0] ++ odds ++ skipn (1 + 2 * blocklen) (seq 0 (xlen + blocklen)).
(** 1664-1669 *)
Definition p_start : list nat := upd 2 0 (upd 1 (blocklen + 1) (upd 0 blocklen (seq 0 (xlen + blocklen)))).
Definition p_perm : list nat :=
  fold_left (fun p i => upd i (nth (i - 2) p 0 + 1) p) (seq 3 (blocklen * 2 + 1 - 3)) p_start.
(** 1672-1677 *)
Definition b2s_gather : expr := Op (Gather 0) [b2s_shape1; vec (znat gperm)].
Definition b2s_x2 : expr := Op Reshape [input0; b2s_gather].
Definition b2s_tr2 : expr := Op (Transpose (Some p_perm)) [b2s_x2].
Definition b2s_shape2 : expr := Op (Concat 0) [minus1_const; target_spatial; depth_of x_shape].
Definition b2s_x3 : expr := Op Reshape [b2s_tr2; b2s_shape2].
(** 1680-1698 *)
Definition crop_transposed : expr := Op (Transpose None) [Op Cast [input2]].
Definition crop_starts : expr := Op (Slice None) [crop_transposed; vec [0%Z; 0%Z]; vec [1%Z; int64_max]].
Definition crop_ends : expr := Op (Slice None) [crop_transposed; vec [1%Z; 0%Z]; vec [2%Z; int64_max]].
Definition end_range : expr := Op Sub [target_spatial; make_squeeze opset [0%Z] crop_ends].
Definition b2s_general : option expr :=
  if Nat.ltb opset 11 then None else
  Some (Op (Slice None) [b2s_x3; make_squeeze opset [0%Z] crop_starts; end_range; vec (znat (seq 1 blocklen))]).

(** 1516-1698 *)
Definition batch_to_space (crops : option (list (Z * Z))) : option expr :=
  if square_2d then b2s_square crops else b2s_general.

(** 1734-1756: the pads *)
Definition s2b_pad (pads : option (list (Z * Z))) : option expr :=
  match pads with
  | Some [(top, bottom); (lft, rgt)] =>
      let p := [0; 0; top; lft; 0; 0; bottom; rgt]%Z in
      Some (if Nat.leb opset 10 then Op (Pad (Some p)) [trans1] else Op (Pad None) [trans1; vec p])
  | Some _ => None
  | None =>
      let zero := vec [0%Z] in
      Some (Op (Pad None) [trans1; Op (Concat 0) [zero; zero; four 0; four 2; zero; zero; four 1; four 3]])
  end.
(** 1711-1772: the path through SpaceToDepth *)
Definition s2b_square (pads : option (list (Z * Z))) : option expr :=
  option_map (fun pad_op => trans_back (Op (SpaceToDepth (nth 0 block 0)) [pad_op])) (s2b_pad pads).

(** 1797-1807: the paddings with one row of zeros before and rank - M - 1 after, begins first *)
Definition pad_rows : expr := Op Cast [input2].
Definition gapminus1 : expr :=
  Op Sub [Op Sub [Op Size [x_shape]; Op (Slice None) [Op Shape [pad_rows]; vec [0%Z]; one_const]]; one_const].
Definition padfilltop : expr := Op (Pad None) [pad_rows; vec [1; 0; 0; 0]%Z].
Definition padfilltopbottom : expr := Op (Pad None) [padfilltop; Op Mul [vec [0; 0; 1; 0]%Z; gapminus1]].
Definition pad1d : expr := Op Reshape [Op (Transpose None) [padfilltopbottom]; minus1_const].
(** 1811-1815 *)
Definition s2b_x1 : expr := Op (Pad None) [input0; pad1d].
Definition x1_shape : expr := Op Shape [s2b_x1].
Definition reduced_ : expr := Op Div [spatial_of x1_shape; bshape].
(** 1818-1823 *)
Definition s2b_shape1 : expr := Op (Concat 0) [minus1_const; interleave reduced_; depth_of x1_shape].
Definition s2b_x2 : expr := Op Reshape [s2b_x1; s2b_shape1].
(** 1831-1840 *)
Definition s2b_tr2 : expr := Op (Transpose (Some gperm)) [s2b_x2].
Definition s2b_shape2 : expr := Op (Concat 0) [minus1_const; reduced_; depth_of x1_shape].
Definition s2b_general : option expr :=
  if Nat.ltb opset 11 then None else Some (Op Reshape [s2b_tr2; s2b_shape2]).

(** 1692-1845 *)
Definition space_to_batch (pads : option (list (Z * Z))) : option expr :=
  let cond2 := match pads with Some _ => true | None => Nat.leb 11 opset end in
  if square_2d && cond2 then s2b_square pads else s2b_general.
End Handlers.
