(** Model of the handler of MatrixBandPart, tf2onnx/onnx_opset/nn.py:1646-1803. *)
From Coq Require Import List Arith ZArith Bool.
From Verif Require Import Tensor FoldModel OnnxSpec TOps BandSpec.
Import ListNotations.
Local Open Scope list_scope.

(** MatrixBandPart.version_11, 1746-1803.  [rank] is the rank known to the converter; [lower] and [upper] are the values of constant
    inputs.  Casts of the bounds to INT64 and of a boolean input to FLOAT and back are left out (integers are unbounded). *)
Definition int64_max : Z := 9223372036854775807.
Definition is_zero (c : option Z) : bool := match c with Some v => Z.eqb v 0 | None => false end.
(** [num is None or num >= 0] *)
Definition checked (c : option Z) : bool := match c with Some v => (0 <=? v)%Z | None => true end.
Definition band11 (rank : option nat) (lower upper : option Z) : option rexpr :=
  let rank2 := match rank with Some r => Nat.eqb r 2 | None => false end in
  let shp := if rank2 then IShape else ISlice IShape (-2) int64_max in
  if is_zero lower && is_zero upper then
    Some (RMasked (if rank2 then MEyeLike else MEyeOf shp))
  else
    let zero := IConst (Tensor [] [0%Z]) in
    let one := IConst (Tensor [] [1%Z]) in
    let row_cnt := ISlice shp 0 1 in
    let col_cnt := ISlice shp 1 2 in
    let limit := IMul row_cnt col_cnt in
    let ones_of_shape := IExpand one limit in
    let idx_cnt := ICumSum ones_of_shape in
    let idx_reshape := IReshape idx_cnt shp in
    let row_idx := IDiv idx_reshape col_cnt in
    let col_idx := IMod idx_reshape col_cnt in
    let idx_diff := ISub col_idx row_idx in
    let conditions :=
      (if checked upper then [MNot (MGreater idx_diff IUpper)] else []) ++
      (if checked lower then [MNot (MGreater (INeg ILower) idx_diff)] else []) in
    match conditions with
    | [] => Some RData
    | [c] => Some (RMasked c)
    | [c; c'] => Some (RMasked (MAnd c c'))
    | _ => None
    end.

(** MatrixBandPart.version_7, 1668-1743: the mask is made line by line in a Loop *)
Section V7.
Context {A : Type}.
Variable mul : A -> A -> A.
Variables zero one : A.
(** Cast to BOOL *)
Variable truth : A -> bool.
(** the body of the loop: a False in front, the last entry cut off (1700-1713) *)
Definition shifted (counter_axis : nat) (line : tensor bool) : option (tensor bool) :=
  obind (f_concat (Z.of_nat counter_axis) [Tensor [1; 1] [false]; line]) (f_slice [0%Z] [(-1)%Z] (Some [Z.of_nat counter_axis])).
Fixpoint lines (counter_axis n : nat) (line : tensor bool) : option (list (tensor bool)) :=
  match n with
  | 0 => Some []
  | S n' => obind (shifted counter_axis line) (fun line' => option_map (cons line) (lines counter_axis n' line'))
  end.
Definition band7 (lower upper : option Z) (x : tensor A) : option (tensor A) :=
  if negb (Nat.eqb (length (shape x)) 2) then None else
  match lower, upper with
  | Some l, Some u =>
      let low := Z.eqb l (-1) && Z.eqb u 0 in
      if negb (low || (Z.eqb l 0 && Z.eqb u (-1))) then None else
      let '(axis, counter_axis, squeeze_axis) := if low then (1, 0, 2) else (0, 1, 1) in
      obind (f_gather (Z.of_nat axis) x (Tensor [1] [0%Z])) (fun first =>
      let casted := f_unary truth first in
      obind (f_binary xorb casted casted) (fun zero_line =>
      let one_line := f_unary negb zero_line in
      obind (lines counter_axis (nth axis (shape x) 0) one_line) (fun ls =>
      obind (f_stack ls) (fun scanned =>
      obind (f_squeeze [Z.of_nat squeeze_axis] scanned) (fun squeezed =>
      obind (if Nat.eqb axis 1 then f_transpose None squeezed else Some squeezed) (masked mul zero one x))))))
  | _, _ => None
  end.
End V7.
