(** Model of handlers of elementwise operators: tf2onnx/onnx_opset/logical.py, math.py and the Select handler of
    controlflow.py.  A handler is a function that makes nodes; the model returns the nodes it makes, in order, and the
    tensor that takes the place of the output.  [None] = an exception.
    Simplifications: names, shapes and dtypes recorded for the new tensors are not modelled (new names do not clash: C01);
    an edit of a node in place (node.type = ..., insert_new_node_on_output) is modelled by the node it becomes; the opset is
    at least 7 (before that, operators have a broadcast attribute); for Min and Max it is at least 8. *)
From Coq Require Import ZArith String List Bool.
From Flocq Require Import BinarySingleNaN.
From Verif Require Import ElemSpec.
Import ListNotations.
Local Open Scope string_scope.
Local Open Scope list_scope.

(** making nodes: graph.py:607-679 make_node and make_const, seen from a handler *)
Definition build (A : Type) := list step -> option (A * list step).
Definition ret {A} (x : A) : build A := fun l => Some (x, l).
Definition bind {A B} (m : build A) (k : A -> build B) : build B := fun l => match m l with Some (x, l') => k x l' | None => None end.
Definition fail {A} : build A := fun _ => None.
Definition make (op : string) (a : eattr) (ins : list ref) : build ref := fun l => Some (Tmp (List.length l), l ++ [Node op a ins]).
Definition make_const (sh : list nat) (v : val) : build ref := fun l => Some (Tmp (List.length l), l ++ [Const sh v]).
Definition built (m : build ref) : option (list step * ref) := match m [] with Some (r, l) => Some (l, r) | None => None end.
Notation "'do' x <- m ; k" := (bind m (fun x => k)) (at level 200, x pattern, m at level 100, k at level 200).

Definition dtype_eqb (a b : dtype) : bool :=
  match a, b with
  | BOOL, BOOL => true
  | INT t, INT u => ity_eqb t u
  | FLT F16, FLT F16 | FLT F32, FLT F32 | FLT F64, FLT F64 => true
  | _, _ => false
  end.
Definition in_dtypes (l : list dtype) (d : dtype) : bool := existsb (dtype_eqb d) l.
Definition floats : list dtype := [FLT F32; FLT F16; FLT F64].
(** a Cast of each input *)
Fixpoint cast_all (d : dtype) (ins : list ref) : build (list ref) :=
  match ins with
  | [] => ret []
  | i :: ins' => do c <- make "Cast" (To d) [i]; do cs <- cast_all d ins'; ret (c :: cs)
  end.
(** logical.py:20-30 _add_cast_to_inputs *)
Definition add_cast_to_inputs (supported : list dtype) (target : dtype) (d : dtype) (ins : list ref) : build (list ref) :=
  if in_dtypes supported d then ret ins else cast_all target ins.

Definition ref_eqb (a b : ref) : bool :=
  match a, b with In_ i, In_ j | Tmp i, Tmp j => Nat.eqb i j | _, _ => false end.

(** logical.py:62-111 Equal (the empty string is not modelled); the inputs have the same dtype [d] *)
Definition equal (opset : nat) (not_equal : bool) (d : dtype) (x y : ref) : build ref :=
  if Nat.ltb opset 11 then
    if not_equal && ref_eqb x y then make "IsNaN" NoAttr [x]
    else
      do ins <- add_cast_to_inputs [BOOL; INT I32; INT I64] (INT I32) d [x; y];
      do e <- make "Equal" NoAttr ins;
      if not_equal then make "Not" NoAttr [e] else ret e
  else
    do e <- make "Equal" NoAttr [x; y];
    if not_equal then make "Not" NoAttr [e] else ret e.
(** logical.py:114-131 GreaterLess.version_7 *)
Definition greater_less (op : string) (d : dtype) (x y : ref) : build ref :=
  do ins <- add_cast_to_inputs floats (FLT F32) d [x; y];
  make op NoAttr ins.
(** logical.py:133-148 GreaterLessEqual *)
Definition greater_less_equal (opset : nat) (greater : bool) (d : dtype) (x y : ref) : build ref :=
  if Nat.ltb opset 12 then
    do r <- greater_less (if greater then "Less" else "Greater") d x y;
    make "Not" NoAttr [r]
  else make (if greater then "GreaterOrEqual" else "LessOrEqual") NoAttr [x; y].

(** controlflow.py:138-181 Select.version_7, after the condition was reshaped *)
Definition select_7 (d : dtype) (c x y : ref) : build ref :=
  let tmp := if dtype_eqb d BOOL then INT I32 else d in
  do t <- (if dtype_eqb tmp d then ret x else make "Cast" (To tmp) [x]);
  do f <- (if dtype_eqb tmp d then ret y else make "Cast" (To tmp) [y]);
  do pos <- make "Cast" (To tmp) [c];
  do neg <- make "Not" NoAttr [c];
  do negc <- make "Cast" (To tmp) [neg];
  do m1 <- make "Mul" NoAttr [pos; t];
  do m2 <- make "Mul" NoAttr [f; negc];
  do r <- make "Add" NoAttr [m1; m2];
  if dtype_eqb tmp d then ret r else make "Cast" (To d) [r].
(** what Select.version_9 looks at: the node that computes the condition, and the nodes of the two branches *)
Inductive cond_node := CNaN | CInf | CNotEqual (same_inputs : bool) | CNotOfEqual (same_inputs : bool) | COther.
Inductive branch_node := BConst (vs : list val) | BMul (consts : list (list val)) | BOther.
Definition nan_or_inf (v : val) : bool := match v with VF _ x => negb (is_finite x) | _ => false end.
Definition inf_val (v : val) : bool := match v with VF _ x => is_inf x | _ => false end.
(** controlflow.py:190-215; [attr]: the attribute handles_nan *)
Definition handles_nan (attr : bool) (d : dtype) (c : cond_node) (bs : list branch_node) : bool :=
  if in_dtypes [FLT F32; FLT F64] d then
    let h := match c with CNaN | CInf | CNotEqual true | CNotOfEqual true => true | _ => attr end in
    fold_left (fun (h : bool) (b : branch_node) => if h then true else match b with
                                               | BConst vs => existsb nan_or_inf vs
                                               | BMul cs => existsb (existsb inf_val) cs
                                               | BOther => h end) bs h
  else attr.
(** controlflow.py:183-234 Select.version_9 *)
Definition select (opset : nat) (attr : bool) (d : dtype) (cn : cond_node) (bs : list branch_node) (c x y : ref) : build ref :=
  if Nat.ltb opset 9 || negb (handles_nan attr d cn bs) then select_7 d c x y else make "Where" NoAttr [c; x; y].
(** 160-165, 223-233: the shape a one-dimensional condition is reshaped to; [None]: an exception, [Some None]: not reshaped *)
Definition cond_reshape (v1 : bool) (cond_shape shape1 shape2 : option (list Z)) : option (option (list Z)) :=
  let input_shape := match shape1 with None => shape2 | s => s end in
  match cond_shape with
  | Some [n] =>
      if v1 then
        match input_shape with
        | None => None
        | Some s => if Nat.eqb (List.length s) 1 then Some None else Some (Some (n :: repeat 1%Z (List.length s - 1)))
        end
      else Some None
  | _ => Some None
  end.

(** math.py:82-143 make_min_or_max_op and 144-156 MinMaxOp; both inputs and the output have dtype [d] *)
Definition min_max_handler (opset : nat) (op : string) (d : dtype) (x y : ref) : build ref :=
  if Nat.ltb opset 12 then
    do ins <- (if in_dtypes floats d then ret [x; y] else cast_all (FLT F32) [x; y]);
    do r <- make op NoAttr ins;
    do r <- (if in_dtypes floats d then ret r else make "Cast" (To d) [r]);
    make "Identity" NoAttr [r]
  else make op NoAttr [x; y].
(** math.py:158-199 ClipByValue *)
Definition clip_handler (opset : nat) (d : dtype) (x l h : ref) : build ref :=
  if Nat.ltb opset 12 then
    let s := in_dtypes floats d in
    do l <- (if s then ret l else make "Cast" (To (FLT F32)) [l]);
    do h <- (if s then ret h else make "Cast" (To (FLT F32)) [h]);
    do x <- (if s then ret x else make "Cast" (To (FLT F32)) [x]);
    do r <- make "Max" NoAttr [x; l];
    do r <- make "Min" NoAttr [r; h];
    if s then ret r else make "Cast" (To d) [r]
  else make "Clip" NoAttr [x; l; h].
(** math.py:224-230, 264-271 *)
Definition square (x : ref) : build ref := make "Mul" NoAttr [x; x].
Definition squared_difference (x y : ref) : build ref := do s <- make "Sub" NoAttr [x; y]; make "Mul" NoAttr [s; s].
(** math.py:274-307 Sign *)
Definition sign (opset : nat) (d : dtype) (x : ref) : build ref :=
  if Nat.ltb opset 9 then
    do z <- make_const [] (VF F32 fzero);
    do x' <- (if in_dtypes floats d then ret x else make "Cast" (To (FLT F32)) [x]);
    do g <- make "Greater" NoAttr [x'; z];
    do l <- make "Less" NoAttr [x'; z];
    do g <- make "Cast" (To d) [g];
    do l <- make "Cast" (To d) [l];
    make "Sub" NoAttr [g; l]
  else if dtype_eqb d BOOL then fail else make "Sign" NoAttr [x].
(** utils.map_onnx_to_numpy_type: a constant of the dtype; an integer dtype truncates 1/2 to 0 *)
Definition np_zero (d : dtype) : val := match d with BOOL => VB false | INT t => VI t 0 | FLT f => VF f fzero end.
Definition np_half (d : dtype) : val := match d with BOOL => VB true | INT t => VI t 0 | FLT f => VF f (round_to f 1 (-1)) end.
(** math.py:332-341 DivNoNan *)
Definition div_no_nan (d : dtype) (x y : ref) : build ref :=
  do q <- make "Div" NoAttr [x; y];
  do z <- make_const [] (np_zero d);
  do is_zero <- make "Equal" NoAttr [y; z];
  make "Where" NoAttr [is_zero; z; q].
(** math.py:512-523 FloorDiv *)
Definition floor_div (d : dtype) (x y : ref) : build ref :=
  do q <- make "Div" NoAttr [x; y];
  if in_dtypes floats d then make "Floor" NoAttr [q] else ret q.
(** math.py:526-543 FloorMod *)
Definition floor_mod_handler (d : dtype) (x y : ref) : build ref :=
  do q <- make "Div" NoAttr [x; y];
  do q <- (if in_dtypes floats d then make "Floor" NoAttr [q] else ret q);
  do m <- make "Mul" NoAttr [q; y];
  make "Sub" NoAttr [x; m].
(** math.py:761-774 Round, 777-783 Rint *)
Definition round (opset : nat) (d : dtype) (x : ref) : build ref :=
  if Nat.ltb opset 11 then
    do h <- make_const [] (np_half d);
    do s <- make "Add" NoAttr [x; h];
    make "Floor" NoAttr [s]
  else make "Round" NoAttr [x].
(** math.py:793-817 BitShift, graph.py:422-441 maybe_cast_input *)
Definition shift_type (d : dtype) : option dtype :=
  match d with INT I8 => Some (INT U8) | INT I16 => Some (INT U32) | INT I32 => Some (INT U64) | _ => None end.
Definition bit_shift (left : bool) (d : dtype) (x y : ref) : build ref :=
  let a := Direction (if left then "LEFT" else "RIGHT") in
  if in_dtypes [INT U8; INT U16; INT U32; INT U64] d then make "BitShift" a [x; y]
  else match shift_type d with
       | None => fail
       | Some u => do ins <- cast_all u [x; y]; do r <- make "BitShift" a ins; make "Cast" (To d) [r]
       end.
(** math.py:882-902 IsFinite *)
Definition is_finite_handler (x : ref) : build ref :=
  do i <- make "IsInf" NoAttr [x];
  do n <- make "IsNaN" NoAttr [x];
  do o <- make "Or" NoAttr [i; n];
  make "Not" NoAttr [o].
(** what is known about the branches of Select: the elements of a constant *)
Definition consts_of (b : branch_node) : list val := match b with BConst vs => vs | _ => [] end.
(** the element that is not selected is finite, or an element of a constant *)
Definition unselected_const (b1 b2 : branch_node) (vs : list val) : Prop :=
  match vs with
  | [VB c; x; y] => match (if c then y else x) with VF _ z => is_finite z = true \/ In (if c then y else x) (consts_of (if c then b2 else b1)) | _ => True end
  | _ => True
  end.
