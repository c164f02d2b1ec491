(** Model of the handler of Pad, PadV2 and MirrorPad (tf2onnx/onnx_opset/nn.py:822-951): the expression that replaces the
    node.  Inputs of the environment: 0 the tensor, 1 the paddings, 2 the constant value of PadV2.
    [None] = the handler raises.
    Simplifications: names, shapes of new tensors and the pair of Casts around the node for the element types that the
    ONNX operator does not have are left out of the expression (the types are in [pad_data_type]); the DAG is written as a
    tree.  Scatter (opset 9 and 10) and ScatterElements are the same function. *)
From Coq Require Import List Arith ZArith Bool.
From Verif Require Import Tensor FoldModel TOps SpaceModel.
Import ListNotations.
Local Open Scope list_scope.

Inductive pad_mode := Constant | Reflect | Symmetric.
Section Handler.
Context {A : Type} (opset : nat).
Notation expr := (expr A).
(** 898, 932: np.array(...).transpose().flatten() of the rows (before, after) *)
Definition flat_pads (rows : list (Z * Z)) : list Z := map fst rows ++ map snd rows.
(** 927-931: the same at run time; the Cast to int64 keeps the values *)
Definition dyn_pads : expr := Op Reshape [Op (Transpose None) [Op Cast [Inp 1]]; vec [(-1)%Z]].

(** the Pad node with the given input 0: an attribute before opset 11, an input from then on *)
Definition pad_node (reflect has_value : bool) (const_pads : option (list Z)) (value : option (tensor A)) (x : expr) : option expr :=
  if Nat.ltb opset 11 then
    match const_pads with
    | None => None
    | Some p => if reflect then Some (Op (PadReflect (Some p)) [x])
                else if has_value then match value with Some v => Some (Op (Pad (Some p)) [x; CD v]) | None => None end
                else Some (Op (Pad (Some p)) [x])
    end
  else
    let p := match const_pads with Some p => vec p | None => dyn_pads end in
    Some (if reflect then Op (PadReflect None) [x; p] else if has_value then Op (Pad None) [x; p; Inp 2] else Op (Pad None) [x; p]).

(** 842-848 *)
Definition non_zero_axes (rank : nat) (const_pads : option (list Z)) : list nat :=
  match const_pads with
  | None => seq 0 rank
  | Some p => filter (fun i => negb (Z.eqb (nth i p 0%Z) 0) || negb (Z.eqb (nth (i + rank) p 0%Z) 0)) (seq 0 rank)
  end.
(** 850-853 *)
Definition inc_pads (rank : nat) (axes : list nat) : list Z :=
  let one k := if existsb (Nat.eqb k) axes then 1%Z else 0%Z in map one (seq 0 rank) ++ map one (seq 0 rank).
(** 855-859 *)
Definition padded_inp (rank : nat) (axes : list nat) : expr :=
  if Nat.ltb opset 11 then Op (Pad (Some (inc_pads rank axes))) [Inp 0] else Op (Pad None) [Inp 0; vec (inc_pads rank axes)].
(** 872-879 *)
Definition to_remove (rank : nat) (const_pads : option (list Z)) (a : nat) : expr :=
  match const_pads with
  | Some p => vec [nth a p 0%Z; (-1 - nth (a + rank) p 0%Z)%Z]
  | None => Op Sub [Op Mul [Op (Gather 0) [dyn_pads; vec [Z.of_nat a; Z.of_nat (a + rank)]]; vec [1%Z; (-1)%Z]]; vec [0%Z; 1%Z]]
  end.
(** 863-884, one round of the loop; padded = the output of the reflect Pad *)
Definition remove_step (rank : nat) (const_pads : option (list Z)) (padded : expr) (output : expr) (a : nat) : expr :=
  let dims_a := Op (Split 0 rank a) [Op Shape [padded]] in
  let ones_of_shape := Op (ConstantOfShape true) [dims_a] in
  let dims_to_keep := Op ScatterElements [ones_of_shape; to_remove rank const_pads a; CB (Tensor [2] [false; false])] in
  Op (Compress a) [output; dims_to_keep].
(** 829-886 *)
Definition symmetric (rank : option nat) (const_pads : option (list Z)) : option expr :=
  match rank with
  | None => None
  | Some rank =>
      if Nat.ltb opset 9 then None else
      let axes := non_zero_axes rank const_pads in
      match pad_node true false const_pads None (padded_inp rank axes) with
      | Some padded => Some (fold_left (remove_step rank const_pads padded) axes padded)
      | None => None
      end
  end.
(** 888-918 and 920-951.  pads = the rows of the paddings if they are constant; value = the constant value of PadV2 if it
    is constant (only needed before opset 11) *)
Definition pad (mode : pad_mode) (rank : option nat) (pads : option (list (Z * Z))) (has_value : bool) (value : option (tensor A)) : option expr :=
  let const_pads := option_map flat_pads pads in
  match mode with
  | Constant => pad_node false has_value const_pads value (Inp 0)
  | Reflect => pad_node true false const_pads None (Inp 0)
  | Symmetric => symmetric rank const_pads
  end.
End Handler.

(** 908-915 and 936-945: the element types in front of and behind the node *)
Inductive elem_type := Float16 | Float | Double | Int32 | Int64 | OtherType.
Definition pad_data_type (opset : nat) (t : elem_type) : elem_type :=
  if Nat.ltb opset 11 then match t with Float16 | Float | Double => t | _ => Float end
  else match t with Float | Double | Int32 | Int64 => t | _ => Float end.
(** the type of the constant value: an attribute of type float before opset 11, input 2 of the TensorFlow node from then on *)
Definition pad_value_type (opset : nat) (t : elem_type) : elem_type := if Nat.ltb opset 11 then pad_data_type opset t else t.
