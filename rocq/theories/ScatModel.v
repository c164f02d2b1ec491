(** Model of the handlers of ScatterNd and TensorScatterAdd/Max/Min/Sub/Update, tf2onnx/onnx_opset/tensor.py:648-709.
    The casts of the indices and the shape to int64 do not change their values and are left out. *)
From Coq Require Import List Arith ZArith Bool.
From Verif Require Import Tensor FoldModel OnnxSpec TOps ScatSpec.
Import ListNotations.
Local Open Scope list_scope.

Inductive scatter_op := ScatterNd | ScatterAdd | ScatterMax | ScatterMin | ScatterSub | ScatterUpdate.
(** the attribute reduction; None: not set *)
Inductive reduction := RAdd | RMax | RMin.
(** the node that replaces the operator: where its three inputs come from (ConstantOfShape of an input, Neg of an input), and the reduction *)
Inductive input := Input (i : nat) | Zeros (i : nat) | Negated (i : nat).
Record scatter_node := ScatterNode { ins : list input; red : option reduction }.
(** 648-709; the versions are tf_op's: a handler is used from its opset on *)
Definition convert (opset : nat) (o : scatter_op) : option scatter_node :=
  let same := [Input 0; Input 1; Input 2] in
  match o with
  | ScatterNd => if Nat.leb 11 opset then Some (ScatterNode [Zeros 2; Input 0; Input 1] None) else None (* 649-660 *)
  | ScatterAdd => if Nat.leb 16 opset then Some (ScatterNode same (Some RAdd)) else None (* 663-670 *)
  | ScatterMax => if Nat.leb 16 opset then Some (ScatterNode same (Some RMax)) else None (* 673-680 *)
  | ScatterMin => if Nat.leb 16 opset then Some (ScatterNode same (Some RMin)) else None (* 683-690 *)
  | ScatterSub => if Nat.leb 16 opset then Some (ScatterNode [Input 0; Input 1; Negated 2] (Some RAdd)) else None (* 693-701 *)
  | ScatterUpdate => if Nat.leb 11 opset then Some (ScatterNode same None) else None (* 704-709 *)
  end.

Section Run.
Context {A : Type} (add sub max min : A -> A -> A) (neg : A -> A) (zero : A).
Inductive val := Vals (t : tensor A) | Ints (t : tensor Z).
Definition input_value (vs : list val) (i : input) : option val :=
  match i with
  | Input i => nth_error vs i
  | Zeros i => match nth_error vs i with Some (Ints t) => option_map Vals (f_constant_of_shape zero t) | _ => None end
  | Negated i => match nth_error vs i with Some (Vals t) => Some (Vals (f_unary neg t)) | _ => None end
  end.
(** the reductions that ScatterND has: add (and mul) from opset 16 on, max and min from opset 18 on *)
Definition onnx_reduction (opset : nat) (r : option reduction) : option (A -> A -> A) :=
  match r with
  | None => Some (fun _ u => u)
  | Some RAdd => if Nat.leb 16 opset then Some add else None
  | Some RMax => if Nat.leb 18 opset then Some max else None
  | Some RMin => if Nat.leb 18 opset then Some min else None
  end.
Definition run (opset : nat) (n : scatter_node) (vs : list val) : option (tensor A) :=
  match onnx_reduction opset (red n), sequence (map (input_value vs) (ins n)) with
  | Some f, Some [Vals t; Ints idx; Vals upd] => if Nat.leb 11 opset then f_scatter_nd f t idx upd else None
  | _, _ => None
  end.
(** ** TensorFlow *)
Definition tf_op (o : scatter_op) : A -> A -> A :=
  match o with ScatterNd => add | ScatterAdd => add | ScatterMax => max | ScatterMin => min | ScatterSub => sub | ScatterUpdate => fun _ u => u end.
(** scatter_nd has its own order of arguments, and starts from zeros *)
Definition arguments (o : scatter_op) (t : tensor A) (idx : tensor Z) (upd : tensor A) : list val :=
  match o with ScatterNd => [Ints idx; Vals upd; Ints (zvec (map Z.of_nat (shape t)))] | _ => [Vals t; Ints idx; Vals upd] end.
Definition before (o : scatter_op) (t : tensor A) (p : list nat) : option A := match o with ScatterNd => Some zero | _ => get t p end.
End Run.
Arguments val : clear implicits.
