(** QuantizeLinear and DequantizeLinear on tensors and in graphs, from the ONNX operator documentation, for every
    arithmetic with which a quantised value survives the way forth and back. *)
From Coq Require Import String List Arith ZArith Reals Bool.
From Verif Require Import FGraph Tensor OnnxSpec NNSpec PushSpec SwitchSpec QuantSpec.
Import ListNotations.
Local Open Scope nat_scope.
Local Open Scope string_scope.
Local Open Scope list_scope.

(** a value of the quantised type with range [lo, hi], or a float *)
Inductive scalar := QV (lo hi v : Z) | RV (x : R).
Notation V := (tensor scalar).

(** how values are quantised and dequantised; [ok lo hi s z]: valid parameters *)
Record arithmetic := {
  ok : Z -> Z -> R -> Z -> Prop;
  deq : R -> Z -> Z -> R;
  qua : Z -> Z -> R -> Z -> R -> Z -> Prop;
  deq_qua : forall lo hi s z q q', ok lo hi s z -> (lo <= q <= hi)%Z -> (qua lo hi s z (deq s z q) q' <-> q' = q) }.

(** the scale and the zero point for index ix: scalars, or one for each position along the axis *)
Definition param {A} (ax : nat) (t : tensor A) (ix : list nat) : option A :=
  match shape t with [] => get t [] | _ => get t [nth ax ix 0] end.
Definition params_ok (axis : Z) (s z x : V) (ax : nat) : Prop :=
  wf s /\ wf z /\ shape z = shape s /\
  (shape s = [] \/ (norm_axis (length (shape x)) axis = Some ax /\ shape s = [nth ax (shape x) 0])).
Definition deq_rel (ar : arithmetic) (axis : Z) (s z x y : V) : Prop :=
  exists ax, params_ok axis s z x ax /\ wf x /\ wf y /\ shape y = shape x /\
  forall ix, inb ix (shape x) -> exists lo hi sv zv q, param ax s ix = Some (RV sv) /\ param ax z ix = Some (QV lo hi zv) /\ ok ar lo hi sv zv /\
    get x ix = Some (QV lo hi q) /\ (lo <= q <= hi)%Z /\ get y ix = Some (RV (deq ar sv zv q)).
Definition qua_rel (ar : arithmetic) (axis : Z) (s z x y : V) : Prop :=
  exists ax, params_ok axis s z x ax /\ wf x /\ wf y /\ shape y = shape x /\
  forall ix, inb ix (shape x) -> exists lo hi sv zv a q, param ax s ix = Some (RV sv) /\ param ax z ix = Some (QV lo hi zv) /\ ok ar lo hi sv zv /\
    get x ix = Some (RV a) /\ get y ix = Some (QV lo hi q) /\ qua ar lo hi sv zv a q.

Section Means.
Variable op_rel : string -> string -> list (string * attr) -> nat -> list V -> list (list V -> list V -> Prop) -> list V -> Prop.
(** with a zero point (third input); the axis defaults to 1 *)
Record qdq_means (ar : arithmetic) : Prop := {
  q_quant : exists other, means op_rel "QuantizeLinear" (fun at_ ws v w =>
     match ws with [s; z] => qua_rel ar (int_attr "axis" at_ 1) s z v w | _ => other at_ ws v w end);
  q_dequant : exists other, means op_rel "DequantizeLinear" (fun at_ ws v w =>
     match ws with [s; z] => deq_rel ar (int_attr "axis" at_ 1) s z v w | _ => other at_ ws v w end) }.
End Means.

(** An operator with one output that only copies elements: of the inputs with index in [idx] only the shapes decide
    whether the operator is defined ([plan]) and from which position [jx] of which of these inputs, [k], the element at
    position [ix] of the output comes ([from]).  If there are several such positions, the elements there are equal. *)
Definition view {A} (idx : list nat) (ws : list (tensor A)) : list (list nat + tensor A) :=
  map (fun kx => if existsb (Nat.eqb (fst kx)) idx then inl (shape (snd kx)) else inr (snd kx)) (combine (seq 0 (length ws)) ws).
Definition copies {A} (len : nat) (idx : list nat) (R : list (tensor A) -> tensor A -> Prop) : Prop :=
  exists (plan : list (list nat + tensor A) -> list nat -> Prop) (from : list (list nat + tensor A) -> list nat -> list nat -> nat -> list nat -> Prop),
  forall ws w, length ws = len ->
    (R ws w <-> (forall k x, In k idx -> nth_error ws k = Some x -> wf x) /\ wf w /\ plan (view idx ws) (shape w) /\
       forall ix, inb ix (shape w) -> (exists k jx, from (view idx ws) (shape w) ix k jx) /\
         forall k jx, from (view idx ws) (shape w) ix k jx -> exists x, In k idx /\ nth_error ws k = Some x /\ inb jx (shape x) /\ get w ix = get x jx).
(** the relation of a node with one output and no body *)
Definition relates (op_rel : string -> string -> list (string * attr) -> nat -> list V -> list (list V -> list V -> Prop) -> list V -> Prop) (n : fnode) (R : list V -> V -> Prop) : Prop :=
  forall ws vs, op_rel (f_op n) (f_dom n) (f_attrs n) 1 ws [] vs <-> exists w, vs = [w] /\ R ws w.

(** the data input comes first; the parameters come from attributes or from the further inputs *)
Definition first_rel {A P} (par : list (tensor A) -> option P) (rel : P -> tensor A -> tensor A -> Prop) (ws : list (tensor A)) (w : tensor A) : Prop :=
  match ws with x :: us => exists p, par us = Some p /\ rel p x w | [] => False end.

(** ONNX's operator documentation: the inputs whose elements reach the output, for the operators that only move elements
    around (Scatter: data and updates; Concat: all inputs; indices, shapes, axes, repeats and the like carry no elements).
    None: the operator computes something, or is not considered. *)
Inductive carries : string -> nat -> list nat -> Prop :=
  | carry_one op len : In op ["Identity"; "Transpose"; "Reshape"; "Flatten"; "Squeeze"; "Unsqueeze"; "Expand"; "Tile"; "Slice"; "Split"; "Gather"; "GatherND"; "GatherElements";
                              "Compress"; "ReverseSequence"; "DepthToSpace"] -> carries op len [0]
  | carry_scatter op len : In op ["Scatter"; "ScatterND"; "ScatterElements"] -> carries op len [0; 2]
  | carry_concat len : carries "Concat" len (seq 0 len).
