(** Specification for C58: what the operators involved mean over the real numbers, and the groups of nodes that are fused. *)
From Coq Require Import String List Arith Bool ZArith Reals.
From Verif Require Import FGraph Tensor OnnxSpec PushSpec.
Import ListNotations.
Local Open Scope string_scope. Local Open Scope list_scope. Local Open Scope nat_scope.

Fixpoint lookup (key : string) (at_ : list (string * attr)) : option attr :=
  match at_ with [] => None | (k, v) :: l => if String.eqb k key then Some v else lookup key l end.

Section Means.
Notation V := (tensor R).
Variable op_rel : string -> string -> list (string * attr) -> nat -> list V -> list (list V -> list V -> Prop) -> list V -> Prop.
(** the tensors that attributes refer to *)
Variable cval : nat -> tensor R.
(** an operator with one output and no body *)
Definition is_op (op : string) (rel : list (string * attr) -> list V -> V -> Prop) : Prop :=
  forall dom at_ ins vs, op_rel op dom at_ 1 ins [] vs <-> exists w, vs = [w] /\ rel at_ ins w.
Definition binary (f : R -> R -> R) (at_ : list (string * attr)) (ins : list V) (w : V) : Prop :=
  exists a b, ins = [a; b] /\ elementwise_rel f a b w.
(** a number given as an attribute *)
Definition number (key : string) (at_ : list (string * attr)) (a : R) : Prop :=
  exists id, lookup key at_ = Some (ATensor id) /\ data (cval id) = [a].
(** booleans are the numbers 0 and 1 *)
Definition greater (a b : R) : R := if Rlt_dec b a then 1%R else 0%R.
Definition leaky_relu (a x : R) : R := if Rlt_dec x 0 then (a * x)%R else x.
Definition thresholded_relu (a x : R) : R := if Rlt_dec a x then x else 0%R.

Record relu_means : Prop := {
  (** TensorFlow *)
  m_const : is_op "Const" (fun at_ ins w => ins = [] /\ exists id, lookup "value" at_ = Some (ATensor id) /\ w = cval id);
  m_mul : is_op "Mul" (binary Rmult);
  m_maximum : is_op "Maximum" (binary Rmax);
  m_greater : is_op "Greater" (binary greater);
  (** Cast of a boolean tensor to a numeric type *)
  m_cast : forall dom at_ x vs, (forall ix v, get x ix = Some v -> v = 0%R \/ v = 1%R) -> op_rel "Cast" dom at_ 1 [x] [] vs -> vs = [x];
  (** ONNX *)
  m_leaky : is_op "LeakyRelu" (fun at_ ins w => exists x a, ins = [x] /\ number "alpha" at_ a /\ map_rel (leaky_relu a) x w);
  m_threshold : is_op "ThresholdedRelu" (fun at_ ins w => exists x a, ins = [x] /\ number "alpha" at_ a /\ map_rel (thresholded_relu a) x w) }.
End Means.

(** ** groups of nodes *)
(** the list is a, b in some order *)
Definition pair (l : list string) (a b : string) : Prop := l = [a; b] \/ l = [b; a].
Definition node_at (ns : list fnode) (op : string) (ins : list string) (o : string) (at_ : list (string * attr)) : Prop :=
  exists n, In n ns /\ f_op n = op /\ f_in n = ins /\ f_out n = [o] /\ f_attrs n = at_.
(** y = max(m, x), m = c * x, c a constant *)
Definition leaky_group (ns : list fnode) (x m y : string) (id : nat) : Prop :=
  exists c i1 i2 at1 at2 at3, node_at ns "Maximum" i2 y at2 /\ pair i2 m x /\ node_at ns "Mul" i1 m at1 /\ pair i1 c x /\
    node_at ns "Const" [] c at3 /\ lookup "value" at3 = Some (ATensor id).
(** y = k * x, k = cast(b), b = x > c, c a constant; [swapped]: b = c > x *)
Definition threshold_group (swapped : bool) (ns : list fnode) (x k y : string) (id : nat) : Prop :=
  exists b c i1 at1 at2 at3 at4, node_at ns "Mul" i1 y at1 /\ pair i1 k x /\ node_at ns "Cast" [b] k at2 /\
    node_at ns "Greater" (if swapped then [c; x] else [x; c]) b at3 /\ node_at ns "Const" [] c at4 /\ lookup "value" at4 = Some (ATensor id).

(** nodes of these types have named inputs, one named output, no body, as in every TensorFlow graph; a Const has a value and no input *)
Definition plain (ops : list string) (ns : list fnode) : Prop :=
  (forall n, In n ns -> ~ In "" (f_in n)) /\
  forall n, In n ns -> In (f_op n) ops -> f_bodies n = [] /\ (exists o, f_out n = [o] /\ o <> "") /\
    (f_op n = "Const" -> f_in n = [] /\ exists id, lookup "value" (f_attrs n) = Some (ATensor id)).
(** names not yet in use *)
Definition unused (name : nat -> string) (g : fgraph) : Prop :=
  (forall i j, name i = name j -> i = j) /\
  forall i, ~ In (name i) (map f_name (f_nodes g)) /\ ~ In (name i ++ ":0")%string (alldefs g) /\ ~ In (name i ++ ":0")%string (fv_graph g).
(** [g'] does what [g] does, wherever [g] gives a result *)
Definition same_results {V} (op_rel : string -> string -> list (string * attr) -> nat -> list V -> list (list V -> list V -> Prop) -> list V -> Prop) (g g' : fgraph) : Prop :=
  forall r args res, body_rel op_rel r g args res -> forall res', body_rel op_rel r g' args res' <-> res' = res.
