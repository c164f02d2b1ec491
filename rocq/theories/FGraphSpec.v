(** Well-formed models, independent of any optimizer. *)
From Coq Require Import String List.
From Verif Require Import FGraph.
Import ListNotations.
Local Open Scope string_scope.

(** h is g or a body graph in it, at any depth *)
Inductive within (g : fgraph) : fgraph -> Prop :=
| within_refl : within g g
| within_body n b h : In n (f_nodes g) -> In b (f_bodies n) -> within b h -> within g h.

(** One graph of a valid ONNX model: every name is defined once (also with respect to nested and enclosing
    graphs), node names are distinct, outputs are defined in the graph, nothing depends on itself. *)
Record good (rank : string -> nat) (g : fgraph) : Prop := {
  g_outs : forall o, In o (f_outs g) -> In o (defs g);
  g_ssa : NoDup (alldefs g);
  g_scope : forall t, In t (fv_graph g) -> ~ In t (alldefs g);
  g_names : NoDup (map f_name (f_nodes g));
  g_acyclic : forall n t o, In n (f_nodes g) -> In t (fv_node n) -> In o (f_out n) -> o <> "" -> rank t < rank o;
  g_noself : ~ In "" (f_ins g) }.
Definition valid (g : fgraph) : Prop := exists rank, forall h, within g h -> good rank h.

(** Identity nodes have one input, one output and no body; input and output are named *)
Definition identity_shape (g : fgraph) : Prop :=
  forall h n, within g h -> In n (f_nodes h) -> f_op n = "Identity" ->
    exists x y, f_in n = [x] /\ f_out n = [y] /\ x <> "" /\ y <> "" /\ f_bodies n = [].

(** what the operator Identity means *)
Definition identity_meaning {V} (op_rel : string -> string -> list (string * attr) -> nat -> list V ->
                     list (list V -> list V -> Prop) -> list V -> Prop) : Prop :=
  forall dom at_ v vs, op_rel "Identity" dom at_ 1 [v] [] vs <-> vs = [v].
