(** Executing a model node by node, as an ONNX runtime does: the independent specification for C13. *)
From Coq Require Import String List Bool.
From Coq Require Import Permutation.
From Verif Require Import FGraph FGraphSpec.
Import ListNotations.
Local Open Scope string_scope.
Local Open Scope list_scope.

Section Exec.
Variable V : Type.
Variable op_rel : string -> string -> list (string * attr) -> nat -> list V ->
                  list (list V -> list V -> Prop) -> list V -> Prop.

(** [exec_node r n r']: run n in the store r giving the store r'.  [exec_body r g args res]: call the body
    graph g from the store r: bind the inputs, run the nodes one after the other in the order of the node
    list, read the outputs. *)
Fixpoint exec_node (r : env V) (n : fnode) (r' : env V) {struct n} : Prop :=
  match n with
  | FNode _ op dom at_ ins outs bodies =>
      exists vs, op_rel op dom at_ (length outs) (map r ins) (map (exec_body r) bodies) vs /\ produces r' outs vs /\
                 forall t, ~ In t (nonempty outs) -> r' t = r t
  end
with exec_body (r : env V) (g : fgraph) (args res : list V) {struct g} : Prop :=
  match g with
  | FGraph ns gi go =>
      exists r0 r1, (forall t, ~ In t (nonempty gi) -> r0 t = r t) /\ map r0 gi = args /\
        (fix steps (r : env V) (ns : list fnode) (r' : env V) : Prop :=
           match ns with
           | [] => forall t, r' t = r t
           | n :: ns' => exists rm, exec_node r n rm /\ steps rm ns' r'
           end) r0 ns r1 /\ map r1 go = res
  end.

Fixpoint steps (r : env V) (ns : list fnode) (r' : env V) : Prop :=
  match ns with
  | [] => forall t, r' t = r t
  | n :: ns' => exists rm, exec_node r n rm /\ steps rm ns' r'
  end.
End Exec.
Arguments exec_node {V}. Arguments exec_body {V}. Arguments steps {V}.

(** A graph whose node list, at every depth, is in execution order: no node reads a tensor produced by
    itself or by a later node. *)
Definition in_order (ns : list fnode) : Prop :=
  forall l1 n l2 t, ns = l1 ++ n :: l2 -> In t (fv_node n) ->
    ~ In t (nonempty (concat (map f_out (n :: l2)))).
Definition ordered (g : fgraph) : Prop := forall h, within g h -> in_order (f_nodes h).

(** The same graph up to the order of the nodes, at every depth. *)
Inductive reordered_node : fnode -> fnode -> Prop :=
| RN nm op dom at_ ins outs bs bs' : Forall2 reordered bs bs' ->
    reordered_node (FNode nm op dom at_ ins outs bs) (FNode nm op dom at_ ins outs bs')
with reordered : fgraph -> fgraph -> Prop :=
| RG ns ns1 ns' gi go : Forall2 reordered_node ns ns1 -> Permutation ns1 ns' ->
    reordered (FGraph ns gi go) (FGraph ns' gi go).

(** the operator of node n delivers all the outputs the node lists, on any input *)
Definition delivers {V} (op_rel : string -> string -> list (string * attr) -> nat -> list V ->
                     list (list V -> list V -> Prop) -> list V -> Prop) (n : fnode) : Prop :=
  forall ins bs, exists vs, op_rel (f_op n) (f_dom n) (f_attrs n) (length (f_out n)) ins bs vs /\ length (f_out n) <= length vs.
Definition all_deliver {V} (op_rel : string -> string -> list (string * attr) -> nat -> list V ->
                     list (list V -> list V -> Prop) -> list V -> Prop) (g : fgraph) : Prop :=
  forall h n, within g h -> In n (f_nodes h) -> delivers op_rel n.
(** operators are functions *)
Definition op_det {V} (op_rel : string -> string -> list (string * attr) -> nat -> list V ->
                     list (list V -> list V -> Prop) -> list V -> Prop) : Prop :=
  forall op dom at_ k ins bs vs vs', op_rel op dom at_ k ins bs vs -> op_rel op dom at_ k ins bs vs' -> vs = vs'.
