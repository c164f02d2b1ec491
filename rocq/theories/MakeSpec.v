(** ONNX GraphProto and its meaning, and the meaning of a graph with Placeholder and Const nodes. *)
From Coq Require Import String List Bool ZArith.
From Verif Require Import FGraph FGraphSpec.
Import ListNotations.
Local Open Scope string_scope.
Local Open Scope list_scope.

(** ** GraphProto: nodes, inputs, initializers, outputs *)
Inductive pnode : Type :=
| PNode (p_name p_op p_dom : string) (p_attrs : list (string * attr)) (p_in p_out : list string) (p_bodies : list pgraph)
with pgraph : Type :=
| PGraph (p_nodes : list pnode) (p_ins : list string) (p_inits : list (string * attr)) (p_outs : list string).
Definition p_name (n : pnode) := match n with PNode x _ _ _ _ _ _ => x end.
Definition p_op (n : pnode) := match n with PNode _ x _ _ _ _ _ => x end.
Definition p_in (n : pnode) := match n with PNode _ _ _ _ x _ _ => x end.
Definition p_out (n : pnode) := match n with PNode _ _ _ _ _ x _ => x end.
Definition p_nodes (g : pgraph) := match g with PGraph x _ _ _ => x end.
Definition p_ins (g : pgraph) := match g with PGraph _ x _ _ => x end.
Definition p_inits (g : pgraph) := match g with PGraph _ _ x _ => x end.
Definition p_outs (g : pgraph) := match g with PGraph _ _ _ x => x end.

Section Meaning.
Context {V : Type} (op_rel : string -> string -> list (string * attr) -> nat -> list V -> list (list V -> list V -> Prop) -> list V -> Prop)
        (tensor : attr -> V).
(** A body graph called with arguments: its parameters are the inputs that are not initializers. *)
Fixpoint p_holds (r : string -> V) (n : pnode) {struct n} : Prop :=
  match n with
  | PNode _ op dom at_ ins outs bodies => exists vs, op_rel op dom at_ (length outs) (map r ins) (map (p_body r) bodies) vs /\ produces r outs vs
  end
with p_body (r : string -> V) (g : pgraph) (args res : list V) {struct g} : Prop :=
  match g with
  | PGraph ns gi inits go =>
      exists r' : string -> V,
        (forall t, ~ In t (nonempty (gi ++ map fst inits ++ concat (map p_out ns))) -> r' t = r t) /\
        map r' (filter (fun i => negb (mem i (map fst inits))) gi) = args /\
        (forall x a, In (x, a) inits -> r' x = tensor a) /\
        (fix all (ns : list pnode) : Prop := match ns with [] => True | n :: ns' => p_holds r' n /\ all ns' end) ns /\
        map r' go = res
  end.
(** The model run with some inputs given: those that are not given must have an initializer, an initializer counts for
    names without a given value. *)
Definition p_run (feeds : string -> option V) (g : pgraph) (res : list V) : Prop :=
  exists r : string -> V,
    (forall i v, In i (p_ins g) -> feeds i = Some v -> r i = v) /\
    (forall i, In i (p_ins g) -> feeds i = None -> In i (map fst (p_inits g))) /\
    (forall x a, In (x, a) (p_inits g) -> (In x (p_ins g) -> feeds x = None) -> r x = tensor a) /\
    (forall n, In n (p_nodes g) -> p_holds r n) /\ map r (p_outs g) = res.

(** ** The internal graph: Placeholder nodes are parameters *)
Definition input_node (n : fnode) : Prop := f_op n = "Placeholder" \/ f_op n = "PlaceholderWithDefault" \/ f_op n = "PlaceholderV2".
Definition const_node (n : fnode) : Prop := f_op n = "Const" \/ f_op n = "ConstV2".
(** the graph and its body graphs without their Placeholder nodes *)
Definition no_input (n : fnode) : bool := negb (mem (f_op n) ["Placeholder"; "PlaceholderWithDefault"; "PlaceholderV2"]).
Fixpoint strip_node (n : fnode) : fnode :=
  match n with FNode nm op dom at_ ins outs bodies => FNode nm op dom at_ ins outs (map strip bodies) end
with strip (g : fgraph) : fgraph := match g with FGraph ns gi go => FGraph (filter no_input (map strip_node ns)) gi go end.
(** A run with some inputs given: the others must have a default, the first input of the node. *)
Definition g_run (feeds : string -> option V) (g : fgraph) (res : list V) : Prop :=
  exists r : string -> V,
    (forall n, In n (f_nodes g) -> ~ input_node n -> holds op_rel r (strip_node n)) /\
    (forall n o, In n (f_nodes g) -> input_node n -> In o (f_out n) ->
       match feeds o with
       | Some v => r o = v
       | None => f_op n = "PlaceholderWithDefault" /\ exists d rest, f_in n = d :: rest /\ r o = r d
       end) /\
    map r (f_outs g) = res.
(** what constants mean: their value attribute *)
Definition constant_meaning : Prop :=
  forall op dom at_ a vs, op = "Const" \/ op = "ConstV2" -> In ("value", a) at_ -> (forall b, In ("value", b) at_ -> b = a) ->
    (op_rel op dom at_ 1 [] [] vs <-> vs = [tensor a]).
End Meaning.

(** ** Graphs that can be written *)
Record writable_graph (g : fgraph) : Prop := {
  wg_ssa : NoDup (concat (map f_out (f_nodes g)));
  wg_named : forall n, In n (f_nodes g) -> input_node n \/ const_node n -> exists o, f_out n = [o] /\ o <> "" /\ f_bodies n = [];
  wg_const : forall n, In n (f_nodes g) -> const_node n -> f_in n = [] /\ exists a, In ("value", a) (f_attrs n) /\ forall b, In ("value", b) (f_attrs n) -> b = a;
  wg_ins : forall i, In i (f_ins g) -> exists n, In n (f_nodes g) /\ input_node n /\ f_out n = [i];
  wg_ins_once : NoDup (f_ins g) }.
(** [g] the graph; body graphs have no defaults and list all their parameters; the constant of a default is used for nothing else *)
Record writable (g : fgraph) : Prop := {
  wr_graphs : forall h, within g h -> writable_graph h;
  wr_bodies : forall n b h m, In n (f_nodes g) -> In b (f_bodies n) -> within b h -> In m (f_nodes h) -> input_node m -> f_op m <> "PlaceholderWithDefault" /\ forall o, In o (f_out m) -> In o (f_ins h);
  wr_default : forall n d m, In n (f_nodes g) -> f_op n = "PlaceholderWithDefault" -> In d (f_in n) -> In m (f_nodes g) -> ~ input_node m -> ~ In d (fv_node m);
  wr_default_out : forall n d, In n (f_nodes g) -> f_op n = "PlaceholderWithDefault" -> In d (f_in n) -> ~ In d (f_outs g) }.
