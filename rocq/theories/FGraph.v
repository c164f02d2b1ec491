(** A graph with nested body graphs as a value, and its meaning.

    This is the abstraction of tf2onnx/graph.py Graph/Node used for statements about what a model
    computes: a graph is a set of equations, a node constrains the values of its outputs by the values of
    its inputs and by the input/output behaviour of its body graphs.  What each operator computes is a
    parameter, so theorems hold for every interpretation of the operators. *)
From Coq Require Import String List Bool ZArith.
Import ListNotations.
Local Open Scope string_scope.
Local Open Scope list_scope.

(** node attributes (onnx AttributeProto); tensors are opaque identifiers *)
Inductive attr := AInt (z : Z) | AInts (l : list Z) | AStr (s : string) | ATensor (id : nat).

(** graph.py:33-59 Node, 455-545 Graph.  Placeholder nodes are not nodes here but graph inputs.
    [f_bodies]: contained_graphs (graph.py:352-362). *)
Inductive fnode : Type :=
| FNode (f_name f_op f_dom : string) (f_attrs : list (string * attr)) (f_in f_out : list string)
        (f_bodies : list fgraph)
with fgraph : Type :=
| FGraph (f_nodes : list fnode) (f_ins f_outs : list string).

Definition f_name (n : fnode) := match n with FNode x _ _ _ _ _ _ => x end.
Definition f_op (n : fnode) := match n with FNode _ x _ _ _ _ _ => x end.
Definition f_dom (n : fnode) := match n with FNode _ _ x _ _ _ _ => x end.
Definition f_attrs (n : fnode) := match n with FNode _ _ _ x _ _ _ => x end.
Definition f_in (n : fnode) := match n with FNode _ _ _ _ x _ _ => x end.
Definition f_out (n : fnode) := match n with FNode _ _ _ _ _ x _ => x end.
Definition f_bodies (n : fnode) := match n with FNode _ _ _ _ _ _ x => x end.
Definition f_nodes (g : fgraph) := match g with FGraph x _ _ => x end.
Definition f_ins (g : fgraph) := match g with FGraph _ x _ => x end.
Definition f_outs (g : fgraph) := match g with FGraph _ _ x => x end.

Definition mem (x : string) (l : list string) : bool := existsb (String.eqb x) l.
Definition nonempty (l : list string) : list string := filter (fun x => negb (String.eqb x "")) l.

(** names defined by a graph itself: its inputs and the outputs of its nodes ("" is no name) *)
Definition defs (g : fgraph) : list string :=
  nonempty (f_ins g ++ concat (map f_out (f_nodes g))).

Section Semantics.
Variable V : Type.
Definition env := string -> V.
(** [op_rel op domain attributes k inputs bodies outputs]; k is the number of outputs the node lists *)
Variable op_rel : string -> string -> list (string * attr) -> nat -> list V ->
                  list (list V -> list V -> Prop) -> list V -> Prop.

Definition produces (r : env) (outs : list string) (vs : list V) : Prop :=
  forall k o, nth_error outs k = Some o -> o <> "" -> nth_error vs k = Some (r o).

(** [holds r n]: the equation of node n holds under the valuation r of all tensor names.
    [body_rel r g args res]: with the surrounding valuation r, body g maps args to res. *)
Fixpoint holds (r : env) (n : fnode) {struct n} : Prop :=
  match n with
  | FNode _ op dom at_ ins outs bodies =>
      exists vs, op_rel op dom at_ (length outs) (map r ins) (map (body_rel r) bodies) vs /\ produces r outs vs
  end
with body_rel (r : env) (g : fgraph) (args res : list V) {struct g} : Prop :=
  match g with
  | FGraph ns gi go =>
      exists r' : env,
        (forall t, ~ In t (nonempty (gi ++ concat (map f_out ns))) -> r' t = r t) /\
        map r' gi = args /\
        (fix all (ns : list fnode) : Prop :=
           match ns with [] => True | n :: ns' => holds r' n /\ all ns' end) ns /\
        map r' go = res
  end.

Definition all_hold (r : env) (ns : list fnode) : Prop := forall n, In n ns -> holds r n.
Lemma body_rel_eq r g args res :
  body_rel r g args res <->
  exists r' : env, (forall t, ~ In t (defs g) -> r' t = r t) /\ map r' (f_ins g) = args /\
    all_hold r' (f_nodes g) /\ map r' (f_outs g) = res.
Proof.
  destruct g as [ns gi go]. cbn [body_rel]. unfold defs, all_hold. cbn [f_ins f_nodes f_outs].
  assert (K : forall r' l, (fix all (ns : list fnode) : Prop :=
           match ns with [] => True | n :: ns' => holds r' n /\ all ns' end) l <-> forall n, In n l -> holds r' n).
  { intros r' l. induction l as [|n l IH]; [firstorder|]. rewrite IH. cbn [In]. split.
    - intros [A B] m [->|Hm]; auto.
    - intro A. split; auto. }
  split; intros (r' & A & B & C & D); exists r'; (split; [exact A|split; [exact B|split; [apply K; exact C|exact D]]]).
Qed.
Lemma holds_eq r n : holds r n <->
  exists vs, op_rel (f_op n) (f_dom n) (f_attrs n) (length (f_out n)) (map r (f_in n)) (map (body_rel r) (f_bodies n)) vs /\
             produces r (f_out n) vs.
Proof. destruct n. reflexivity. Qed.

(** Two graphs mean the same, in every surrounding scope. *)
Definition equiv (g g' : fgraph) : Prop :=
  forall r args res, body_rel r g args res <-> body_rel r g' args res.
End Semantics.
Arguments holds {V}. Arguments body_rel {V}. Arguments all_hold {V}. Arguments equiv {V}. Arguments produces {V}.

(** Operators see their bodies only through their behaviour. *)
Definition op_ext {V} (op_rel : string -> string -> list (string * attr) -> nat -> list V ->
                     list (list V -> list V -> Prop) -> list V -> Prop) : Prop :=
  forall op dom at_ k ins bs bs' vs,
    Forall2 (fun b b' : list V -> list V -> Prop => forall a r, b a r <-> b' a r) bs bs' ->
    op_rel op dom at_ k ins bs vs -> op_rel op dom at_ k ins bs' vs.

(** free names *)
Fixpoint fv_node (n : fnode) : list string :=
  match n with FNode _ _ _ _ ins _ bodies => ins ++ concat (map fv_graph bodies) end
with fv_graph (g : fgraph) : list string :=
  match g with
  | FGraph ns gi go =>
      filter (fun x => negb (mem x (nonempty (gi ++ concat (map f_out ns))))) (concat (map fv_node ns) ++ gi ++ go)
  end.
(** all defined names, including those in bodies *)
Fixpoint alldefs_node (n : fnode) : list string :=
  match n with FNode _ _ _ _ _ outs bodies => nonempty outs ++ concat (map alldefs bodies) end
with alldefs (g : fgraph) : list string :=
  match g with FGraph ns gi go => nonempty gi ++ concat (map alldefs_node ns) end.

(** replace uses of name a by b, in node inputs at every depth (graph.py:1436-1466 replace_all_inputs; the
    outputs lists of graphs are not touched by the code) *)
Definition sub (a b x : string) : string := if String.eqb x a then b else x.
Fixpoint subst_node (a b : string) (n : fnode) : fnode :=
  match n with
  | FNode nm op dom at_ ins outs bodies =>
      FNode nm op dom at_ (map (sub a b) ins) outs (map (subst_graph a b) bodies)
  end
with subst_graph (a b : string) (g : fgraph) : fgraph :=
  match g with FGraph ns gi go => FGraph (map (subst_node a b) ns) gi go end.

(** body graphs return values they compute themselves *)
Fixpoint closed_node (n : fnode) : Prop :=
  match n with
  | FNode _ _ _ _ _ _ bodies =>
      (fix all (l : list fgraph) : Prop := match l with [] => True | g :: l' => closed_graph g /\ all l' end) bodies
  end
with closed_graph (g : fgraph) : Prop :=
  match g with
  | FGraph ns gi go =>
      (forall o, In o go -> In o (nonempty (gi ++ concat (map f_out ns)))) /\
      (fix all (l : list fnode) : Prop := match l with [] => True | n :: l' => closed_node n /\ all l' end) ns
  end.

(** induction over nodes and graphs *)
Section Ind.
Variables (P : fnode -> Prop) (Q : fgraph -> Prop).
Hypothesis HN : forall nm op dom at_ ins outs bodies, (forall b, In b bodies -> Q b) ->
  P (FNode nm op dom at_ ins outs bodies).
Hypothesis HG : forall ns gi go, (forall n, In n ns -> P n) -> Q (FGraph ns gi go).
Fixpoint fnode_rect' (n : fnode) : P n :=
  match n with
  | FNode nm op dom at_ ins outs bodies =>
      HN nm op dom at_ ins outs bodies
        ((fix all (l : list fgraph) : forall b, In b l -> Q b :=
            match l with
            | [] => fun b H => match H with end
            | g :: l' => fun b H => match H with
                                    | or_introl E => eq_ind g Q (fgraph_rect' g) b E
                                    | or_intror H' => all l' b H'
                                    end
            end) bodies)
  end
with fgraph_rect' (g : fgraph) : Q g :=
  match g with
  | FGraph ns gi go =>
      HG ns gi go
        ((fix all (l : list fnode) : forall b, In b l -> P b :=
            match l with
            | [] => fun b H => match H with end
            | n :: l' => fun b H => match H with
                                    | or_introl E => eq_ind n P (fnode_rect' n) b E
                                    | or_intror H' => all l' b H'
                                    end
            end) ns)
  end.
Lemma fnode_fgraph_ind : (forall n, P n) /\ (forall g, Q g).
Proof. split; [exact fnode_rect'|exact fgraph_rect']. Qed.
End Ind.
