(** What a user of the graph data structure relies on. *)
From Coq Require Import String List.
From Verif Require Import GraphModel.
Import ListNotations.
Local Open Scope string_scope.
Local Open Scope list_scope.

(** [node_at g i n]: object i is currently a node of the graph and its contents are n. *)
Definition node_at (g : graph) (i : nat) (n : node) : Prop := In i (nodes g) /\ heap g i = Some n.
Definition is_node (g : graph) (i : nat) : Prop := exists n, node_at g i n.

(** lookups agree with the node list; "" is not a tensor *)
Record lookups_consistent (g : graph) : Prop := {
  lc_nodup : NoDup (nodes g);
  lc_live : forall i, In i (nodes g) -> is_node g i;
  lc_name : forall name i, get_node_by_name g name = Some i <-> exists n, node_at g i n /\ n_name n = name;
  lc_out : forall o i, o <> "" ->
             (get_node_by_output g o = Some i <-> exists n, node_at g i n /\ In o (n_out n));
  lc_names_distinct : forall i j n m, node_at g i n -> node_at g j m -> n_name n = n_name m -> i = j;
  lc_outs_distinct : forall i j n m o, node_at g i n -> node_at g j m -> o <> "" ->
                       In o (n_out n) -> In o (n_out m) -> i = j }.

(** consumers found are real / none is missed *)
Definition consumers_sound (g : graph) : Prop :=
  forall t i, In i (find_output_consumers g t) -> exists n, node_at g i n /\ In t (n_in n).
Definition consumers_complete (g : graph) : Prop :=
  forall t i n, node_at g i n -> In t (n_in n) -> In i (find_output_consumers g t).

(** node names given to make_node are not empty *)
Definition named (e : edit) : Prop :=
  match e with EMake name _ _ _ _ => name <> "" | _ => True end.

(** An edit for which the consumer index stays complete: when one slot of a node is replaced or removed
    by index, the node must not use the old tensor in another slot; when all inputs of a node are
    replaced, no other node may be named like one of its own inputs that this node also uses. *)
Definition clean (g : graph) (e : edit) : Prop :=
  match e with
  | EReplaceInput i old new (Some k) =>
      forall n, heap g i = Some n -> old <> new -> ~ In old (list_set k new (n_in n))
  | ERemoveInput i t (Some k) =>
      forall n, heap g i = Some n -> ~ In t (remove_nth k (n_in n))
  | EReplaceInputs i news =>
      forall n j m, heap g i = Some n -> node_at g j m -> In (n_name m) (n_in n) ->
        In (n_name m) (n_in m) -> j = i
  | _ => True
  end.
Inductive clean_run : graph -> list edit -> graph -> Prop :=
| cr_nil g : clean_run g [] g
| cr_cons g e g1 es g2 : clean g e -> apply_edit g e = Some g1 -> clean_run g1 es g2 ->
    clean_run g (e :: es) g2.

(** nothing but the inputs of nodes differs *)
Definition same_except_inputs (g g' : graph) : Prop :=
  nodes g' = nodes g /\ g_outputs g' = g_outputs g /\ g_inputs g' = g_inputs g /\
  (forall o, get_node_by_output g' o = get_node_by_output g o) /\
  (forall x, get_node_by_name g' x = get_node_by_name g x) /\
  (forall i n, node_at g i n -> exists n', node_at g' i n' /\ n_name n' = n_name n /\ n_op n' = n_op n /\
      n_payload n' = n_payload n /\ n_out n' = n_out n).
