(** C07, C08, C44: topological sorts. *)
From Coq Require Import String List Permutation.
From Verif Require Import TopoModel TopoSpec TopoProofs.
Import ListNotations.
Local Open Scope string_scope.

(** C07 (utils.topological_sort): a successful sort lists every item once, dependencies first,
    and it succeeds only for acyclic, closed dependencies. *)
Theorem C07_utils_sort_orders_dependencies :
  forall d l, NoDup (map fst d) -> topological_sort d = TOk l ->
    Permutation l (map fst d) /\ (forall x y, depends d x y -> before l y x) /\
    ~ cyclic (depends d) /\ closed d.
Proof.
  intros d l Hn E. destruct (usort_ok_spec d l Hn E) as (A & B & C). repeat split; auto.
  eapply usort_unclosed; eauto.
Qed.
Print Assumptions C07_utils_sort_orders_dependencies.

(** C07: when every dependency is an item, the cycle error is raised exactly for cyclic inputs and
    otherwise the sort succeeds (in particular it terminates). *)
Theorem C07_utils_sort_fails_iff_cyclic :
  forall d, closed d ->
    (topological_sort d = TErr ECycle <-> cyclic (depends d)) /\
    (~ cyclic (depends d) -> exists l, topological_sort d = TOk l).
Proof. exact usort_total. Qed.
Print Assumptions C07_utils_sort_fails_iff_cyclic.

Example C07_witness :
  topological_sort [("a", ["b"; "c"]); ("b", ["c"]); ("c", []); ("d", ["a"])] = TOk ["c"; "b"; "a"; "d"] /\
  topological_sort [("a", ["b"]); ("b", ["a"])] = TErr ECycle.
Proof. split; reflexivity. Qed.

(** C08 (Graph.topological_sort): on success the nodes are the same nodes, and the producer of every
    tensor a node uses, also from inside its sub graphs, comes before it. *)
Theorem C08_graph_sort_orders_producers :
  forall prod has_parent ops l, NoDup (map t_name ops) ->
    graph_topological_sort prod has_parent ops = TOk l ->
    Permutation l ops /\ (forall a b, feeds prod ops a b -> before l a b).
Proof. intros p h o l Hn E. destruct (graph_sort_ok p h o l Hn E) as (A & B & _). auto. Qed.
Print Assumptions C08_graph_sort_orders_producers.

(** C08: with all producers present it fails exactly on cyclic graphs. *)
Theorem C08_graph_sort_fails_iff_cyclic :
  forall prod (has_parent : bool) ops, NoDup (map t_name ops) ->
    (forall b t, In b ops -> uses b t ->
       exists j, prod t = Some j /\ (has_parent = true \/ In j (map t_name ops))) ->
    (graph_topological_sort prod has_parent ops = TErr ECycle <-> cyclic (feeds prod ops)) /\
    (~ cyclic (feeds prod ops) -> exists l, graph_topological_sort prod has_parent ops = TOk l).
Proof. exact graph_sort_total. Qed.
Print Assumptions C08_graph_sort_fails_iff_cyclic.

(** C08: a used tensor without producer is never silently accepted. *)
Theorem C08_graph_sort_rejects_missing_producer :
  forall prod has_parent ops b t, NoDup (map t_name ops) -> In b ops -> uses b t -> prod t = None ->
    exists e, graph_topological_sort prod has_parent ops = TErr e.
Proof. exact graph_sort_missing. Qed.
Print Assumptions C08_graph_sort_rejects_missing_producer.

Definition ex_prod (t : string) : option string :=
  if String.eqb t "b:0" then Some "b" else if String.eqb t "c:0" then Some "c"
  else if String.eqb t "a:0" then Some "a" else None.
Example C08_witness :
  graph_topological_sort ex_prod false
    [mkT "a" ["b:0"; ""] ["c:0"] ["a:0"]; mkT "b" ["c:0"] [] ["b:0"]; mkT "c" [] [] ["c:0"]] =
  TOk [mkT "c" [] [] ["c:0"]; mkT "b" ["c:0"] [] ["b:0"]; mkT "a" ["b:0"; ""] ["c:0"] ["a:0"]] /\
  graph_topological_sort ex_prod false
    [mkT "a" ["b:0"] [] ["a:0"]; mkT "b" ["a:0"] [] ["b:0"]] = TErr ECycle.
Proof. split; reflexivity. Qed.

(** C44 (resolve_functions): an item is emitted exactly when all its dependencies, hereditarily, are
    known items without cycles; each emitted item comes after its dependencies; for closed acyclic
    inputs nothing is dropped. *)
Theorem C44_functions_emitted_iff_resolvable :
  forall data x, NoDup (map fst data) -> (In x (resolve_functions_order data) <-> resolvable data x).
Proof. exact resolve_functions_in. Qed.
Print Assumptions C44_functions_emitted_iff_resolvable.
Theorem C44_functions_after_callees :
  forall data x y, NoDup (map fst data) ->
    In x (resolve_functions_order data) -> depends data x y -> before (resolve_functions_order data) y x.
Proof. exact resolve_functions_before. Qed.
Print Assumptions C44_functions_after_callees.
Theorem C44_nothing_dropped_when_acyclic :
  forall data, NoDup (map fst data) -> closed data -> ~ cyclic (depends data) ->
    Permutation (resolve_functions_order data) (map fst data).
Proof. exact resolve_functions_complete. Qed.
Print Assumptions C44_nothing_dropped_when_acyclic.
(** and a cyclic item is dropped without an error *)
Theorem C44_cyclic_functions_dropped_refuted :
  exists data x, NoDup (map fst data) /\ closed data /\ In x (map fst data) /\
    ~ In x (resolve_functions_order data).
Proof.
  exists [("f", ["g"]); ("g", ["f"]); ("h", [])], "f". split; [|split; [|split]].
  - repeat constructor; simpl; intuition discriminate.
  - intros x y (ys & H & Hy). cbn in H.
    destruct (x =? "f"), (x =? "g"), (x =? "h"); inversion H; subst; cbn in *; intuition.
  - simpl. auto.
  - cbn. intuition discriminate.
Qed.
Print Assumptions C44_cyclic_functions_dropped_refuted.
Example C44_witness :
  resolve_functions_order [("f", ["g"; "h"]); ("g", ["h"]); ("h", [])] = ["h"; "g"; "f"].
Proof. reflexivity. Qed.
