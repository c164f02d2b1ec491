(** C09, C10, C11: the graph data structure under edit histories. *)
From Coq Require Import String List Bool Arith Lia.
From Verif Require Import GraphModel GraphSpec GraphProofs NestedModel NestedSpec NestedProofs.
Import ListNotations.
Local Open Scope string_scope.
Local Open Scope list_scope.

Definition obind {A B} (o : option A) (f : A -> option B) := match o with Some x => f x | None => None end.
Lemma obind_some {A B} (o : option A) (f : A -> option B) y : obind o f = Some y -> exists x, o = Some x /\ f x = Some y.
Proof. destruct o; cbn; eauto. discriminate. Qed.

(** ** C10 *)
(** After any successful history the name and producer lookups agree with the node list, and names and
    outputs are unique (node names given by the caller are not empty). *)
Theorem C10_lookups_consistent :
  forall es g, Forall named es -> run empty_graph es = Some g -> lookups_consistent g.
Proof. intros es g N H. exact (wf_lookups _ (run_wf es _ _ wf_empty N H)). Qed.
Print Assumptions C10_lookups_consistent.

(** A removed node and its outputs are no longer found; all other nodes stay, unchanged. *)
Theorem C10_removed_not_found :
  forall es g name g', Forall named es -> run empty_graph es = Some g -> remove_node g name = Some g' ->
    exists i n, node_at g i n /\ n_name n = name /\
      get_node_by_name g' name = None /\ ~ is_node g' i /\
      (forall o, o <> "" -> In o (n_out n) -> get_node_by_output g' o = None) /\
      (forall j m, node_at g' j m <-> node_at g j m /\ j <> i).
Proof.
  intros es g name g' N H R. assert (W := run_wf es _ _ wf_empty N H).
  destruct (remove_node_spec _ _ _ W R) as (i & n & A & B & _ & C & _ & D & E & _).
  exists i, n. repeat (split; auto). intros (m & K). apply C in K. tauto.
Qed.
Print Assumptions C10_removed_not_found.

(** The restriction to non empty names is needed: a node named "" is invisible to the producer lookup, and
    two nodes can then be made to produce the same tensor. *)
Theorem C10_empty_name_refuted :
  exists es g i j n m, run empty_graph es = Some g /\ node_at g i n /\ node_at g j m /\ i <> j /\
    In "a" (n_out n) /\ In "a" (n_out m).
Proof.
  eexists [EMake "" "Op" 0 [] ["a"]; EMake "x" "Op" 0 [] ["a"]], _, 0, 1, _, _.
  split; [reflexivity|]. split; [split; [cbn; auto|reflexivity]|]. split; [split; [cbn; auto|reflexivity]|].
  cbn. auto.
Qed.
Print Assumptions C10_empty_name_refuted.

(** ** C09 *)
(** A node that is returned really uses the tensor, after any history. *)
Theorem C09_consumers_sound :
  forall es g, Forall named es -> run empty_graph es = Some g -> consumers_sound g.
Proof. intros es g N H. exact (wf_consumers_sound _ (run_wf es _ _ wf_empty N H)). Qed.
Print Assumptions C09_consumers_sound.

(** After histories of clean edits no consumer is missed.  Missing from the full claim: the edits that are
    not clean (replacing or removing by index one of several uses of a tensor; replacing all inputs of a
    node when another node has the name of an input tensor), for which the claim is false, see below. *)
Theorem C09_consumers_complete_partial :
  forall es g, Forall named es -> clean_run empty_graph es g ->
    forall t i, In i (find_output_consumers g t) <-> exists n, node_at g i n /\ In t (n_in n).
Proof.
  intros es g N H t i. destruct (clean_run_inv _ _ _ H N wf_empty cmpl_empty) as [W C]. split.
  - intro K. exact (wf_consumers_sound _ W t i K).
  - intros (n & A & B). exact (cmpl_consumers _ W C t i n A B).
Qed.
Print Assumptions C09_consumers_complete_partial.

(** The code loses a consumer: replace one of two uses of tensor "a" by index. *)
Definition dup_history : list edit :=
  [EMake "p" "P" 0 [] ["a"]; EMake "q" "Q" 0 [] ["b"]; EMake "m" "Add" 0 ["a"; "a"] ["c"];
   EReplaceInput 2 "a" "b" (Some 0)].
Theorem C09_consumers_complete_refuted :
  exists g n, Forall named dup_history /\ run empty_graph dup_history = Some g /\
    node_at g 2 n /\ In "a" (n_in n) /\ find_output_consumers g "a" = [].
Proof.
  assert (H : obind (run empty_graph dup_history) (fun g => obind (heap g 2) (fun n =>
     Some (existsb (Nat.eqb 2) (nodes g), n, find_output_consumers g "a"))) = Some (true, (mkNode "m" "Add" 0 ["b"; "a"] ["c"]), [])) by (vm_compute; reflexivity).
  apply obind_some in H. destruct H as (g & E1 & H). apply obind_some in H. destruct H as (n & E2 & H).
  assert (Ex : existsb (Nat.eqb 2) (nodes g) = true) by congruence.
  assert (En : n = (mkNode "m" "Add" 0 ["b"; "a"] ["c"])) by congruence.
  assert (Fc : find_output_consumers g "a" = []) by congruence. clear H.
  apply existsb_exists in Ex. destruct Ex as (j & Hj & Ej). apply Nat.eqb_eq in Ej. subst j.
  exists g, n. split; [repeat (constructor; [cbn; congruence || exact Logic.I|]); constructor|].
  split; [exact E1|]. split; [split; [exact Hj|exact E2]|]. split; [rewrite En; cbn; auto|exact Fc].
Qed.
Print Assumptions C09_consumers_complete_refuted.

(** Same for replace_inputs: node "m" is renamed away from tensor "x", and the node called "x" that also uses
    tensor "x" is forgotten. *)
Definition name_clash_history : list edit :=
  [EMake "p" "P" 0 [] ["x"]; EMake "x" "Abs" 0 ["x"] ["y"]; EMake "m" "Abs" 0 ["x"] ["z"];
   EReplaceInputs 2 ["y"]].
Theorem C09_replace_inputs_refuted :
  exists g n, Forall named name_clash_history /\ run empty_graph name_clash_history = Some g /\
    node_at g 1 n /\ In "x" (n_in n) /\ find_output_consumers g "x" = [].
Proof.
  assert (H : obind (run empty_graph name_clash_history) (fun g => obind (heap g 1) (fun n =>
     Some (existsb (Nat.eqb 1) (nodes g), n, find_output_consumers g "x"))) = Some (true, (mkNode "x" "Abs" 0 ["x"] ["y"]), [])) by (vm_compute; reflexivity).
  apply obind_some in H. destruct H as (g & E1 & H). apply obind_some in H. destruct H as (n & E2 & H).
  assert (Ex : existsb (Nat.eqb 1) (nodes g) = true) by congruence.
  assert (En : n = (mkNode "x" "Abs" 0 ["x"] ["y"])) by congruence.
  assert (Fc : find_output_consumers g "x" = []) by congruence. clear H.
  apply existsb_exists in Ex. destruct Ex as (j & Hj & Ej). apply Nat.eqb_eq in Ej. subst j.
  exists g, n. split; [repeat (constructor; [cbn; congruence || exact Logic.I|]); constructor|].
  split; [exact E1|]. split; [split; [exact Hj|exact E2]|]. split; [rewrite En; cbn; auto|exact Fc].
Qed.
Print Assumptions C09_replace_inputs_refuted.

(** Over sub graphs of any depth: in a world of graphs that starts empty with the parents set, after clean
    edits and global replacements without removals, the consumers found from a graph are exactly the users
    in it and in all its sub graphs.  Missing: removals, unclean edits, attaching a filled sub graph. *)
Theorem C09_nested_consumers_partial :
  forall F w0 w gid t, fresh_world F w0 -> w_history F w0 w -> w gid <> None ->
    forall d i, In (d, i) (w_find_consumers F w gid t) <-> (below w gid d /\ uses_at w d i t).
Proof. exact nested_find_complete. Qed.
Print Assumptions C09_nested_consumers_partial.

(** ** C11 *)
(** After any history: what the global replacement changes is at most input slots, from old to new. *)
Theorem C11_nothing_else_changes :
  forall es g old new g', Forall named es -> run empty_graph es = Some g ->
    replace_all_inputs g old new None = Some g' ->
    same_except_inputs g g' /\
    forall i n, node_at g i n -> exists n', node_at g' i n' /\
      (n_in n' = n_in n \/ n_in n' = map (fun t => if String.eqb t old then new else t) (n_in n)).
Proof.
  intros es g old new g' N H R. assert (W := run_wf es _ _ wf_empty N H).
  destruct (replace_all_inputs_spec g old new None g' W Logic.I R) as [[-> ->]|(Ne & l & Rw & _)].
  - split.
    + repeat (split; [auto|]). intros i n A. exists n. auto.
    + intros i n A. exists n. auto.
  - destruct (rewired_effect _ _ _ _ _ Rw) as [S E]. split; auto. intros i n A.
    destruct (E i n A) as (n' & A' & K). exists n'. split; auto. destruct (existsb _ _); auto.
Qed.
Print Assumptions C11_nothing_else_changes.

(** After a clean history every slot is rewired. *)
Theorem C11_replace_all_exact_partial :
  forall es g old new g', Forall named es -> clean_run empty_graph es g ->
    replace_all_inputs g old new None = Some g' ->
    same_except_inputs g g' /\
    (forall i n, node_at g i n -> exists n', node_at g' i n' /\
      n_in n' = map (fun t => if String.eqb t old then new else t) (n_in n)) /\
    (old <> new -> forall i n, node_at g' i n -> ~ In old (n_in n)).
Proof.
  intros es g old new g' N H R. destruct (clean_run_inv _ _ _ H N wf_empty cmpl_empty) as [W C].
  destruct (replace_all_inputs_spec g old new None g' W Logic.I R) as [[-> ->]|(Ne & l & Rw & _ & _ & Hl)].
  - split; [|split; [|congruence]].
    + repeat (split; [auto|]). intros i n A. exists n. auto.
    + intros i n A. exists n. split; auto. symmetry. rewrite <- map_id. apply map_ext.
      intro t. destruct (String.eqb_spec t new); congruence.
  - destruct (rewired_effect _ _ _ _ _ Rw) as [S E].
    assert (P : forall i n, node_at g i n -> exists n', node_at g' i n' /\
      n_in n' = map (fun t => if String.eqb t old then new else t) (n_in n)).
    { intros i n A. destruct (E i n A) as (n' & A' & K). exists n'. split; auto. rewrite K.
      destruct (existsb (Nat.eqb i) l) eqn:Ex; [reflexivity|].
      destruct (in_dec string_dec old (n_in n)) as [Hin|Hno].
      - exfalso. assert (In i l) by (apply (Hl i n A); exact (C i n old A Hin)).
        assert (existsb (Nat.eqb i) l = true) by (apply existsb_exists; exists i; split; [auto|apply Nat.eqb_refl]).
        congruence.
      - symmetry. exact (subst_in_id old new (n_in n) Hno). }
    split; auto. split; auto. intros _ i n' A' Hin.
    assert (A0 : In i (nodes g)). { destruct S as (Sn & _). rewrite <- Sn. apply A'. }
    destruct (lc_live _ (wf_lookups _ W) i A0) as (n & A). destruct (P i n A) as (n2 & A2 & K).
    assert (n2 = n') by (eapply node_at_fun; eauto). subst n2. rewrite K in Hin.
    apply in_map_iff in Hin. destruct Hin as (t & Et & _). destruct (String.eqb_spec t old); congruence.
Qed.
Print Assumptions C11_replace_all_exact_partial.

(** False after the history of C09_consumers_complete_refuted. *)
Theorem C11_replace_all_refuted :
  exists g g' n, Forall named dup_history /\ run empty_graph dup_history = Some g /\
    replace_all_inputs g "a" "d" None = Some g' /\ node_at g' 2 n /\ In "a" (n_in n).
Proof.
  assert (H : obind (run empty_graph dup_history) (fun g => obind (replace_all_inputs g "a" "d" None)
            (fun g' => if existsb (Nat.eqb 2) (nodes g') then heap g' 2 else None)) = Some (mkNode "m" "Add" 0 ["b"; "a"] ["c"])) by (vm_compute; reflexivity).
  apply obind_some in H. destruct H as (g & E1 & H). apply obind_some in H. destruct H as (g' & E2 & H).
  destruct (existsb (Nat.eqb 2) (nodes g')) eqn:Ex; [|discriminate].
  apply existsb_exists in Ex. destruct Ex as (j & Hj & Ej). apply Nat.eqb_eq in Ej. subst j.
  exists g, g', (mkNode "m" "Add" 0 ["b"; "a"] ["c"]).
  split; [repeat (constructor; [cbn; congruence || exact Logic.I|]); constructor|]. split; [auto|].
  split; [auto|]. split; [split; auto|]. cbn. auto.
Qed.
Print Assumptions C11_replace_all_refuted.

(** Sub graphs of any depth. *)
Theorem C11_nested_partial :
  forall F w0 w gid old new w',
    fresh_world F w0 -> w_history F w0 w -> old <> new -> w_replace_all F F w gid old new = Some w' ->
    (forall d i, below w' gid d -> ~ uses_at w' d i old) /\
    (forall d x, w d = Some x -> exists x', w' d = Some x' /\ parent x' = parent x /\
       same_except_inputs (wg x) (wg x') /\
       forall i n, node_at (wg x) i n -> exists n', node_at (wg x') i n' /\
        (n_in n' = n_in n \/ n_in n' = map (fun t => if String.eqb t old then new else t) (n_in n))).
Proof. exact nested_replace_complete. Qed.
Print Assumptions C11_nested_partial.

(** Removing a node of a sub graph makes the parent forget that the sub graph uses the tensor, although
    another node of the sub graph still does. *)
Definition two_graphs : world := fun d =>
  if Nat.eqb d 0 then Some (mkW empty_graph None mempty)
  else if Nat.eqb d 1 then Some (mkW empty_graph (Some 0) mempty) else None.
Definition removal_world : option world :=
  obind (w_edit 2 two_graphs 0 (EMake "p" "P" 0 [] ["a"])) (fun w =>
  obind (w_edit 2 w 1 (EMake "m1" "Abs" 0 ["a"] ["x"])) (fun w =>
  obind (w_edit 2 w 1 (EMake "m2" "Abs" 0 ["a"] ["y"])) (fun w =>
         w_edit 2 w 1 (ERemove "m1")))).
Theorem C11_nested_removal_refuted :
  exists w w', removal_world = Some w /\ w_replace_all 2 2 w 0 "a" "b" = Some w' /\
    below w' 0 1 /\ uses_at w' 1 1 "a" /\ w_find_consumers 2 w 0 "a" = [].
Proof.
  assert (H : obind removal_world (fun w => obind (w_replace_all 2 2 w 0 "a" "b") (fun w' =>
              obind (w' 1) (fun x => obind (w' 0) (fun y => obind (heap (wg x) 1) (fun n =>
              Some (parent x, nodes (wg x), n, w_find_consumers 2 w 0 "a"))))))
            = Some (Some 0, [1], mkNode "m2" "Abs" 0 ["a"] ["y"], [])) by (vm_compute; reflexivity).
  apply obind_some in H. destruct H as (w & E1 & H). apply obind_some in H. destruct H as (w' & E2 & H).
  apply obind_some in H. destruct H as (x & E3 & H). apply obind_some in H. destruct H as (y & E4 & H).
  apply obind_some in H. destruct H as (n & E5 & H). inversion H as [[P Nd Hn Fc]].
  exists w, w'. split; [auto|]. split; [auto|]. split.
  - eapply below_step; [exact E3|exact P|]. eapply below_refl. exact E4.
  - split; [|reflexivity]. exists x, n. split; [auto|]. subst n. split; [split; [rewrite Nd; cbn; auto|auto]|]. cbn. auto.
Qed.
Print Assumptions C11_nested_removal_refuted.

(** A sub graph attached after its nodes were made is not known to the parent at all. *)
Definition late_world : option world :=
  obind (w_edit 2 (fun d => if Nat.ltb d 2 then Some (mkW empty_graph None mempty) else None) 1
           (EMake "m" "Abs" 0 ["a"] ["x"])) (fun w => attach w 1 0).
Theorem C11_late_attach_refuted :
  exists w w', late_world = Some w /\ w_replace_all 2 2 w 0 "a" "b" = Some w' /\
    below w' 0 1 /\ uses_at w' 1 0 "a".
Proof.
  assert (H : obind late_world (fun w => obind (w_replace_all 2 2 w 0 "a" "b") (fun w' =>
              obind (w' 1) (fun x => obind (w' 0) (fun y => obind (heap (wg x) 0) (fun n =>
              Some (parent x, nodes (wg x), n))))))
            = Some (Some 0, [0], mkNode "m" "Abs" 0 ["a"] ["x"])) by (vm_compute; reflexivity).
  apply obind_some in H. destruct H as (w & E1 & H). apply obind_some in H. destruct H as (w' & E2 & H).
  apply obind_some in H. destruct H as (x & E3 & H). apply obind_some in H. destruct H as (y & E4 & H).
  apply obind_some in H. destruct H as (n & E5 & H). inversion H as [[P Nd Hn]].
  exists w, w'. split; [auto|]. split; [auto|]. split.
  - eapply below_step; [exact E3|exact P|]. eapply below_refl. exact E4.
  - exists x, n. split; [auto|]. subst n. split; [split; [rewrite Nd; cbn; auto|auto]|]. cbn. auto.
Qed.
Print Assumptions C11_late_attach_refuted.

(** ** Witnesses *)
Definition clean_history : list edit :=
  [EMake "p" "P" 0 [] ["a"]; EMake "q" "Q" 0 ["a"] ["b"]; EMake "m" "Add" 0 ["a"; "a"] ["c"];
   EReplaceInput 2 "a" "b" None; EAddOutput "c"; EReplaceInput 1 "a" "z" (Some 0); ERemove "p"].
(** decidable sufficient condition for [clean], used only to build the examples *)
Definition cleanb (g : graph) (e : edit) : bool :=
  match e with
  | EReplaceInput i old new (Some k) =>
      match heap g i with Some n => negb (smem old (list_set k new (n_in n))) | None => true end
  | ERemoveInput _ _ (Some _) | EReplaceInputs _ _ => false
  | _ => true
  end.
Fixpoint run_cleanb (g : graph) (es : list edit) : option graph :=
  match es with
  | [] => Some g
  | e :: es' => if cleanb g e then obind (apply_edit g e) (fun g' => run_cleanb g' es') else None
  end.
Lemma run_cleanb_clean es : forall g g', run_cleanb g es = Some g' -> clean_run g es g'.
Proof.
  induction es as [|e es IH]; intros g g' H; cbn [run_cleanb] in H.
  - inversion H. constructor.
  - destruct (cleanb g e) eqn:C; [|discriminate]. apply obind_some in H. destruct H as (g1 & E & H).
    eapply cr_cons; eauto. destruct e; try exact Logic.I; try discriminate.
    + destruct idx as [k|]; [|exact Logic.I]. cbn in C |- *. intros n En _ Hin. rewrite En in C.
      apply smem_in in Hin. rewrite Hin in C. discriminate.
    + destruct idx; [discriminate|exact Logic.I].
Qed.
Example C09_witness : exists g, Forall named clean_history /\ clean_run empty_graph clean_history g /\
  find_output_consumers g "b" = [2] /\ find_output_consumers g "a" = [] /\ nodes g = [1; 2].
Proof.
  assert (H : obind (run_cleanb empty_graph clean_history) (fun g =>
     Some (find_output_consumers g "b", find_output_consumers g "a", nodes g)) = Some ([2], [], [1; 2])) by (vm_compute; reflexivity).
  apply obind_some in H. destruct H as (g & E & H). inversion H as [[A B C]]. exists g.
  split; [repeat (constructor; [cbn; congruence || exact Logic.I|]); constructor|].
  split; [exact (run_cleanb_clean _ _ _ E)|]. auto.
Qed.
Example C11_witness : exists g g' n, clean_run empty_graph [EMake "p" "P" 0 [] ["a"]; EMake "m" "Add" 0 ["a"; "a"; "k"] ["c"]] g /\
  replace_all_inputs g "a" "b" None = Some g' /\ node_at g' 1 n /\ n_in n = ["b"; "b"; "k"].
Proof.
  assert (H : obind (run_cleanb empty_graph [EMake "p" "P" 0 [] ["a"]; EMake "m" "Add" 0 ["a"; "a"; "k"] ["c"]]) (fun g =>
     obind (replace_all_inputs g "a" "b" None) (fun g' => obind (heap g' 1) (fun n => Some (nodes g', n_in n))))
     = Some ([0; 1], ["b"; "b"; "k"])) by (vm_compute; reflexivity).
  apply obind_some in H. destruct H as (g & E1 & H). apply obind_some in H. destruct H as (g' & E2 & H).
  apply obind_some in H. destruct H as (n & E3 & H). inversion H as [[A B]].
  exists g, g', n. split; [exact (run_cleanb_clean _ _ _ E1)|]. split; auto. split; auto. split; auto. rewrite A. cbn. auto.
Qed.
Example C11_nested_witness : exists w w', fresh_world 2 two_graphs /\ w_history 2 two_graphs w /\
  w_replace_all 2 2 w 0 "a" "b" = Some w' /\ uses_at w 1 0 "a" /\ uses_at w' 1 0 "b" /\
  w_find_consumers 2 w 0 "a" = [(1, 0)].
Proof.
  assert (Hf : fresh_world 2 two_graphs).
  { split.
    - intros d x. unfold two_graphs. destruct (Nat.eqb d 0); [intro E; inversion E; auto|].
      destruct (Nat.eqb d 1); [intro E; inversion E; auto|discriminate].
    - exists (fun d => d). split.
      + intros d x p. unfold two_graphs. destruct (Nat.eqb_spec d 0); [intro E; inversion E; discriminate|].
        destruct (Nat.eqb_spec d 1); [|discriminate]. intro E; inversion E. cbn. intro P. inversion P. subst.
        split; [lia|]. eexists. reflexivity.
      + intros d x. unfold two_graphs. destruct (Nat.eqb_spec d 0); [lia|]. destruct (Nat.eqb_spec d 1); [lia|discriminate]. }
  assert (H : obind (w_edit 2 two_graphs 0 (EMake "p" "P" 0 [] ["a"])) (fun w1 =>
     obind (two_graphs 0) (fun x0 => obind (w1 1) (fun x1 =>
     obind (w_edit 2 w1 1 (EMake "m" "Abs" 0 ["a"] ["x"])) (fun w =>
     obind (w_replace_all 2 2 w 0 "a" "b") (fun w' =>
     obind (w 1) (fun y => obind (heap (wg y) 0) (fun n => 
     obind (w' 1) (fun y' => obind (heap (wg y') 0) (fun n' => 
       Some (nodes (wg y), n_in n, nodes (wg y'), n_in n', w_find_consumers 2 w 0 "a"))))))))))
     = Some ([0], ["a"], [0], ["b"], [(1, 0)])) by (vm_compute; reflexivity).
  apply obind_some in H. destruct H as (w1 & E1 & H). apply obind_some in H. destruct H as (x0 & E2 & H).
  apply obind_some in H. destruct H as (x1 & E3 & H). apply obind_some in H. destruct H as (w & E4 & H).
  apply obind_some in H. destruct H as (w' & E5 & H). apply obind_some in H. destruct H as (y & E6 & H).
  apply obind_some in H. destruct H as (n & E7 & H). apply obind_some in H. destruct H as (y' & E8 & H).
  apply obind_some in H. destruct H as (n' & E9 & H).
  assert (Fc : w_find_consumers 2 w 0 "a" = [(1, 0)]) by congruence.
  assert (A : nodes (wg y) = [0]) by congruence. assert (B : n_in n = ["a"]) by congruence.
  assert (C : nodes (wg y') = [0]) by congruence. assert (D : n_in n' = ["b"]) by congruence. clear H.
  exists w, w'. split; [exact Hf|]. split.
  { refine (wh_edit 2 _ w1 _ 1 x1 (EMake "m" "Abs" 0 ["a"] ["x"]) _ E3 _ Logic.I Logic.I E4); [|cbn; congruence].
    refine (wh_edit 2 _ two_graphs _ 0 x0 (EMake "p" "P" 0 [] ["a"]) (wh_nil _ _) E2 _ Logic.I Logic.I E1); cbn; congruence. }
  split; [exact E5|]. split; [|split; [|exact Fc]].
  - exists y, n. split; [exact E6|]. split; [split; [rewrite A; left; reflexivity|exact E7]|rewrite B; left; reflexivity].
  - exists y', n'. split; [exact E8|]. split; [split; [rewrite C; left; reflexivity|exact E9]|rewrite D; left; reflexivity].
Qed.
