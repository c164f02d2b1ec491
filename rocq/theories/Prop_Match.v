(** C28: the sub graph matcher. *)
From Coq Require Import Ascii String List Arith Bool Permutation.
From Verif Require Import MatchModel MatchSpec MatchProofs.
Import ListNotations.
Local Open Scope string_scope. Local Open Scope list_scope.

(** A reported match is real: the graph below the node has the shape of the pattern. *)
Theorem C28_match_is_sound :
  forall g reorder p op m, match_op g reorder p op = Some (Some m) -> exists bs, fits g reorder p (Some op) None bs.
Proof.
  intros g r p op m. unfold match_op. destruct (match_pattern g r p (Some op) None) as [[[|] l]|] eqn:E; try discriminate.
  intros _. exists l. exact (proj1 (all_good g r p (Some op) None) l E).
Qed.
Print Assumptions C28_match_is_sound.
(** A node whose sub graph has the shape of the pattern is reported; the matcher does not fail if every tensor read has a
    producer. *)
Theorem C28_match_is_complete :
  forall g reorder p op, closed g ->
    exists res, match_op g reorder p op = Some res /\ (res = None <-> ~ exists bs, fits g reorder p (Some op) None bs).
Proof.
  intros g r p op Cl. destruct (all_good g r p (Some op) None) as (A & B & C). unfold match_op.
  destruct (match_pattern g r p (Some op) None) as [[[|] l]|] eqn:E.
  - eexists. split; [reflexivity|]. split; [discriminate|]. intro N. exfalso. apply N. exists l. auto.
  - eexists. split; [reflexivity|]. split; auto. intros _ (bs & F). exact (B _ _ eq_refl F).
  - exfalso. apply C; auto. discriminate.
Qed.
Print Assumptions C28_match_is_complete.
(** and over a whole graph: exactly the nodes that fit are yielded, in order *)
Theorem C28_match_graph_yields_exactly_the_matches :
  forall g reorder p ops, closed g ->
    exists ms, match_ops g reorder p ops = Some ms /\
      forall o, In o (map fst ms) <-> In o ops /\ exists bs, fits g reorder p (Some o) None bs.
Proof.
  intros g r p ops Cl. induction ops as [|o ops (ms & E & M)].
  - exists []. cbn. split; auto. intro o. tauto.
  - cbn [match_ops]. destruct (C28_match_is_complete g r p o Cl) as (res & E' & M'). rewrite E, E'.
    destruct res as [m|].
    + exists ((o, m) :: ms). split; auto. intro o'. cbn. rewrite M. split.
      * intros [<-|[I F]]; [|auto]. split; auto. exact (C28_match_is_sound _ _ _ _ _ E').
      * intros [[<-|I] F]; auto.
    + exists ms. split; auto. intro o'. rewrite M. cbn. split; [tauto|]. intros [[<-|I] F]; auto.
      exfalso. apply (proj1 M' eq_refl). exact F.
Qed.
Print Assumptions C28_match_graph_yields_exactly_the_matches.
(** every element the result binds is bound to a node that really matches it, also when looked up by name *)
Theorem C28_bound_nodes_really_match :
  forall g reorder p op m, match_op g reorder p op = Some (Some m) ->
    (forall k o, get_op m k = Some o -> exists q t bs, pid q = k /\ fits g reorder q o t bs) /\
    (forall n o, get_op_named m n = Some o -> exists q q' t bs, pid q = pid q' /\ pname q = Some n /\ fits g reorder q' o t bs).
Proof.
  intros g r p op m. unfold match_op. destruct (match_pattern g r p (Some op) None) as [[[|] l]|] eqn:E; try discriminate.
  intro Q. injection Q as <-. pose proof (proj1 (all_good g r p (Some op) None) l E) as F.
  pose proof (proj1 (bindings_real g r) _ _ _ _ F) as BR. split.
  - intros k o Hk. apply get_op_in in Hk. destruct Hk as (q & t & <- & I). destruct (BR _ _ _ I) as (bs & Fb). exists q, t, bs. auto.
  - intros n o Hn. apply get_op_named_in in Hn. destruct Hn as (q & t & I & q' & o' & t' & Eq & En & I').
    destruct (BR _ _ _ I) as (bs & Fb). exists q', q, t, bs. auto.
Qed.
Print Assumptions C28_bound_nodes_really_match.
(** if no pattern object is used twice in the pattern, the bindings found are one per element, and the result returns each *)
Theorem C28_every_element_is_bound_once :
  forall g reorder p op m, NoDup (elements p) -> match_op g reorder p op = Some (Some m) ->
    exists bs, fits g reorder p (Some op) None bs /\ Permutation (map (fun b => pid (fst (fst b))) bs) (elements p) /\
      forall q o t, In (q, o, t) bs -> get_op m (pid q) = Some o.
Proof.
  intros g r p op m ND. unfold match_op. destruct (match_pattern g r p (Some op) None) as [[[|] l]|] eqn:E; try discriminate.
  intro Q. injection Q as <-. pose proof (proj1 (all_good g r p (Some op) None) l E) as F.
  pose proof (proj1 (fits_elements g r) _ _ _ _ F) as P. exists l. split; auto. split; [exact P|].
  intros q o t I. eapply get_op_unique; eauto. unfold ids in *. eapply Permutation_NoDup; [symmetry; exact P|exact ND].
Qed.
Print Assumptions C28_every_element_is_bound_once.
(** A pattern object used twice should be bound to one node; it is not: Mul(x, x) matches Mul(a, b). *)
Definition px := Pat 1 (Some "x") (Some "*") None [].
Definition psquare := Pat 0 None (Some "Mul") None [px; px].
Definition gab : graph := fun n => match n with 0 => GNode "Mul" [("a:0", Some 1); ("b:0", Some 2)] | 1 => GNode "A" [] | _ => GNode "B" [] end.
Theorem C28_shared_elements_are_consistent_refuted :
  ~ (forall g reorder p op m, match_op g reorder p op = Some (Some m) ->
       exists bs, fits g reorder p (Some op) None bs /\
         forall q o t, In (q, o, t) bs -> forall q' o' t', In (q', o', t') bs -> pid q = pid q' -> o = o').
Proof.
  intro C. destruct (C gab false psquare 0 _ eq_refl) as (bs & F & H).
  inversion F as [? ? ? Hp|? ? ? ? Hp ? Hi|? ? ? ? ins bs2 Hp Ty Hn HP HF]; subst; try discriminate.
  cbn in HP. subst ins. cbn [ginputs gab] in HF. inversion HF as [|? ? ? ? ? b1 b2 F1 HF2]; subst. inversion HF2 as [|? ? ? ? ? b3 b4 F3 HF4]; subst.
  inversion F1; subst; try discriminate; try (cbn in *; congruence). inversion F3; subst; try discriminate; try (cbn in *; congruence).
  inversion HF4; subst.
  specialize (H px (Some 1) (Some "a:0")). cbn in H. specialize (H (or_intror (or_introl eq_refl)) px (Some 2) (Some "b:0") (or_intror (or_intror (or_introl eq_refl))) eq_refl).
  discriminate.
Qed.
Print Assumptions C28_shared_elements_are_consistent_refuted.
(** Matching can fail with an exception when a node reads a tensor nobody produces (an omitted optional input) *)
Theorem C28_matching_never_fails_refuted : ~ (forall g reorder p op, match_op g reorder p op <> None).
Proof.
  intro C. apply (C (fun _ => GNode "Clip" [("x", Some 0); ("", None)]) false
    (Pat 0 None (Some "Clip") None [Pat 1 None (Some "*") None []; Pat 2 None (Some "Const") None []]) 0). reflexivity.
Qed.
Print Assumptions C28_matching_never_fails_refuted.

Definition pbias := Pat 0 (Some "out") (Some "Add|BiasAdd") (Some true)
  [Pat 1 (Some "bias") (Some "Const") None []; Pat 2 (Some "conv") (Some "Conv2D|MatMul") None [Pat 3 None None None []; Pat 4 (Some "w") (Some "*") None []]].
Definition gbias : graph := fun n => match n with
  | 0 => GNode "BiasAdd" [("c:0", Some 1); ("b:0", Some 2)] | 1 => GNode "Conv2D" [("i:0", Some 3); ("w:0", Some 2)]
  | 2 => GNode "Const" [] | _ => GNode "Placeholder" [] end.
Example C28_witness : exists m, match_op gbias false pbias 0 = Some (Some m) /\ get_op_named m "conv" = Some (Some 1) /\
  get_op_named m "bias" = Some (Some 2) /\ get_op m 3 = None /\ match_op gbias false pbias 1 = Some None.
Proof. eexists. split; [vm_compute; reflexivity|]. vm_compute. auto. Qed.
Example C28_witness_closed : closed gbias /\ NoDup (elements pbias).
Proof.
  split.
  - intros o x. unfold gbias. destruct o as [|[|[|o]]]; cbn; intuition; subst; discriminate.
  - cbn. repeat constructor; cbn; intuition discriminate.
Qed.
