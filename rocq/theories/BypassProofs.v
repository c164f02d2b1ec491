(** Replacing all uses of a name by an equal, earlier one; dropping and adding nodes. *)
From Coq Require Import String List Bool Arith Lia.
From Verif Require Import FGraph FGraphProofs FGraphSpec IdentityModel IdentityProofs ApplyOptProofs ExecSpec ExecProofs DeadProofs RewriteProofs.
Import ListNotations.
Local Open Scope string_scope.
Local Open Scope list_scope.

Lemma bypass_valid rk g a b : WW rk g -> a <> b -> a <> "" -> b <> "" ->
  In a (defs g) -> In b (defs g) \/ In b (fv_graph g) -> rk b <= rk a ->
  replace_all a b (f_nodes g) = Some (map (subst_node a b) (f_nodes g)) /\
  WW rk (subst_graph a b g) /\ (forall t, In t (fv_graph (subst_graph a b g)) -> In t (fv_graph g)) /\
  (forall n t, In n (f_nodes (subst_graph a b g)) -> In t (fv_node n) -> t <> a /\ (t = b \/ exists m, In m (f_nodes g) /\ In t (fv_node m))).
Proof.
  intros H Nab Na Nb Da Db L. assert (G := H g (within_refl _)).
  assert (Le : forall t, rk (sub a b t) <= rk t) by (intro t; unfold sub; destruct (String.eqb_spec t a); [subst; lia|lia]).
  destruct (subst_valid rk rk a b g) as [W' Fv]; auto.
  { intros n t o Hn Ht Ho No. assert (K := g_acyclic _ _ G n t o Hn Ht Ho No). specialize (Le t). lia. }
  { intros t o _ _ K. specialize (Le t). lia. }
  split; [|split; [exact W'|split; [exact Fv|]]].
  - unfold replace_all. destruct (String.eqb_spec a b); [contradiction|].
    replace (existsb (circ_node a b) (f_nodes g)) with false; auto. symmetry.
    destruct (existsb (circ_node a b) (f_nodes g)) eqn:E; auto. apply existsb_exists in E. destruct E as (m & Hm & E).
    rewrite (proj1 (circ_false a b Nb)) in E; [discriminate| |].
    + intros [Q1 Q2]. assert (K := g_acyclic _ _ G m a b Hm (fv_in m a Q1) Q2 Nb). lia.
    + intros bd Hbd. apply (good_not_nested rk g m bd b G Hm Hbd). auto.
  - intros n t Hn Ht. destruct g as [ns gi go]. cbn [subst_graph f_nodes] in *. apply in_map_iff in Hn. destruct Hn as (m & <- & Hm).
    destruct (proj1 (fv_subst_ind a b Nab Na) m (WW_closed rk _ m H Hm) t Ht) as [A B]. split; auto. destruct B as [B|B]; eauto.
Qed.

Section Sem.
Variable V : Type.
Variable op_rel : string -> string -> list (string * attr) -> nat -> list V ->
                  list (list V -> list V -> Prop) -> list V -> Prop.
Hypothesis ext : op_ext op_rel.
Notation holds := (holds op_rel). Notation all_hold := (all_hold op_rel).
Notation equiv := (equiv op_rel). Notation env := (env V).

(** adding a node without inputs *)
Lemma add_source rk ns gi go c : WW rk (FGraph ns gi go) -> f_in c = [] -> f_bodies c = [] ->
  ~ In (f_name c) (map f_name ns) -> NoDup (nonempty (f_out c)) ->
  (forall o, In o (f_out c) -> o <> "" -> ~ In o (alldefs (FGraph ns gi go)) /\ ~ In o (fv_graph (FGraph ns gi go))) ->
  (exists vs, op_rel (f_op c) (f_dom c) (f_attrs c) (length (f_out c)) [] [] vs /\ length (f_out c) <= length vs) ->
  exists rk', (forall t, ~ In t (nonempty (f_out c)) -> rk' t = rk t) /\ (forall t, In t (nonempty (f_out c)) -> rk' t = 0) /\
    WW rk' (FGraph (ns ++ [c]) gi go) /\ equiv (FGraph ns gi go) (FGraph (ns ++ [c]) gi go) /\
    (forall t, In t (fv_graph (FGraph (ns ++ [c]) gi go)) -> In t (fv_graph (FGraph ns gi go))).
Proof.
  intros H Ei Eb Nn Nd Fr (vs & Op & Lv). exists (add_rank rk c).
  assert (R0 : in_rank rk c = 0) by (unfold in_rank; now rewrite Ei).
  split; [|split].
  - intros t Ht. unfold add_rank. destruct (mem t (nonempty (f_out c))) eqn:E; auto. apply mem_in in E. contradiction.
  - intros t Ht. unfold add_rank. apply mem_in in Ht. now rewrite Ht.
  - assert (W1 : WW (add_rank rk c) (FGraph (ns ++ [c]) gi go)).
    { apply (add_valid rk ns c []); rewrite ?app_nil_r; auto.
      - intros o Ho No. destruct (Fr o Ho No) as [A B]. split; auto. split; auto. rewrite Ei. auto.
      - intros t Ht. rewrite Ei in Ht. destruct Ht. }
    assert (Uses : forall m t, In m (ns ++ []) -> In t (fv_node m) -> t <> "" -> ~ In t (f_out c)).
    { intros m t Hm Ht Nt K. rewrite app_nil_r in Hm. destruct (Fr t K Nt) as [A B].
      destruct (used_defs_or_free (FGraph ns gi go) m t Hm Ht) as [D|D]; [|contradiction]. apply A. now apply defs_alldefs. }
    assert (Outs : forall o, In o go -> ~ In o (f_out c)).
    { intros o Ho K. assert (G := H _ (within_refl _)). assert (D := g_outs _ _ G o Ho). assert (No : o <> "") by (apply in_defs in D; tauto).
      destruct (Fr o K No) as [A _]. apply A. now apply defs_alldefs. }
    split; [exact W1|]. split.
    + apply equiv_sym. assert (Q := remove_equiv V op_rel ext (add_rank rk c) ns c [] gi go W1 Uses Outs). rewrite app_nil_r in Q. apply Q.
      intros r _. exists (bind V (f_out c) vs r). split; [intros t Ht; now apply bind_frame|].
      apply holds_eq. exists vs. rewrite Ei, Eb. cbn [map]. split; [exact Op|]. apply bind_produces; auto.
    + intros t Ht. apply in_fv_graph in Ht. cbn [f_nodes f_ins f_outs] in Ht. apply in_fv_graph. cbn [f_nodes f_ins f_outs].
      destruct Ht as [A B]. split.
      * intro K. apply A. apply in_defs in K. apply in_defs. cbn [f_nodes f_ins] in *. destruct K as [K1 [K2|(m & Hm & K2)]]; split; auto.
        right. exists m. rewrite in_app_iff. auto.
      * destruct B as [B|[B|(m & Hm & Ht)]]; auto. apply in_app_iff in Hm. destruct Hm as [Hm|[<-|[]]]; [right; right; eauto|].
        rewrite fv_node_eq, Ei, Eb in Ht. destruct Ht.
Qed.
End Sem.
