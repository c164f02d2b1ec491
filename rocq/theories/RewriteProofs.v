(** Elementary graph rewritings: validity and meaning of the result. *)
From Coq Require Import String List Bool Arith Lia.
From Verif Require Import FGraph FGraphProofs FGraphSpec IdentityProofs ApplyOptProofs ExecSpec ExecProofs.
Import ListNotations.
Local Open Scope string_scope.
Local Open Scope list_scope.

Definition WW (rk : string -> nat) (g : fgraph) : Prop := forall h, within g h -> good rk h.

Lemma WW_body rk g n b : WW rk g -> In n (f_nodes g) -> In b (f_bodies n) -> WW rk b.
Proof. intros H Hn Hb h Hh. apply H. exact (within_body g n b h Hn Hb Hh). Qed.
Lemma WW_top rk g : good rk g -> (forall n b, In n (f_nodes g) -> In b (f_bodies n) -> WW rk b) -> WW rk g.
Proof.
  intros G B h Hh. inversion Hh as [|n b h0 Hn Hb Hh']; subst; auto. exact (B n b Hn Hb h Hh').
Qed.
Lemma WW_closed rk g n : WW rk g -> In n (f_nodes g) -> closed_node n.
Proof. intros H Hn. assert (C := good_closed _ _ H). apply closed_graph_eq in C. apply C. exact Hn. Qed.
Lemma fv_graph_named rk g t : WW rk g -> t <> "" -> In t (fv_graph g) ->
  ~ In t (defs g) /\ exists n, In n (f_nodes g) /\ In t (fv_node n).
Proof.
  intros H Ne Ht. assert (G := H g (within_refl _)). apply in_fv_graph in Ht. destruct Ht as [Hd Ht]. split; auto.
  destruct Ht as [Ht|[Ht|Ht]]; auto; exfalso; apply Hd.
  - apply in_defs. auto.
  - apply (g_outs _ _ G). auto.
Qed.

(** ** replacing the reads of a by b *)
Lemma subst_valid rk rk' a b g : WW rk g -> a <> b -> a <> "" -> b <> "" ->
  In a (defs g) -> In b (defs g) \/ In b (fv_graph g) ->
  (forall n t o, In n (f_nodes g) -> In t (fv_node n) -> In o (f_out n) -> o <> "" -> rk' (sub a b t) < rk' o) ->
  (forall t o, In o (alldefs g) -> ~ In o (defs g) -> rk t < rk o -> rk' (sub a b t) < rk' o) ->
  WW rk' (subst_graph a b g) /\ (forall t, In t (fv_graph (subst_graph a b g)) -> In t (fv_graph g)).
Proof.
  intros H Nab Na Nb Ha Hb R1 R2. assert (G := H g (within_refl _)).
  assert (Nest : forall m bd, In m (f_nodes g) -> In bd (f_bodies m) -> ~ In a (alldefs bd) /\ ~ In b (alldefs bd)).
  { intros m bd Hm Hbd. split; [apply (good_not_nested rk g m bd a)|apply (good_not_nested rk g m bd b)]; auto. }
  assert (Fv : forall m, In m (f_nodes g) -> forall x, In x (fv_node (subst_node a b m)) -> exists t, In t (fv_node m) /\ x = sub a b t).
  { intros m Hm x Hx. apply (proj1 (fv_subst_img a b Na) m); auto; [exact (WW_closed rk g m H Hm)|]. intros bd Hbd. apply (Nest m bd Hm Hbd). }
  assert (Nodes : forall n, In n (f_nodes (subst_graph a b g)) <-> exists m, n = subst_node a b m /\ In m (f_nodes g)).
  { intro n. destruct g as [ns gi go]. cbn [subst_graph f_nodes]. rewrite in_map_iff. firstorder. }
  assert (FV : forall x, In x (fv_graph (subst_graph a b g)) -> In x (fv_graph g)).
  { intros x Hx. apply in_fv_graph in Hx. rewrite defs_subst in Hx. destruct Hx as [Hd Hx]. apply in_fv_graph. split; auto.
    destruct Hx as [Hx|[Hx|(n & Hn & Hx)]].
    - left. destruct g; exact Hx.
    - right. left. destruct g; exact Hx.
    - apply Nodes in Hn. destruct Hn as (m & -> & Hm). destruct (Fv m Hm x Hx) as (t & Ht & Ex). unfold sub in Ex.
      destruct (String.eqb_spec t a) as [Et|Nt]; subst x; [|eauto 6]. destruct Hb as [Hb|Hb]; [contradiction|].
      apply in_fv_graph in Hb. tauto. }
  split; [|exact FV]. apply WW_top.
  - constructor.
    + rewrite defs_subst. destruct g; apply (g_outs _ _ G).
    + rewrite (proj2 (alldefs_subst a b)). apply (g_ssa _ _ G).
    + intros t Ht. rewrite (proj2 (alldefs_subst a b)). apply (g_scope _ _ G). auto.
    + destruct g as [ns gi go]. cbn [subst_graph f_nodes]. rewrite names_subst. apply (g_names _ _ G).
    + intros n x o Hn Hx Ho No. apply Nodes in Hn. destruct Hn as (m & -> & Hm). rewrite f_out_subst in Ho.
      destruct (Fv m Hm x Hx) as (t & Ht & ->). apply (R1 m); auto.
    + destruct g; apply (g_noself _ _ G).
  - intros n bd Hn Hbd. apply Nodes in Hn. destruct Hn as (m & -> & Hm). rewrite f_bodies_subst in Hbd.
    apply in_map_iff in Hbd. destruct Hbd as (b0 & <- & Hb0). intros h Hh. apply within_subst in Hh. destruct Hh as (k & Hk & ->).
    destruct (Nest m b0 Hm Hb0) as [Ka Kb].
    assert (Sub : forall o, In o (alldefs k) -> In o (alldefs b0)) by (intros o Ho; eapply within_alldefs; eauto).
    apply (good_subst a b rk rk'); auto.
    + intros k' Hk'. apply (WW_body rk g m b0 H Hm Hb0). exact (within_trans _ _ _ Hk Hk').
    + intros t o Ho. apply R2.
      * apply alldefs_in. right. exists m. split; auto. apply alldefs_in_node. right. exists b0. auto.
      * intro K. apply (good_not_nested rk g m b0 o G Hm Hb0 (or_introl K)). auto.
Qed.

(** ** removing a node nobody reads *)
Lemma remove_valid rk l1 d l2 gi go : WW rk (FGraph (l1 ++ d :: l2) gi go) ->
  (forall m t, In m (l1 ++ l2) -> In t (fv_node m) -> t <> "" -> ~ In t (f_out d)) ->
  (forall o, In o go -> ~ In o (f_out d)) ->
  WW rk (FGraph (l1 ++ l2) gi go) /\
  (forall t, In t (fv_graph (FGraph (l1 ++ l2) gi go)) -> In t (fv_graph (FGraph (l1 ++ d :: l2) gi go))).
Proof.
  set (g := FGraph (l1 ++ d :: l2) gi go). set (g' := FGraph (l1 ++ l2) gi go). intros H Hr Ho.
  assert (G := H g (within_refl _)).
  assert (Rest : forall m, In m (l1 ++ l2) -> In m (f_nodes g)) by (intros m Hm; unfold g; cbn [f_nodes]; rewrite in_app_iff in *; cbn; tauto).
  destruct (alldefs_split _ _ _ _ _ (g_ssa _ _ G)) as (S1 & S2 & S3).
  assert (Hd : forall t, In t (defs g) -> ~ In t (f_out d) -> In t (defs g')).
  { intros t Ht Nt. unfold g in Ht. apply defs_split in Ht. destruct Ht as [Ht|[_ Ht]]; [exact Ht|contradiction]. }
  assert (FV : forall t, In t (fv_graph g') -> In t (fv_graph g)).
  { intros t Ht. apply in_fv_graph in Ht. cbn [g' f_ins f_outs f_nodes] in Ht. destruct Ht as [Nd Ht]. apply in_fv_graph.
    cbn [g f_ins f_outs f_nodes].
    assert (K : In t gi \/ In t go \/ (exists n, In n (l1 ++ l2) /\ In t (fv_node n)) -> ~ In t (defs g)).
    { intros Q Hg. apply Nd. apply Hd; auto. destruct Q as [Q|[Q|(m & Hm & Q)]].
      - exfalso. apply Nd. apply in_defs. apply in_defs in Hg. cbn [g' f_ins]. tauto.
      - auto.
      - apply (Hr m); auto. apply in_defs in Hg. tauto. }
    split; [apply K; exact Ht|]. destruct Ht as [Ht|[Ht|(m & Hm & Ht)]]; auto. right. right. exists m. split; [apply Rest; exact Hm|exact Ht]. }
  assert (AD : forall t, In t (alldefs g') -> In t (alldefs g)).
  { intros t. rewrite !alldefs_in. intros [K|(m & Hm & K)]; [left; exact K|right; exists m; split; [apply Rest; exact Hm|exact K]]. }
  split; [|exact FV]. apply WW_top.
  - constructor.
    + intros o Hoo. apply Hd; [apply (g_outs _ _ G); exact Hoo|apply Ho; exact Hoo].
    + exact S1.
    + intros t Ht K. apply (g_scope _ _ G t); auto.
    + assert (N := g_names _ _ G). cbn [g g' f_nodes] in *. rewrite map_app in *. cbn [map] in N. apply NoDup_remove_1 in N. exact N.
    + intros n t o Hn. apply (g_acyclic _ _ G n t o). apply Rest. exact Hn.
    + apply (g_noself _ _ G).
  - intros n b Hn Hb. apply (WW_body rk g n b H); [apply Rest; exact Hn|exact Hb].
Qed.

(** ** adding a node with new outputs *)
Definition in_rank (rk : string -> nat) (n : fnode) : nat := fold_right (fun t m => Nat.max (S (rk t)) m) 0 (f_in n).
Lemma in_rank_ge rk n t : In t (f_in n) -> rk t < in_rank rk n.
Proof. unfold in_rank. induction (f_in n) as [|x l IH]; cbn [fold_right In]; [tauto|]. intros [<-|H]; [lia|]. specialize (IH H). lia. Qed.
Lemma in_rank_le rk n b : (forall t, In t (f_in n) -> rk t < b) -> in_rank rk n <= b.
Proof. unfold in_rank. induction (f_in n) as [|x l IH]; cbn [fold_right In]; intro H; [lia|]. assert (rk x < b) by (apply H; auto). specialize (IH (fun t Ht => H t (or_intror Ht))). lia. Qed.
Definition add_rank (rk : string -> nat) (n : fnode) : string -> nat :=
  fun t => if mem t (nonempty (f_out n)) then in_rank rk n else rk t.
Lemma rerank_WW rk RK b : WW rk b -> (forall t, In t (alldefs b) \/ In t (fv_graph b) -> RK t = rk t) -> WW RK b.
Proof.
  intros A E h Hw. assert (G := A h Hw). destruct G as [G1 G2 G3 G4 G5 G6]. constructor; auto.
  intros n t o Hn Ht Ho No. rewrite !E; [apply (G5 n); auto| |].
  - left. eapply within_alldefs; eauto. apply alldefs_in. right. exists n. split; auto. apply alldefs_in_node. auto.
  - eapply within_fv; eauto.
Qed.
Lemma add_valid rk l1 n l2 gi go : WW rk (FGraph (l1 ++ l2) gi go) ->
  f_bodies n = [] -> ~ In (f_name n) (map f_name (l1 ++ l2)) -> NoDup (nonempty (f_out n)) ->
  (forall o, In o (f_out n) -> o <> "" -> ~ In o (alldefs (FGraph (l1 ++ l2) gi go)) /\ ~ In o (fv_graph (FGraph (l1 ++ l2) gi go)) /\ ~ In o (f_in n)) ->
  (forall t, In t (f_in n) -> In t (defs (FGraph (l1 ++ l2) gi go)) \/ In t (fv_graph (FGraph (l1 ++ l2) gi go)) \/
             (t = "" \/ ~ In t (alldefs (FGraph (l1 ++ l2) gi go)))) ->
  WW (add_rank rk n) (FGraph (l1 ++ n :: l2) gi go).
Proof.
  set (g := FGraph (l1 ++ l2) gi go). set (g' := FGraph (l1 ++ n :: l2) gi go). intros H Eb Nm ND Fr In_.
  assert (G := H g (within_refl _)).
  assert (Old : forall t, In t (alldefs g) \/ In t (fv_graph g) -> add_rank rk n t = rk t).
  { intros t Ht. unfold add_rank. destruct (mem t (nonempty (f_out n))) eqn:E; auto. apply mem_in, in_nonempty in E.
    destruct (Fr t (proj1 E) (proj2 E)) as (A & B & _). tauto. }
  assert (Inn : forall t, In t (f_in n) -> add_rank rk n t = rk t).
  { intros t Ht. unfold add_rank. destruct (mem t (nonempty (f_out n))) eqn:E; auto. apply mem_in, in_nonempty in E.
    destruct (Fr t (proj1 E) (proj2 E)) as (_ & _ & C). contradiction. }
  assert (Dn : alldefs_node n = nonempty (f_out n)).
  { destruct n as [n1 n2 n3 n4 n5 n6 n7]. cbn [f_bodies] in Eb. subst n7. cbn. apply app_nil_r. }
  assert (AD : forall t, In t (alldefs g') <-> In t (alldefs g) \/ In t (nonempty (f_out n))).
  { intro t. unfold g, g'. cbn [alldefs]. rewrite !map_app, !concat_app. cbn [map concat]. rewrite Dn, !in_app_iff. tauto. }
  assert (DF : forall t, In t (defs g') <-> In t (defs g) \/ In t (nonempty (f_out n))).
  { intro t. unfold g, g'. rewrite defs_split, in_nonempty. tauto. }
  assert (Rest : forall m, In m (f_nodes g') -> m = n \/ In m (f_nodes g)).
  { intros m Hm. unfold g', g in *. cbn [f_nodes] in *. rewrite in_app_iff in *. cbn in Hm. destruct Hm as [Hm|[Hm|Hm]]; auto. }
  apply WW_top.
  - constructor.
    + intros o Ho. apply DF. left. apply (g_outs _ _ G). exact Ho.
    + assert (S := g_ssa _ _ G). unfold g, g' in *. cbn [alldefs] in *. rewrite !map_app, !concat_app in *. cbn [map concat] in *. rewrite Dn.
      apply NoDup_app_inv in S. destruct S as (S1 & S2 & S3). apply NoDup_app_inv in S2. destruct S2 as (S4 & S5 & S6).
      assert (F : forall t, In t (nonempty (f_out n)) -> ~ In t (nonempty gi) /\ ~ In t (concat (map alldefs_node l1)) /\ ~ In t (concat (map alldefs_node l2))).
      { intros t Ht. apply in_nonempty in Ht. destruct (Fr t (proj1 Ht) (proj2 Ht)) as (A & _). rewrite !in_app_iff in A. tauto. }
      apply NoDup_app_intro; auto.
      * apply NoDup_app_intro; auto.
        -- apply NoDup_app_intro; auto. intros t Ht. apply (F t Ht).
        -- intros t Ht K. apply in_app_iff in K. destruct K as [K|K]; [destruct (F t K) as (_ & Q & _); auto|apply (S6 t Ht K)].
      * intros t Ht K. rewrite !in_app_iff in K. destruct K as [K|[K|K]].
        -- apply (S3 t Ht). apply in_app_iff. auto.
        -- destruct (F t K) as (Q & _). auto.
        -- apply (S3 t Ht). apply in_app_iff. auto.
    + intros t Ht K. apply in_fv_graph in Ht. destruct Ht as [Nd Ht]. assert (Nd' : ~ In t (defs g)) by (intro Q; apply Nd, DF; auto).
      apply AD in K. destruct K as [K|K]; [|apply Nd, DF; auto].
      destruct Ht as [Ht|[Ht|(m & Hm & Ht)]].
      * apply (g_scope _ _ G t); auto. apply in_fv_graph. auto.
      * apply (g_scope _ _ G t); auto. apply in_fv_graph. auto.
      * destruct (Rest m Hm) as [->|Hm'].
        -- rewrite fv_node_eq, Eb in Ht. cbn in Ht. rewrite app_nil_r in Ht. destruct (In_ t Ht) as [Q|[Q|[->|Q]]]; auto.
           ++ apply (g_scope _ _ G t); auto.
           ++ apply alldefs_in in K. destruct K as [[_ K]|(k & Hk & K)]; [congruence|].
              assert (E0 : forall k, ~ In "" (alldefs_node k)).
              { enough (Q : (forall k, ~ In "" (alldefs_node k)) /\ (forall k, ~ In "" (alldefs k))) by apply Q. apply fnode_fgraph_ind.
                - intros nm op dom at_ ins outs bodies IH Q. apply alldefs_in_node in Q. cbn [f_out f_bodies] in Q.
                  destruct Q as [[_ Q]|(b & Hb & Q)]; [congruence|exact (IH b Hb Q)].
                - intros ns gi' go' IH Q. apply alldefs_in in Q. cbn [f_ins f_nodes] in Q. destruct Q as [[_ Q]|(m & Hm0 & Q)]; [congruence|exact (IH m Hm0 Q)]. }
              exact (E0 k K).
        -- apply (g_scope _ _ G t); auto. apply in_fv_graph. eauto 6.
    + assert (N := g_names _ _ G). unfold g, g' in *. cbn [f_nodes] in *. rewrite map_app in *. cbn [map].
      apply NoDup_app_inv in N. destruct N as (N1 & N2 & N3). rewrite in_app_iff in Nm. apply NoDup_app_intro; auto.
      * constructor; tauto.
      * intros t Ht [<-|K]; [tauto|exact (N3 t Ht K)].
    + intros m t o Hm Ht Ho No. destruct (Rest m Hm) as [->|Hm'].
      * rewrite fv_node_eq, Eb in Ht. cbn in Ht. rewrite app_nil_r in Ht. rewrite Inn by auto.
        unfold add_rank. rewrite (proj2 (mem_in o (nonempty (f_out n)))) by (apply in_nonempty; auto). now apply in_rank_ge.
      * rewrite !Old; [apply (g_acyclic _ _ G m); auto| |].
        -- left. apply alldefs_in. right. exists m. split; auto. apply alldefs_in_node. auto.
        -- destruct (used_defs_or_free g m t Hm' Ht) as [Q|Q]; auto. left. now apply defs_alldefs.
    + apply (g_noself _ _ G).
  - intros m b Hm Hb. destruct (Rest m Hm) as [->|Hm']; [rewrite Eb in Hb; destruct Hb|].
    apply (rerank_WW rk); [exact (WW_body rk g m b H Hm' Hb)|]. intros t Ht. apply Old. destruct Ht as [Ht|Ht].
    + left. apply alldefs_in. right. exists m. split; auto. apply alldefs_in_node. right. eauto.
    + destruct (used_defs_or_free g m t Hm' (fv_body m b t Hb Ht)) as [Q|Q]; auto. left. now apply defs_alldefs.
Qed.

(** ** replacing a node by one with the same outputs *)
Lemma replace_valid rk l1 n n' l2 gi go : WW rk (FGraph (l1 ++ n :: l2) gi go) ->
  f_name n' = f_name n -> f_out n' = f_out n -> f_bodies n' = [] ->
  (forall t, In t (f_in n') -> In t (defs (FGraph (l1 ++ n :: l2) gi go)) \/ In t (fv_graph (FGraph (l1 ++ n :: l2) gi go))) ->
  (forall t o, In t (f_in n') -> In o (f_out n) -> o <> "" -> rk t < rk o) ->
  WW rk (FGraph (l1 ++ n' :: l2) gi go) /\
  (forall t, In t (fv_graph (FGraph (l1 ++ n' :: l2) gi go)) -> In t (fv_graph (FGraph (l1 ++ n :: l2) gi go))).
Proof.
  set (g := FGraph (l1 ++ n :: l2) gi go). set (g' := FGraph (l1 ++ n' :: l2) gi go). intros H En Eo Eb Hi Hr.
  assert (G := H g (within_refl _)).
  assert (Rest : forall m, In m (f_nodes g') -> m = n' \/ In m (f_nodes g)).
  { intros m Hm. unfold g', g in *. cbn [f_nodes] in *. rewrite in_app_iff in *. cbn in *. destruct Hm as [Hm|[Hm|Hm]]; auto. }
  assert (Dn : incl (alldefs_node n') (alldefs_node n)).
  { intros t. rewrite !alldefs_in_node, Eb, Eo. cbn. firstorder. }
  assert (Dnd : NoDup (alldefs_node n) -> NoDup (alldefs_node n')).
  { destruct n as [n1 n2 n3 n4 n5 n6 n7], n' as [m1 m2 m3 m4 m5 m6 m7]. cbn in *. subst. cbn. rewrite app_nil_r.
    intro Q. apply NoDup_app_inv in Q. tauto. }
  assert (DF : defs g' = defs g).
  { unfold defs, g, g'. cbn [f_ins f_nodes]. rewrite !map_app. cbn [map]. now rewrite Eo. }
  assert (Fn' : forall t, In t (fv_node n') -> In t (f_in n')).
  { intro t. rewrite fv_node_eq, Eb. cbn. now rewrite app_nil_r. }
  assert (FV : forall t, In t (fv_graph g') -> In t (fv_graph g)).
  { intros t Ht. apply in_fv_graph in Ht. rewrite DF in Ht. destruct Ht as [Nd Ht]. apply in_fv_graph. split; auto.
    destruct Ht as [Ht|[Ht|(m & Hm & Ht)]]; auto. destruct (Rest m Hm) as [->|Hm']; [|eauto 6].
    destruct (Hi t (Fn' t Ht)) as [Q|Q]; [contradiction|]. apply in_fv_graph in Q. tauto. }
  split; [|exact FV]. apply WW_top.
  - constructor.
    + rewrite DF. apply (g_outs _ _ G).
    + assert (S := g_ssa _ _ G). unfold g, g' in *. cbn [alldefs] in *. rewrite !map_app, !concat_app in *. cbn [map concat] in *.
      apply NoDup_app_inv in S. destruct S as (S1 & S2 & S3). apply NoDup_app_inv in S2. destruct S2 as (S4 & S5 & S6).
      apply NoDup_app_inv in S5. destruct S5 as (S7 & S8 & S9).
      apply NoDup_app_intro; auto.
      * apply NoDup_app_intro; auto.
        -- apply NoDup_app_intro; auto.
        -- intros t Ht K. apply (S6 t Ht). rewrite in_app_iff in *. destruct K; auto.
      * intros t Ht K. apply (S3 t Ht). rewrite !in_app_iff in *. destruct K as [K|[K|K]]; auto.
    + intros t Ht K. apply (g_scope _ _ G t); auto. unfold g, g' in *. cbn [alldefs] in *. rewrite !map_app, !concat_app in *. cbn [map concat] in *.
      rewrite !in_app_iff in *. destruct K as [K|[K|[K|K]]]; auto.
    + assert (N := g_names _ _ G). unfold g, g' in *. cbn [f_nodes] in *. rewrite map_app in *. cbn [map] in *. now rewrite En.
    + intros m t o Hm Ht Ho No. destruct (Rest m Hm) as [->|Hm'].
      * rewrite Eo in Ho. apply Hr; auto.
      * apply (g_acyclic _ _ G m); auto.
    + apply (g_noself _ _ G).
  - intros m b Hm Hb. destruct (Rest m Hm) as [->|Hm']; [rewrite Eb in Hb; destruct Hb|]. exact (WW_body rk g m b H Hm' Hb).
Qed.

Section Meaning.
Variable V : Type.
Variable op_rel : string -> string -> list (string * attr) -> nat -> list V ->
                  list (list V -> list V -> Prop) -> list V -> Prop.
Hypothesis ext : op_ext op_rel.
Notation holds := (holds op_rel). Notation body_rel := (body_rel op_rel). Notation all_hold := (all_hold op_rel).
Notation equiv := (equiv op_rel). Notation env := (env V).

Lemma equiv_same_defs g g' : f_ins g' = f_ins g -> f_outs g' = f_outs g -> (forall t, In t (defs g') <-> In t (defs g)) ->
  (forall r : env, all_hold r (f_nodes g) <-> all_hold r (f_nodes g')) -> equiv g g'.
Proof.
  intros Ei Eo Ed H r args res. rewrite !body_rel_eq, Ei, Eo.
  split; intros (r' & A & B & C & D); exists r'; (split; [|split; [exact B|split; [apply H; exact C|exact D]]]);
    intros t Ht; apply A; intro K; apply Ht; apply Ed; exact K.
Qed.
Lemma subst_equiv a b g rk : WW rk g -> In a (defs g) \/ In a (fv_graph g) -> In b (defs g) \/ In b (fv_graph g) ->
  (forall r : env, all_hold r (f_nodes g) -> r a = r b) ->
  (forall r : env, all_hold r (f_nodes (subst_graph a b g)) -> r a = r b) ->
  equiv g (subst_graph a b g).
Proof.
  intros H Ha Hb E1 E2. assert (G := H g (within_refl _)). apply equiv_same_defs.
  - destruct g; reflexivity.
  - destruct g; reflexivity.
  - intro t. now rewrite defs_subst.
  - intro r. destruct g as [ns gi go]. cbn [subst_graph f_nodes] in *.
    assert (K : r a = r b -> (all_hold r ns <-> all_hold r (map (subst_node a b) ns))).
    { intro E. apply all_hold_map. intros m Hm. symmetry. apply (holds_subst V op_rel ext); auto. intros bd Hbd.
      split; [apply (good_not_nested rk (FGraph ns gi go) m bd a)|apply (good_not_nested rk (FGraph ns gi go) m bd b)]; auto. }
    split; intro A; [apply K|apply K]; auto.
Qed.
Lemma remove_equiv rk l1 d l2 gi go : WW rk (FGraph (l1 ++ d :: l2) gi go) ->
  (forall m t, In m (l1 ++ l2) -> In t (fv_node m) -> t <> "" -> ~ In t (f_out d)) ->
  (forall o, In o go -> ~ In o (f_out d)) ->
  (forall r : env, all_hold r (l1 ++ l2) -> exists r', (forall t, ~ In t (nonempty (f_out d)) -> r' t = r t) /\ holds r' d) ->
  equiv (FGraph (l1 ++ d :: l2) gi go) (FGraph (l1 ++ l2) gi go).
Proof.
  set (g := FGraph (l1 ++ d :: l2) gi go). set (g' := FGraph (l1 ++ l2) gi go). intros H Hr Ho Hx.
  assert (G := H g (within_refl _)). assert (ND := defs_NoDup _ _ G).
  assert (Nin : forall t, In t (nonempty (f_out d)) -> ~ In t (f_ins g) /\ forall m, In m (l1 ++ l2) -> ~ In t (f_out m)).
  { intros t Ht. destruct (alldefs_split _ _ _ _ _ (g_ssa _ _ G)) as (S1 & S2 & S3).
    assert (K : ~ In t (alldefs (FGraph (l1 ++ l2) gi go))).
    { apply S3. apply alldefs_in_node. left. apply in_nonempty. exact Ht. }
    apply in_nonempty in Ht. split.
    - intro Q. apply K. apply alldefs_in. left. tauto.
    - intros m Hm Q. apply K. apply alldefs_in. right. exists m. split; auto. apply alldefs_in_node. tauto. }
  assert (Dg : forall t, In t (defs g) <-> In t (defs g') \/ In t (nonempty (f_out d))).
  { intro t. unfold g, g'. rewrite defs_split, in_nonempty. tauto. }
  intros r args res. rewrite !body_rel_eq. cbn [g g' f_ins f_outs f_nodes] in *. split.
  - intros (r' & A & B & C & D). exists (fun t => if mem t (nonempty (f_out d)) then r t else r' t).
    assert (Fr : forall t, ~ In t (nonempty (f_out d)) -> (if mem t (nonempty (f_out d)) then r t else r' t) = r' t).
    { intros t Ht. apply mem_false in Ht. now rewrite Ht. }
    apply all_hold_app in C. destruct C as [C1 C2]. split; [|split; [|split]].
    + intros t Ht. destruct (mem t (nonempty (f_out d))) eqn:E; auto. apply A. intro K. apply Dg in K. apply mem_false in E. tauto.
    + rewrite <- B. apply map_ext_in. intros t Ht. apply Fr. intro K. apply (proj1 (Nin t K)). exact Ht.
    + intros m Hm. eapply holds_agree; [exact ext| | |apply C2; exact Hm].
      * intros t Ht. symmetry. apply Fr. intro K. apply in_nonempty in K. apply (Hr m t Hm Ht); tauto.
      * intros t Ht Ne. symmetry. apply Fr. intro K. apply (proj2 (Nin t K) m Hm). exact Ht.
    + rewrite <- D. apply map_ext_in. intros t Ht. apply Fr. intro K. apply in_nonempty in K. apply (Ho t Ht). tauto.
  - intros (r0 & A & B & C & D). destruct (Hx r0 C) as (r' & F & Hd). exists r'. split; [|split; [|split]].
    + intros t Ht. rewrite F; [apply A|]; intro K; apply Ht, Dg; auto.
    + rewrite <- B. apply map_ext_in. intros t Ht. apply F. intro K. apply (proj1 (Nin t K)). exact Ht.
    + apply all_hold_app. split; [exact Hd|]. intros m Hm. eapply holds_agree; [exact ext| | |apply C; exact Hm].
      * intros t Ht. symmetry. apply F. intro K. apply in_nonempty in K. apply (Hr m t Hm Ht); tauto.
      * intros t Ht Ne. symmetry. apply F. intro K. apply (proj2 (Nin t K) m Hm). exact Ht.
    + rewrite <- D. apply map_ext_in. intros t Ht. apply F. intro K. apply in_nonempty in K. apply (Ho t Ht). tauto.
Qed.
Lemma replace_equiv l1 n n' l2 gi go : f_out n' = f_out n ->
  (forall r : env, all_hold r (l1 ++ l2) -> (holds r n <-> holds r n')) ->
  equiv (FGraph (l1 ++ n :: l2) gi go) (FGraph (l1 ++ n' :: l2) gi go).
Proof.
  intros Eo H. apply equiv_same_defs; auto.
  - intro t. unfold defs. cbn [f_ins f_nodes]. rewrite !map_app. cbn [map]. rewrite Eo. tauto.
  - intro r. cbn [f_nodes]. rewrite !all_hold_app. split; intros [A B]; split; auto; apply (H r B); exact A.
Qed.
End Meaning.
