From Coq Require Import String List Bool Arith Lia.
From Verif Require Import FGraph FGraphProofs FGraphSpec IdentityModel.
Import ListNotations.
Local Open Scope string_scope.
Local Open Scope list_scope.

(** ** lists *)
Lemma NoDup_app_inv {A} (l l' : list A) : NoDup (l ++ l') -> NoDup l /\ NoDup l' /\ (forall x, In x l -> ~ In x l').
Proof.
  induction l as [|a l IH]; cbn; intro H; [repeat split; auto; constructor|]. inversion H as [|? ? Ha Hl]; subst.
  destruct (IH Hl) as (A1 & A2 & A3). split; [constructor; auto; rewrite in_app_iff in Ha; tauto|]. split; auto.
  intros x [->|Hx]; auto. rewrite in_app_iff in Ha. tauto.
Qed.
Lemma NoDup_app_intro {A} (l l' : list A) : NoDup l -> NoDup l' -> (forall x, In x l -> ~ In x l') -> NoDup (l ++ l').
Proof.
  induction 1 as [|a l Ha Hl IH]; cbn; intros H' D; auto. constructor.
  - rewrite in_app_iff. intros [K|K]; [auto|]. apply (D a); cbn; auto.
  - apply IH; [auto|]. intros x Hx. apply D. cbn. auto.
Qed.
Lemma without_split nm l1 (n : fnode) l2 : NoDup (map f_name (l1 ++ n :: l2)) -> f_name n = nm ->
  without nm (l1 ++ n :: l2) = l1 ++ l2.
Proof.
  intros H E. rewrite map_app in H. cbn in H. apply NoDup_remove in H. destruct H as [_ H].
  rewrite in_app_iff in H. unfold without. rewrite filter_app. cbn [filter]. rewrite E, String.eqb_refl. cbn [negb].
  assert (K : forall l, ~ In (f_name n) (map f_name l) -> filter (fun m => negb (String.eqb (f_name m) nm)) l = l).
  { induction l as [|m l IH]; auto. cbn. intro Hn. destruct (String.eqb_spec (f_name m) nm); cbn.
    - exfalso. apply Hn. left. congruence.
    - f_equal. apply IH. tauto. }
  rewrite !K; tauto.
Qed.

(** ** the general step: a name that always equals another one is eliminated *)
Section Alias.
Variable V : Type.
Variable op_rel : string -> string -> list (string * attr) -> nat -> list V ->
                  list (list V -> list V -> Prop) -> list V -> Prop.
Hypothesis ext : op_ext op_rel.
Notation holds := (holds op_rel). Notation body_rel := (body_rel op_rel). Notation all_hold := (all_hold op_rel).
Notation equiv := (equiv op_rel). Notation env := (env V).
Definition upd (r : env) (x : string) (v : V) : env := fun t => if String.eqb t x then v else r t.
Lemma upd_same r x v : upd r x v x = v. Proof. unfold upd. now rewrite String.eqb_refl. Qed.
Lemma upd_other r x v t : t <> x -> upd r x v t = r t.
Proof. unfold upd. destruct (String.eqb_spec t x); congruence. Qed.

Lemma alias_elim g g' a b :
  a <> b -> In a (defs g) -> ~ In a (f_outs g) -> ~ In a (f_ins g) ->
  f_ins g' = f_ins g -> f_outs g' = f_outs g ->
  (forall t, In t (defs g') <-> In t (defs g) /\ t <> a) ->
  (forall r : env, all_hold r (f_nodes g) -> r a = r b) ->
  (forall r : env, r a = r b -> (all_hold r (f_nodes g) <-> all_hold r (f_nodes g'))) ->
  (forall r1 r2 : env, (forall t, t <> a -> r1 t = r2 t) -> all_hold r1 (f_nodes g') -> all_hold r2 (f_nodes g')) ->
  equiv g g'.
Proof.
  intros Ne Hd Ho Hi Ei Eo D H1 H2 H3 r args res. rewrite !body_rel_eq, Ei, Eo. split.
  - intros (r' & A & B & C & R). assert (E := H1 _ C). exists (upd r' a (r a)). split; [|split; [|split]].
    + intros t Ht. destruct (string_dec t a) as [->|N]; [apply upd_same|]. rewrite upd_other by auto. apply A.
      intro K. apply Ht. apply D. auto.
    + rewrite <- B. apply map_ext_in. intros t Ht. apply upd_other. intros ->. auto.
    + apply (H3 r'); [intros t Nt; now rewrite upd_other|]. now apply H2.
    + rewrite <- R. apply map_ext_in. intros t Ht. apply upd_other. intros ->. auto.
  - intros (r' & A & B & C & R). exists (upd r' a (r' b)). split; [|split; [|split]].
    + intros t Ht. assert (t <> a) by (intros ->; auto). rewrite upd_other by auto. apply A. intro K. apply D in K. tauto.
    + rewrite <- B. apply map_ext_in. intros t Ht. apply upd_other. intros ->. auto.
    + apply H2; [rewrite upd_same, upd_other; auto|].
      apply (H3 r'); auto. intros t Nt. now rewrite upd_other.
    + rewrite <- R. apply map_ext_in. intros t Ht. apply upd_other. intros ->. auto.
Qed.

Lemma all_hold_map (f : fnode -> fnode) ns (r : env) : (forall n, In n ns -> (holds r n <-> holds r (f n))) ->
  (all_hold r ns <-> all_hold r (map f ns)).
Proof.
  intro H. unfold all_hold. split.
  - intros A m Hm. apply in_map_iff in Hm. destruct Hm as (n & <- & Hn). apply (proj1 (H n Hn)). auto.
  - intros A n Hn. apply (proj2 (H n Hn)). apply A. now apply in_map.
Qed.
Lemma all_hold_app (r : env) l1 n l2 : all_hold r (l1 ++ n :: l2) <-> holds r n /\ all_hold r (l1 ++ l2).
Proof.
  unfold all_hold. split.
  - intro H. split; [apply H; rewrite in_app_iff; cbn; auto|]. intros m Hm. apply H. rewrite in_app_iff in *. cbn. tauto.
  - intros [A B] m Hm. rewrite in_app_iff in Hm. cbn in Hm. destruct Hm as [Hm|[<-|Hm]]; auto; apply B; rewrite in_app_iff; auto.
Qed.
End Alias.

(** ** names in a good graph *)
Lemma good_closed rank g : (forall h, within g h -> good rank h) -> closed_graph g.
Proof.
  revert rank. assert (K : (forall n : fnode, forall rank, (forall b h, In b (f_bodies n) -> within b h -> good rank h) -> closed_node n) /\
                  (forall g, forall rank, (forall h, within g h -> good rank h) -> closed_graph g)).
  { apply fnode_fgraph_ind.
    - intros nm op dom at_ ins outs bodies IH rank H. apply closed_node_eq. cbn [f_bodies] in *. intros b Hb.
      apply (IH b Hb rank). intros h Hh. eauto.
    - intros ns gi go IH rank H. apply closed_graph_eq. split.
      + apply (g_outs rank). apply H. constructor.
      + intros n Hn. apply (IH n Hn rank). intros b h Hb Hw. apply H. eapply within_body; eauto. }
  apply K.
Qed.
Lemma alldefs_split l1 (n : fnode) l2 gi go : NoDup (alldefs (FGraph (l1 ++ n :: l2) gi go)) ->
  NoDup (alldefs (FGraph (l1 ++ l2) gi go)) /\ NoDup (alldefs_node n) /\
  (forall x, In x (alldefs_node n) -> ~ In x (alldefs (FGraph (l1 ++ l2) gi go))).
Proof.
  cbn [alldefs]. rewrite !map_app, !concat_app. cbn [map concat]. intro H.
  apply NoDup_app_inv in H. destruct H as (H1 & H2 & H3). apply NoDup_app_inv in H2. destruct H2 as (H4 & H5 & H6).
  apply NoDup_app_inv in H5. destruct H5 as (H7 & H8 & H9). split; [|split]; auto.
  - apply NoDup_app_intro; auto.
    + apply NoDup_app_intro; auto. intros x Hx K. apply (H6 x Hx). apply in_app_iff. auto.
    + intros x Hx K. apply (H3 x Hx). rewrite !in_app_iff in *. tauto.
  - intros x Hx. rewrite !in_app_iff. intros [K|[K|K]].
    + apply (H3 x K). rewrite !in_app_iff. auto.
    + apply (H6 x K). rewrite !in_app_iff. auto.
    + apply (H9 x Hx K).
Qed.
Lemma defs_split x l1 n l2 gi go : In x (defs (FGraph (l1 ++ n :: l2) gi go)) <->
  In x (defs (FGraph (l1 ++ l2) gi go)) \/ (x <> "" /\ In x (f_out n)).
Proof.
  rewrite !in_defs. cbn [f_ins f_nodes]. split.
  - intros [Ne [H|(m & Hm & Hx)]]; auto. rewrite in_app_iff in Hm. cbn in Hm. destruct Hm as [Hm|[->|Hm]]; auto;
    left; split; auto; right; exists m; rewrite in_app_iff; auto.
  - intros [[Ne [H|(m & Hm & Hx)]]|[Ne H]]; split; auto; right.
    + exists m. rewrite in_app_iff in *. cbn. tauto.
    + exists n. rewrite in_app_iff. cbn. auto.
Qed.
(** a name defined here, or free here, is not defined in a nested body *)
Lemma good_not_nested rank g n b x : good rank g -> In n (f_nodes g) -> In b (f_bodies n) ->
  In x (defs g) \/ In x (fv_graph g) -> ~ In x (alldefs b).
Proof.
  intros G Hn Hb [Hx|Hx] K.
  - apply in_split in Hn. destruct Hn as (l1 & l2 & El). destruct g as [ns gi go]. cbn [f_nodes] in El. subst ns.
    destruct (alldefs_split _ _ _ _ _ (g_ssa _ _ G)) as (A & B & C).
    apply defs_split in Hx. destruct Hx as [Hx|[Ne Hx]].
    + apply (C x); [apply alldefs_in_node; right; eauto|now apply defs_alldefs].
    + destruct n as [n1 n2 n3 n4 n5 n6 n7]. cbn [alldefs_node f_out f_bodies] in *. apply NoDup_app_inv in B.
      destruct B as (_ & _ & D). apply (D x); [now apply in_nonempty|]. apply in_concat_map. eauto.
  - apply (g_scope _ _ G x Hx). apply alldefs_in. right. exists n. split; auto. apply alldefs_in_node. right. eauto.
Qed.
Lemma used_defs_or_free g n x : In n (f_nodes g) -> In x (fv_node n) -> In x (defs g) \/ In x (fv_graph g).
Proof.
  intros Hn Hx. destruct (in_dec string_dec x (defs g)); auto. right. apply in_fv_graph. eauto 6.
Qed.

(** ** substitution keeps nested graphs good *)
Lemma within_subst a b g h' : within (subst_graph a b g) h' -> exists h, within g h /\ h' = subst_graph a b h.
Proof.
  intro H. remember (subst_graph a b g) as g0 eqn:E. revert g E. induction H as [g0|g0 n b0 h' Hn Hb H IH]; intros g E.
  - exists g. split; [constructor|auto].
  - subst g0. destruct g as [ns gi go]. cbn [subst_graph f_nodes] in Hn. apply in_map_iff in Hn. destruct Hn as (m & <- & Hm).
    rewrite f_bodies_subst in Hb. apply in_map_iff in Hb. destruct Hb as (b1 & <- & Hb1).
    destruct (IH b1 eq_refl) as (h & Hw & ->). exists h. split; auto. eapply within_body; eauto.
Qed.
Lemma within_alldefs g h x : within g h -> In x (alldefs h) -> In x (alldefs g).
Proof.
  induction 1 as [|g n b h Hn Hb H IH]; auto. intro Hx. apply alldefs_in. right. exists n. split; auto.
  apply alldefs_in_node. right. eauto.
Qed.
Lemma within_trans g h k : within g h -> within h k -> within g k.
Proof. induction 1; auto. intro K. eapply within_body; eauto. Qed.
Lemma names_subst a b ns : map f_name (map (subst_node a b) ns) = map f_name ns.
Proof. rewrite map_map. apply map_ext. intros []. reflexivity. Qed.

Lemma good_subst a b rk rk' h : a <> "" -> b <> "" -> a <> b ->
  (forall k, within h k -> good rk k) -> ~ In a (alldefs h) -> ~ In b (alldefs h) ->
  (forall t o, In o (alldefs h) -> rk t < rk o -> rk' (sub a b t) < rk' o) ->
  good rk' (subst_graph a b h).
Proof.
  intros Na Nb Nab W Ha Hb R. assert (G := W h (within_refl _)). assert (C := good_closed _ _ W).
  constructor.
  - rewrite defs_subst. destruct h; cbn. apply (g_outs _ _ G).
  - rewrite (proj2 (alldefs_subst a b)). apply (g_ssa _ _ G).
  - intros x Hx. rewrite (proj2 (alldefs_subst a b)). apply (proj2 (fv_subst_img a b Na)) in Hx; auto.
    destruct Hx as (t & Ht & ->). unfold sub. destruct (String.eqb_spec t a); auto. apply (g_scope _ _ G); auto.
  - destruct h as [ns gi go]. cbn [subst_graph f_nodes]. rewrite names_subst. apply (g_names _ _ G).
  - intros n x o Hn Hx Ho No. destruct h as [ns gi go]. cbn [subst_graph f_nodes] in Hn.
    apply in_map_iff in Hn. destruct Hn as (m & <- & Hm). rewrite f_out_subst in Ho.
    assert (Cm : closed_node m). { apply closed_graph_eq in C. apply C. auto. }
    apply (proj1 (fv_subst_img a b Na) m Cm) in Hx.
    + destruct Hx as (t & Ht & ->). apply R.
      * apply alldefs_in. right. exists m. split; auto. apply alldefs_in_node. auto.
      * apply (g_acyclic _ _ G m); auto.
    + intros bd Hbd K. apply Ha. apply alldefs_in. right. exists m. split; auto. apply alldefs_in_node. right. eauto.
  - destruct h; cbn. apply (g_noself _ _ G).
Qed.

(** ** one elimination step keeps the model valid *)
Lemma step_valid rk rk' a b (hh : fnode -> fnode) l1 I l2 gi go :
  let g := FGraph (l1 ++ I :: l2) gi go in
  let g' := FGraph (map (fun m => subst_node a b (hh m)) (l1 ++ l2)) gi go in
  (forall h, within g h -> good rk h) -> a <> b -> a <> "" -> b <> "" ->
  In a (defs g) -> ~ In a gi -> ~ In a go -> In b (defs g) \/ In b (fv_graph g) ->
  (forall m, f_name (hh m) = f_name m /\ fv_node (hh m) = fv_node m /\ f_bodies (hh m) = f_bodies m) ->
  (forall t, In t (defs g') <-> In t (defs g) /\ t <> a) ->
  NoDup (alldefs g') -> (forall t, In t (alldefs g') -> In t (alldefs g)) ->
  (forall t o, In o (alldefs g) -> o <> a -> o <> b -> rk t < rk o -> rk' (sub a b t) < rk' o) ->
  (forall m t o, In m (l1 ++ l2) -> In t (fv_node m) -> In o (f_out (hh m)) -> o <> "" -> rk' (sub a b t) < rk' o) ->
  (forall h, within g' h -> good rk' h) /\ (forall t, In t (fv_graph g') -> In t (fv_graph g)).
Proof.
  intros g g' W Nab Na Nb Hda Hai Hao Hb Hh Hdefs Hssa Hall Rn Rt.
  assert (G := W g (within_refl _)).
  assert (Rest : forall m, In m (l1 ++ l2) -> In m (f_nodes g)).
  { intros m Hm. unfold g. cbn [f_nodes]. rewrite in_app_iff in *. cbn. tauto. }
  assert (Nest : forall m bd, In m (l1 ++ l2) -> In bd (f_bodies m) -> ~ In a (alldefs bd) /\ ~ In b (alldefs bd)).
  { intros m bd Hm Hbd. split; eapply good_not_nested; eauto. }
  assert (Cl : forall m, In m (l1 ++ l2) -> closed_node m).
  { intros m Hm. assert (C := good_closed _ _ W). apply closed_graph_eq in C. apply C. auto. }
  assert (Fv : forall m, In m (l1 ++ l2) -> forall x, In x (fv_node (subst_node a b (hh m))) -> exists t, In t (fv_node m) /\ x = sub a b t).
  { intros m Hm x Hx. destruct (Hh m) as (_ & E1 & E2).
    apply (proj1 (fv_subst_img a b Na) (hh m)) in Hx.
    - destruct Hx as (t & Ht & ->). exists t. rewrite <- E1. auto.
    - apply closed_node_eq. rewrite E2. apply closed_node_eq. auto.
    - rewrite E2. intros bd Hbd. eapply Nest; eauto. }
  assert (FV : forall x, In x (fv_graph g') -> In x (fv_graph g)).
  { intros x Hx. apply in_fv_graph in Hx. cbn [f_ins f_outs f_nodes g'] in Hx. destruct Hx as [Hd Hx].
    assert (Hd' : x <> a -> ~ In x (defs g)) by (intros Nx Kx; apply Hd; apply Hdefs; auto).
    destruct Hx as [Hx|[Hx|(n & Hn & Hx)]].
    - exfalso. assert (x <> "") by (intros ->; apply (g_noself _ _ G); exact Hx). apply Hd. apply in_defs. auto.
    - exfalso. assert (x <> a) by (intros ->; auto). apply Hd'; auto. apply (g_outs _ _ G). exact Hx.
    - apply in_map_iff in Hn. destruct Hn as (m & <- & Hm). destruct (Fv m Hm x Hx) as (t & Ht & E).
      unfold sub in E. destruct (String.eqb_spec t a) as [->|Nt]; subst x.
      + destruct Hb as [Hb|Hb]; auto. exfalso. apply Hd'; auto.
      + destruct (used_defs_or_free g m t (Rest m Hm) Ht) as [Hu|Hu]; auto. exfalso. apply Hd'; auto. }
  split; [|exact FV]. intros h Hw.
  inversion Hw as [|n bd h0 Hn Hbd Hw']; subst.
  - constructor.
    + intros o Ho. apply Hdefs. split; [apply (g_outs _ _ G); exact Ho|]. intros ->. auto.
    + exact Hssa.
    + intros x Hx K. apply (g_scope _ _ G x); auto.
    + cbn [f_nodes g']. rewrite map_map. assert (Ng := g_names _ _ G). unfold g in Ng. cbn [f_nodes] in Ng.
      rewrite (map_ext _ f_name).
      * rewrite map_app in *. cbn [map] in Ng. apply NoDup_remove_1 in Ng. exact Ng.
      * intro m. destruct (Hh m) as (E & _). rewrite <- E. destruct (hh m). reflexivity.
    + intros n x o Hn Hx Ho No. cbn [f_nodes g'] in Hn. apply in_map_iff in Hn. destruct Hn as (m & <- & Hm).
      rewrite f_out_subst in Ho. destruct (Fv m Hm x Hx) as (t & Ht & ->). eapply Rt; eauto.
    + apply (g_noself _ _ G).
  - unfold g' in Hn. cbn [f_nodes] in Hn. apply in_map_iff in Hn. destruct Hn as (m & <- & Hm).
    rewrite f_bodies_subst in Hbd. destruct (Hh m) as (_ & _ & E). rewrite E in Hbd.
    apply in_map_iff in Hbd. destruct Hbd as (b0 & <- & Hb0). apply within_subst in Hw'. destruct Hw' as (k & Hk & ->).
    destruct (Nest m b0 Hm Hb0) as [Ka Kb].
    apply (good_subst a b rk rk'); auto.
    + intros k' Hk'. apply W. eapply within_body; [apply Rest; exact Hm|exact Hb0|]. eapply within_trans; eauto.
    + intro K. apply Ka. eapply within_alldefs; eauto.
    + intro K. apply Kb. eapply within_alldefs; eauto.
    + intros t o Ho. assert (Ho' : In o (alldefs b0)) by (eapply within_alldefs; eauto). apply Rn.
      * apply alldefs_in. right. exists m. split; [apply Rest; auto|]. apply alldefs_in_node. right. eauto.
      * intros ->. auto.
      * intros ->. auto.
Qed.

(** ** Identity nodes *)
Definition idnode (n : fnode) (x y : string) : Prop :=
  f_op n = "Identity" /\ f_in n = [x] /\ f_out n = [y] /\ x <> "" /\ y <> "" /\ f_bodies n = [].

Section Meaning.
Variable V : Type.
Variable op_rel : string -> string -> list (string * attr) -> nat -> list V ->
                  list (list V -> list V -> Prop) -> list V -> Prop.
Hypothesis ext : op_ext op_rel.
Hypothesis idm : identity_meaning op_rel.
Notation holds := (holds op_rel). Notation all_hold := (all_hold op_rel). Notation equiv := (equiv op_rel).

Lemma holds_identity (r : env V) n x y : idnode n x y -> (holds r n <-> r y = r x).
Proof.
  intros (E1 & E2 & E3 & Nx & Ny & E4). rewrite holds_eq, E1, E2, E3, E4. cbn [map]. split.
  - intros (vs & A & B). apply idm in A. subst vs. specialize (B 0 y eq_refl Ny). cbn in B. congruence.
  - intro E. exists [r x]. split; [now apply idm|]. intros [|k] o Ho No; [|destruct k; discriminate].
    cbn in Ho |- *. congruence.
Qed.

Lemma elim_non_output rk n x y l1 l2 gi go :
  let g := FGraph (l1 ++ n :: l2) gi go in
  let g' := FGraph (map (subst_node y x) (l1 ++ l2)) gi go in
  (forall h, within g h -> good rk h) -> idnode n x y -> ~ In y go ->
  equiv g g' /\ (forall t, In t (alldefs g') -> In t (alldefs g)) /\
  (forall h, within g' h -> good (fun t => if String.eqb t y then rk x else rk t) h) /\
  (forall t, In t (fv_graph g') -> In t (fv_graph g)).
Proof.
  intros g g' W Hid Ho. assert (G := W g (within_refl _)).
  assert (Hn : In n (f_nodes g)) by (unfold g; cbn; rewrite in_app_iff; cbn; auto).
  assert (Hid' := Hid). destruct Hid' as (E1 & E2 & E3 & Nx & Ny & E4).
  assert (Fx : In x (fv_node n)) by (rewrite fv_node_eq, E2; cbn; auto).
  assert (Rxy : rk x < rk y) by (apply (g_acyclic _ _ G n); auto; rewrite E3; cbn; auto).
  assert (Nxy : y <> x) by (intros ->; lia).
  assert (Dy : In y (defs g)) by (apply defs_split; right; rewrite E3; cbn; auto).
  destruct (alldefs_split _ _ _ _ _ (g_ssa _ _ G)) as (Sr & Sn & Sd).
  assert (Yr : ~ In y (alldefs (FGraph (l1 ++ l2) gi go))).
  { apply Sd. apply alldefs_in_node. rewrite E3. cbn. auto. }
  assert (Yi : ~ In y gi) by (intro K; apply Yr; apply alldefs_in; auto).
  assert (Yo : forall m, In m (l1 ++ l2) -> ~ In y (f_out m)).
  { intros m Hm K. apply Yr. apply alldefs_in. right. exists m. split; auto. apply alldefs_in_node. auto. }
  assert (Bx := used_defs_or_free g n x Hn Fx).
  assert (Rest : forall m, In m (l1 ++ l2) -> In m (f_nodes g)).
  { intros m Hm. unfold g. cbn [f_nodes]. rewrite in_app_iff in *. cbn. tauto. }
  assert (Dg : forall t, In t (defs g') <-> In t (defs g) /\ t <> y).
  { intro t. change g' with (subst_graph y x (FGraph (l1 ++ l2) gi go)). rewrite defs_subst. unfold g. rewrite defs_split, E3. split.
    - intro K. split; auto. intros ->. apply Yr. now apply defs_alldefs.
    - intros [[K|[_ [K|[]]]] Nt]; congruence || auto. }
  assert (C := good_closed _ _ W). apply closed_graph_eq in C. destruct C as [_ C].
  assert (Nest : forall m, In m (l1 ++ l2) -> forall bd, In bd (f_bodies m) -> ~ In y (alldefs bd) /\ ~ In x (alldefs bd)).
  { intros m Hm bd Hbd. split; [exact (good_not_nested rk g m bd y G (Rest m Hm) Hbd (or_introl Dy))|
                                exact (good_not_nested rk g m bd x G (Rest m Hm) Hbd Bx)]. }
  split.
  - apply alias_elim with (a := y) (b := x); auto.
    + intros r A. unfold g in A. cbn [f_nodes] in A. apply all_hold_app in A. destruct A as [A _].
      apply (holds_identity r n x y); auto.
    + intros r E. unfold g, g'. cbn [f_nodes]. rewrite all_hold_app, (holds_identity r n x y Hid).
      rewrite <- (all_hold_map V op_rel (subst_node y x) (l1 ++ l2) r); [tauto|].
      intros m Hm. symmetry. exact (holds_subst V op_rel ext y x m r (Nest m Hm) E).
    + intros r1 r2 E A m Hm. assert (Am := A m Hm). unfold g' in Hm. cbn [f_nodes] in Hm.
      apply in_map_iff in Hm. destruct Hm as (m0 & <- & Hm0).
      refine (holds_agree _ _ ext _ r1 r2 _ _ Am).
      * intros t Ht. apply E. apply (proj1 (fv_subst_ind y x Nxy Ny)) in Ht; [tauto|]. apply C. apply Rest; auto.
      * intros t Ht _. apply E. rewrite f_out_subst in Ht. intros ->. apply (Yo m0); auto.
  - assert (Hall : forall t, In t (alldefs g') -> In t (alldefs g)).
    { intros t Ht. change (In t (alldefs (subst_graph y x (FGraph (l1 ++ l2) gi go)))) in Ht.
      rewrite (proj2 (alldefs_subst y x)) in Ht. apply alldefs_in in Ht. apply alldefs_in. destruct Ht as [Ht|(m & Hm & Ht)]; auto.
      right. exists m. split; auto. }
    split; [exact Hall|].
    apply (step_valid rk _ y x (fun m => m) l1 n l2 gi go W); auto; fold g.
    + change (NoDup (alldefs (subst_graph y x (FGraph (l1 ++ l2) gi go)))). rewrite (proj2 (alldefs_subst y x)). auto.
    + intros t o Hoa No1 No2 Hr. unfold sub. destruct (String.eqb_spec t y) as [->|Nt].
      * destruct (String.eqb_spec x y); [congruence|]. destruct (String.eqb_spec o y); [congruence|]. lia.
      * destruct (String.eqb_spec t y); [congruence|]. destruct (String.eqb_spec o y); [congruence|]. auto.
    + intros m t o Hm Ht Hom No. assert (Hr := g_acyclic _ _ G m t o (Rest m Hm) Ht Hom No).
      destruct (String.eqb_spec o y) as [->|Nt0]; [exfalso; apply (Yo m); auto|].
      unfold sub. destruct (String.eqb_spec t y) as [->|Nt].
      * destruct (String.eqb_spec x y); [congruence|]. lia.
      * destruct (String.eqb_spec t y); [congruence|]. auto.
Qed.

Lemma produces_sub (r : env V) x y outs vs : x <> "" -> y <> "" -> r x = r y ->
  (produces r (map (sub x y) outs) vs <-> produces r outs vs).
Proof.
  intros Nx Ny E. unfold produces. split; intros H k o Ho No.
  - rewrite <- (sub_eq V r x y o E). apply H; [rewrite nth_error_map, Ho; reflexivity|].
    unfold sub. destruct (String.eqb_spec o x); auto.
  - rewrite nth_error_map in Ho. destruct (nth_error outs k) as [o1|] eqn:E1; [|discriminate]. cbn in Ho. inversion Ho; subst o.
    rewrite (sub_eq V r x y o1 E). apply H; auto. intros ->. apply No. unfold sub.
    destruct (String.eqb_spec "" x); congruence.
Qed.
Lemma holds_ren (r : env V) x y m : x <> "" -> y <> "" -> r x = r y -> (holds r (ren_out x y m) <-> holds r m).
Proof.
  intros Nx Ny E. rewrite !holds_eq. destruct m as [n1 n2 n3 n4 n5 n6 n7]. cbn [ren_out f_op f_dom f_attrs f_in f_bodies f_out].
  rewrite map_length. split; intros (vs & A & B); exists vs; (split; [exact A|]); apply (produces_sub r x y n6 vs Nx Ny E); exact B.
Qed.
End Meaning.

Lemma map_sub_id x y l : ~ In x l -> map (sub x y) l = l.
Proof.
  intro H. rewrite <- (map_id l) at 2. apply map_ext_in. intros t Ht. unfold sub.
  destruct (String.eqb_spec t x); [subst; contradiction|auto].
Qed.
Lemma nonempty_map_sub x y l : x <> "" -> y <> "" -> nonempty (map (sub x y) l) = map (sub x y) (nonempty l).
Proof.
  intros Nx Ny. induction l as [|t l IH]; auto. cbn [map nonempty filter]. fold (nonempty l). fold (nonempty (map (sub x y) l)).
  assert (K : (sub x y t =? "") = (t =? "")).
  { unfold sub. destruct (String.eqb_spec t x) as [->|]; auto. destruct (String.eqb_spec y ""), (String.eqb_spec x ""); congruence. }
  rewrite K. destruct (t =? ""); cbn [negb map]; rewrite IH; auto.
Qed.
Lemma alldefs_ren x y m : x <> "" -> y <> "" -> (forall bd, In bd (f_bodies m) -> ~ In x (alldefs bd)) ->
  alldefs_node (ren_out x y m) = map (sub x y) (alldefs_node m).
Proof.
  intros Nx Ny H. destruct m as [n1 n2 n3 n4 n5 n6 n7]. cbn [ren_out alldefs_node f_bodies] in *. rewrite map_app.
  f_equal; [now apply nonempty_map_sub|]. symmetry. apply map_sub_id. rewrite in_concat_map. intros (b & Hb & K). apply (H b); auto.
Qed.
Lemma alldefs_ren_list x y ns gi go : x <> "" -> y <> "" -> ~ In x gi ->
  (forall m bd, In m ns -> In bd (f_bodies m) -> ~ In x (alldefs bd)) ->
  alldefs (FGraph (map (ren_out x y) ns) gi go) = map (sub x y) (alldefs (FGraph ns gi go)).
Proof.
  intros Nx Ny Hi H. cbn [alldefs]. rewrite map_app. f_equal.
  - symmetry. apply map_sub_id. rewrite in_nonempty. tauto.
  - rewrite concat_map, !map_map. f_equal. apply map_ext_in. intros m Hm. apply alldefs_ren; eauto.
Qed.
Lemma NoDup_map_sub x y l : ~ In y l -> NoDup l -> NoDup (map (sub x y) l).
Proof.
  intros Hy H. induction H as [|t l Ht Hl IH]; cbn; constructor.
  - rewrite in_map_iff. intros (u & E & Hu). cbn in Hy. unfold sub in E.
    destruct (String.eqb_spec u x), (String.eqb_spec t x); subst; tauto.
  - apply IH. cbn in Hy. tauto.
Qed.

Section Meaning2.
Variable V : Type.
Variable op_rel : string -> string -> list (string * attr) -> nat -> list V ->
                  list (list V -> list V -> Prop) -> list V -> Prop.
Hypothesis ext : op_ext op_rel.
Hypothesis idm : identity_meaning op_rel.
Notation holds := (holds op_rel). Notation all_hold := (all_hold op_rel). Notation equiv := (equiv op_rel).

Lemma elim_output rk n x y l1 l2 gi go :
  let g := FGraph (l1 ++ n :: l2) gi go in
  let g' := FGraph (map (fun m => subst_node x y (ren_out x y m)) (l1 ++ l2)) gi go in
  (forall h, within g h -> good rk h) -> idnode n x y -> In x (defs g) -> ~ In x gi -> ~ In x go ->
  equiv g g' /\ (forall t, In t (alldefs g') -> In t (alldefs g)) /\
  (forall h, within g' h -> good (fun t => if String.eqb t y then rk x else rk t) h) /\
  (forall t, In t (fv_graph g') -> In t (fv_graph g)).
Proof.
  intros g g' W Hid Dx Hxi Hxo. assert (G := W g (within_refl _)).
  assert (Hn : In n (f_nodes g)) by (unfold g; cbn; rewrite in_app_iff; cbn; auto).
  assert (Hid' := Hid). destruct Hid' as (E1 & E2 & E3 & Nx & Ny & E4).
  assert (Fx : In x (fv_node n)) by (rewrite fv_node_eq, E2; cbn; auto).
  assert (Rxy : rk x < rk y) by (apply (g_acyclic _ _ G n); auto; rewrite E3; cbn; auto).
  assert (Nxy : x <> y) by (intros ->; lia).
  assert (Dy : In y (defs g)) by (apply defs_split; right; rewrite E3; cbn; auto).
  destruct (alldefs_split _ _ _ _ _ (g_ssa _ _ G)) as (Sr & Sn & Sd).
  assert (Yr : ~ In y (alldefs (FGraph (l1 ++ l2) gi go))).
  { apply Sd. apply alldefs_in_node. rewrite E3. cbn. auto. }
  assert (Yo : forall m, In m (l1 ++ l2) -> ~ In y (f_out m)).
  { intros m Hm K. apply Yr. apply alldefs_in. right. exists m. split; auto. apply alldefs_in_node. auto. }
  assert (Dx' : In x (defs (FGraph (l1 ++ l2) gi go))).
  { apply defs_split in Dx. destruct Dx as [Dx|[_ Dx]]; auto. rewrite E3 in Dx. destruct Dx as [Dx|[]]. congruence. }
  assert (Rest : forall m, In m (l1 ++ l2) -> In m (f_nodes g)).
  { intros m Hm. unfold g. cbn [f_nodes]. rewrite in_app_iff in *. cbn. tauto. }
  assert (Nest : forall m, In m (l1 ++ l2) -> forall bd, In bd (f_bodies m) -> ~ In x (alldefs bd) /\ ~ In y (alldefs bd)).
  { intros m Hm bd Hbd. split; [exact (good_not_nested rk g m bd x G (Rest m Hm) Hbd (or_introl Dx))|
                                exact (good_not_nested rk g m bd y G (Rest m Hm) Hbd (or_introl Dy))]. }
  assert (Oren : forall m, f_out (ren_out x y m) = map (sub x y) (f_out m)) by (intros []; reflexivity).
  assert (Hren : forall m, f_name (ren_out x y m) = f_name m /\ fv_node (ren_out x y m) = fv_node m /\ f_bodies (ren_out x y m) = f_bodies m).
  { intros []. auto. }
  assert (Eg' : g' = subst_graph x y (FGraph (map (ren_out x y) (l1 ++ l2)) gi go)).
  { unfold g'. cbn [subst_graph]. rewrite map_map. reflexivity. }
  assert (Dg : forall t, In t (defs g') <-> In t (defs g) /\ t <> x).
  { intro t. rewrite Eg', defs_subst, !in_defs. cbn [f_ins f_nodes]. split.
    - intros [Nt [K|(m & Hm & Ht)]].
      + split; [|intros ->; auto]. split; auto.
      + apply in_map_iff in Hm. destruct Hm as (m0 & <- & Hm0). rewrite Oren in Ht. apply in_map_iff in Ht.
        destruct Ht as (u & Eu & Hu). unfold sub in Eu. destruct (String.eqb_spec u x).
        * subst t. split; [|congruence]. split; auto. right. exists n. rewrite E3. split; [exact Hn|cbn; auto].
        * subst t. split; auto. split; auto. right. exists m0. split; auto.
    - intros [[Nt [K|(m & Hm & Ht)]] Ntx]; split; auto. right. unfold g in Hm. cbn [f_nodes] in Hm.
      rewrite in_app_iff in Hm. cbn [In] in Hm.
      assert (Hm' : m = n \/ In m (l1 ++ l2)) by (rewrite in_app_iff; destruct Hm as [?|[?|?]]; auto). clear Hm.
      destruct Hm' as [->|Hm].
      + rewrite E3 in Ht. destruct Ht as [<-|[]]. apply in_defs in Dx'. destruct Dx' as [_ [K|(p & Hp & Hpx)]]; [contradiction|].
        exists (ren_out x y p). split; [now apply in_map|]. rewrite Oren. apply in_map_iff. exists x. split; auto.
        unfold sub. now rewrite String.eqb_refl.
      + exists (ren_out x y m). split; [now apply in_map|]. rewrite Oren. apply in_map_iff. exists t. split; auto.
        unfold sub. destruct (String.eqb_spec t x); congruence. }
  assert (C := good_closed _ _ W). apply closed_graph_eq in C. destruct C as [_ C].
  split.
  - apply alias_elim with (a := x) (b := y); auto.
    + intros r A. unfold g in A. cbn [f_nodes] in A. apply all_hold_app in A. destruct A as [A _].
      symmetry. apply (holds_identity V op_rel idm r n x y Hid). exact A.
    + intros r E. unfold g, g'. cbn [f_nodes]. rewrite all_hold_app, (holds_identity V op_rel idm r n x y Hid).
      rewrite <- (all_hold_map V op_rel (fun m => subst_node x y (ren_out x y m)) (l1 ++ l2) r).
      * assert (r y = r x) by congruence. tauto.
      * intros m Hm. rewrite (holds_subst V op_rel ext x y (ren_out x y m) r).
        -- symmetry. apply holds_ren; auto.
        -- destruct (Hren m) as (_ & _ & ->). apply Nest; auto.
        -- auto.
    + intros r1 r2 E A m Hm. assert (Am := A m Hm). unfold g' in Hm. cbn [f_nodes] in Hm.
      apply in_map_iff in Hm. destruct Hm as (m0 & <- & Hm0).
      refine (holds_agree _ _ ext _ r1 r2 _ _ Am).
      * intros t Ht. apply E. apply (proj1 (fv_subst_ind x y Nxy Nx)) in Ht; [tauto|].
        apply closed_node_eq. destruct (Hren m0) as (_ & _ & ->). apply closed_node_eq. apply C. apply Rest; auto.
      * intros t Ht _. apply E. rewrite f_out_subst, Oren in Ht. apply in_map_iff in Ht. destruct Ht as (u & <- & Hu).
        unfold sub. destruct (String.eqb_spec u x); congruence.
  - assert (Eall : alldefs g' = map (sub x y) (alldefs (FGraph (l1 ++ l2) gi go))).
    { rewrite Eg', (proj2 (alldefs_subst x y)). apply alldefs_ren_list; auto. intros m bd Hm Hbd. apply (Nest m Hm bd Hbd). }
    assert (Hall : forall t, In t (alldefs g') -> In t (alldefs g)).
    { intros t Ht. rewrite Eall in Ht. apply in_map_iff in Ht. destruct Ht as (u & Eu & Hu).
      unfold sub in Eu. destruct (String.eqb_spec u x).
      - subst t. apply defs_alldefs. exact Dy.
      - subst t. apply alldefs_in in Hu. apply alldefs_in. destruct Hu as [Hu|(m & Hm & Hu)]; auto. right. eauto. }
    split; [exact Hall|].
    apply (step_valid rk _ x y (ren_out x y) l1 n l2 gi go W); auto; fold g.
    + change (NoDup (alldefs g')). rewrite Eall. now apply NoDup_map_sub.
    + intros t o Hoa No1 No2 Hr. unfold sub. destruct (String.eqb_spec o y); [congruence|]. destruct (String.eqb_spec t x) as [->|Nt].
      * rewrite String.eqb_refl. auto.
      * destruct (String.eqb_spec t y); [|auto]. subst t. lia.
    + intros m t o Hm Ht Hom No. rewrite Oren in Hom. apply in_map_iff in Hom. destruct Hom as (u & Eu & Hu).
      assert (Nu : u <> "").
      { intros ->. unfold sub in Eu. destruct (String.eqb_spec "" x); congruence. }
      assert (Hr := g_acyclic _ _ G m t u (Rest m Hm) Ht Hu Nu).
      unfold sub in Eu. unfold sub. destruct (String.eqb_spec u x) as [Eux|Nux].
      * rewrite Eux in Hr. subst o. rewrite String.eqb_refl. destruct (String.eqb_spec t x) as [->|Ntx]; [lia|].
        destruct (String.eqb_spec t y) as [->|]; [lia|auto].
      * rewrite <- Eu. destruct (String.eqb_spec u y) as [Euy|]; [exfalso; apply (Yo m Hm); rewrite <- Euy; exact Hu|].
        destruct (String.eqb_spec t x) as [->|Ntx]; [rewrite String.eqb_refl; auto|].
        destruct (String.eqb_spec t y) as [->|]; [lia|auto].
Qed.
End Meaning2.

(** ** the circle test never fires on valid models *)
Lemma circ_false old new : new <> "" ->
  (forall n, ~ (In old (f_in n) /\ In new (f_out n)) -> (forall bd, In bd (f_bodies n) -> ~ In new (alldefs bd)) ->
     circ_node old new n = false) /\
  (forall g, ~ In new (alldefs g) -> circ_graph old new g = false).
Proof.
  intro Nn. apply fnode_fgraph_ind.
  - intros nm op dom at_ ins outs bodies IH H Hb. cbn [circ_node f_in f_out f_bodies] in *.
    apply orb_false_iff. split.
    + destruct (mem old ins) eqn:E1; auto. destruct (mem new outs) eqn:E2; auto.
      exfalso. apply H. split; now apply mem_in.
    + destruct (existsb (circ_graph old new) bodies) eqn:E; auto. apply existsb_exists in E.
      destruct E as (b & Hin & E). rewrite IH in E; auto; discriminate.
  - intros ns gi go IH H. cbn [circ_graph]. destruct (existsb (circ_node old new) ns) eqn:E; auto.
    apply existsb_exists in E. destruct E as (n & Hin & E). rewrite IH in E; auto; try discriminate.
    + intros [_ K]. apply H. apply alldefs_in. right. exists n. split; auto. apply alldefs_in_node. auto.
    + intros bd Hbd K. apply H. apply alldefs_in. right. exists n. split; auto. apply alldefs_in_node. right. eauto.
Qed.

(** ** depth *)
Lemma fold_max_le {A} (f : A -> nat) l k : fold_right (fun x m => Nat.max (f x) m) 0 l <= k <-> forall x, In x l -> f x <= k.
Proof.
  induction l as [|a l IH]; cbn; [split; [intros _ x []|lia]|]. split.
  - intros H x [->|Hx]; [lia|]. apply IH; auto. lia.
  - intro H. assert (fold_right (fun x m => Nat.max (f x) m) 0 l <= k) by (apply IH; auto). specialize (H a (or_introl eq_refl)). lia.
Qed.
Lemma depth_subst a b : (forall n, depth_node (subst_node a b n) = depth_node n) /\ (forall g, depth (subst_graph a b g) = depth g).
Proof.
  apply fnode_fgraph_ind.
  - intros nm op dom at_ ins outs bodies IH. cbn [subst_node depth_node]. induction bodies as [|b0 l IHl]; auto. cbn.
    rewrite IH by (cbn; auto). f_equal. apply IHl. intros. apply IH. cbn. auto.
  - intros ns gi go IH. cbn [subst_graph depth]. f_equal. induction ns as [|b0 l IHl]; auto. cbn.
    rewrite IH by (cbn; auto). f_equal. apply IHl. intros. apply IH. cbn. auto.
Qed.
Lemma depth_nodes g k : depth g <= S k <-> forall n, In n (f_nodes g) -> depth_node n <= k.
Proof. destruct g as [ns gi go]. cbn [depth f_nodes]. rewrite <- fold_max_le. lia. Qed.
Lemma depth_bodies n k : depth_node n <= k <-> forall b, In b (f_bodies n) -> depth b <= k.
Proof. destruct n as [n1 n2 n3 n4 n5 n6 n7]. cbn [depth_node f_bodies]. apply fold_max_le. Qed.

Definition W (rk : string -> nat) (g : fgraph) : Prop := (forall h, within g h -> good rk h) /\ identity_shape g.

(** an Identity that has to stay *)
Definition stuck (g : fgraph) (n : fnode) : Prop :=
  exists x y, f_in n = [x] /\ f_out n = [y] /\ In y (f_outs g) /\
    (~ In x (defs g) \/ In x (f_ins g) \/ In x (f_outs g)).

Lemma shape_step a b (hh : fnode -> fnode) g ns' gi go : identity_shape g -> a <> "" -> b <> "" ->
  (forall m, f_op (hh m) = f_op m /\ f_in (hh m) = f_in m /\ f_bodies (hh m) = f_bodies m /\
     (f_out (hh m) = f_out m \/ f_out (hh m) = map (sub a b) (f_out m))) ->
  (forall m, In m ns' -> In m (f_nodes g)) ->
  identity_shape (FGraph (map (fun m => subst_node a b (hh m)) ns') gi go).
Proof.
  intros S Na Nb Hh Hin h n Hw Hn Hop.
  assert (Sn : forall t, t <> "" -> sub a b t <> "") by (intros t Nt; unfold sub; destruct (String.eqb_spec t a); auto).
  inversion Hw as [|m' bd h0 Hm' Hbd Hw']; subst.
  - cbn [f_nodes] in Hn. apply in_map_iff in Hn. destruct Hn as (m & <- & Hm).
    destruct (Hh m) as (E1 & E2 & E3 & E4).
    assert (Em : f_op m = "Identity") by (rewrite <- E1; destruct (hh m); exact Hop).
    destruct (S g m (within_refl _) (Hin m Hm) Em) as (x & y & Ex & Ey & Nx & Ny & Eb).
    rewrite f_in_subst, f_out_subst, f_bodies_subst, E2, E3, Ex, Eb. cbn [map].
    destruct E4 as [E4|E4]; rewrite E4, Ey; cbn [map]; do 2 eexists; repeat split; auto.
  - cbn [f_nodes] in Hm'. apply in_map_iff in Hm'. destruct Hm' as (m & <- & Hm). rewrite f_bodies_subst in Hbd.
    destruct (Hh m) as (_ & _ & E3 & _). rewrite E3 in Hbd.
    apply in_map_iff in Hbd. destruct Hbd as (b0 & <- & Hb0). apply within_subst in Hw'. destruct Hw' as (k & Hk & ->).
    destruct k as [kns kgi kgo]. cbn [subst_graph f_nodes] in Hn. apply in_map_iff in Hn. destruct Hn as (p & <- & Hp).
    assert (Ep : f_op p = "Identity") by (destruct p; exact Hop).
    assert (Wk : within g (FGraph kns kgi kgo)) by (eapply within_body; eauto).
    destruct (S _ p Wk Hp Ep) as (x & y & Ex & Ey & Nx & Ny & Eb).
    rewrite f_in_subst, f_out_subst, f_bodies_subst, Ex, Ey, Eb. cbn [map]. do 2 eexists. repeat split; auto.
Qed.

Lemma ident_count (f : fnode -> fnode) l : (forall m, f_op (f m) = f_op m) ->
  length (filter is_identity (map f l)) = length (filter is_identity l).
Proof.
  intro Hf. induction l as [|m l IH]; auto. cbn.
  assert (E : is_identity (f m) = is_identity m) by (unfold is_identity; now rewrite Hf).
  rewrite E. destruct (is_identity m); cbn; auto.
Qed.
Section Handle.
Variable V : Type.
Variable op_rel : string -> string -> list (string * attr) -> nat -> list V ->
                  list (list V -> list V -> Prop) -> list V -> Prop.
Hypothesis ext : op_ext op_rel.
Hypothesis idm : identity_meaning op_rel.
Notation equiv := (equiv op_rel).

Definition progress (g g' : fgraph) (n : fnode) : Prop :=
  map f_name (f_nodes g') = map f_name (without (f_name n) (f_nodes g)) /\
  (forall m', In m' (f_nodes g') -> exists m, In m (f_nodes g) /\ m <> n /\ f_name m' = f_name m /\ f_op m' = f_op m) /\
  length (identities g') < length (identities g) /\
  (forall m, In m (f_nodes g) -> m <> n -> f_op m = "Identity" -> stuck g m -> In m (f_nodes g') /\ stuck g' m).

(** nothing new is defined or captured, ranks outside are kept *)
Definition narrow (rk : string -> nat) (g : fgraph) (rk' : string -> nat) (g' : fgraph) : Prop :=
  (forall t, In t (alldefs g') -> In t (alldefs g)) /\ (forall t, In t (fv_graph g') -> In t (fv_graph g)) /\
  (forall t, ~ In t (alldefs g) -> rk' t = rk t).
Lemma narrow_refl rk g : narrow rk g rk g. Proof. repeat split; auto. Qed.
Lemma narrow_trans rk1 g1 rk2 g2 rk3 g3 : narrow rk1 g1 rk2 g2 -> narrow rk2 g2 rk3 g3 -> narrow rk1 g1 rk3 g3.
Proof.
  intros (A1 & A2 & A3) (B1 & B2 & B3). repeat split; auto. intros t Ht. rewrite B3; auto.
Qed.

Lemma handle_spec rk g n : W rk g -> In n (f_nodes g) -> f_op n = "Identity" ->
  exists g' ret rk', handle g n = Some (g', ret) /\ W rk' g' /\ equiv g g' /\
    f_ins g' = f_ins g /\ f_outs g' = f_outs g /\ depth g' <= depth g /\ narrow rk g rk' g' /\
    (if ret then progress g g' n else g' = g /\ stuck g n).
Proof.
  intros [Wg Sg] Hn Hop. assert (G := Wg g (within_refl _)).
  destruct (Sg g n (within_refl _) Hn Hop) as (x & y & Ex & Ey & Nx & Ny & Eb).
  assert (Hid : idnode n x y) by (repeat split; auto).
  assert (Fx : In x (fv_node n)) by (rewrite fv_node_eq, Ex; cbn; auto).
  assert (Rxy : rk x < rk y) by (apply (g_acyclic _ _ G n); auto; rewrite Ey; cbn; auto).
  assert (Nxy : x <> y) by (intros ->; lia).
  unfold handle. rewrite Ex, Ey. cbn [existsb]. rewrite orb_false_r.
  destruct (in_split _ _ Hn) as (l1 & l2 & El). destruct g as [ns gi go]. cbn [f_nodes f_ins f_outs] in *. subst ns.
  assert (Hwo : without (f_name n) (l1 ++ n :: l2) = l1 ++ l2) by (apply without_split; auto; apply (g_names _ _ G)).
  assert (Rest : forall m, In m (l1 ++ l2) -> In m (l1 ++ n :: l2)).
  { intros m Hm. rewrite in_app_iff in *. cbn. tauto. }
  assert (Rest' : forall m, In m (l1 ++ n :: l2) -> m <> n -> In m (l1 ++ l2)).
  { intros m Hm Ne. rewrite in_app_iff in *. cbn in Hm. destruct Hm as [?|[?|?]]; auto. congruence. }
  assert (Nn : forall m, In m (l1 ++ l2) -> m <> n).
  { intros m Hm ->. assert (Ng := g_names _ _ G). cbn [f_nodes] in Ng. rewrite map_app in Ng. cbn in Ng.
    apply NoDup_remove_2 in Ng. apply Ng. rewrite <- map_app. now apply in_map. }
  assert (Cnt : forall f : fnode -> fnode, (forall m, f_op (f m) = f_op m) ->
     length (filter is_identity (map f (l1 ++ l2))) < length (filter is_identity (l1 ++ n :: l2))).
  { intros f Hf. assert (E : length (filter is_identity (map f (l1 ++ l2))) = length (filter is_identity (l1 ++ l2))).
    { apply ident_count. exact Hf. }
    rewrite E, !filter_app, !app_length. cbn [filter]. assert (Ii : is_identity n = true) by (unfold is_identity; rewrite Hop; reflexivity).
    rewrite Ii. cbn [length]. lia. }
  assert (Dn : forall f : fnode -> fnode, (forall m, depth_node (f m) = depth_node m) ->
     depth (FGraph (map f (l1 ++ l2)) gi go) <= depth (FGraph (l1 ++ n :: l2) gi go)).
  { intros f Hf. destruct (depth (FGraph (l1 ++ n :: l2) gi go)) as [|k] eqn:Ed; [discriminate|].
    assert (Ed' : depth (FGraph (l1 ++ n :: l2) gi go) <= S k) by lia. rewrite depth_nodes in Ed' |- *. cbn [f_nodes] in *.
    intros m Hm. apply in_map_iff in Hm. destruct Hm as (m0 & <- & Hm0). rewrite Hf. auto. }
  assert (Bx := used_defs_or_free (FGraph (l1 ++ n :: l2) gi go) n x Hn Fx).
  assert (Dy : In y (defs (FGraph (l1 ++ n :: l2) gi go))) by (apply defs_split; right; rewrite Ey; cbn; auto).
  assert (Nest : forall m, In m (l1 ++ l2) -> forall bd, In bd (f_bodies m) -> ~ In x (alldefs bd) /\ ~ In y (alldefs bd)).
  { intros m Hm bd Hbd. split; [exact (good_not_nested rk (FGraph (l1 ++ n :: l2) gi go) m bd x G (Rest m Hm) Hbd Bx)|
                                exact (good_not_nested rk (FGraph (l1 ++ n :: l2) gi go) m bd y G (Rest m Hm) Hbd (or_introl Dy))]. }
  assert (Hstuck : forall a b (hh : fnode -> fnode), a <> "" ->
     (forall m, f_name (hh m) = f_name m) ->
     (forall m, In m (l1 ++ l2) -> ~ In a (f_out m) -> hh m = m) -> In a (defs (FGraph (l1 ++ n :: l2) gi go)) -> ~ In a gi -> ~ In a go ->
     (forall t, In t (defs (FGraph (map (fun m => subst_node a b (hh m)) (l1 ++ l2)) gi go)) -> In t (defs (FGraph (l1 ++ n :: l2) gi go))) ->
     forall m, In m (l1 ++ n :: l2) -> m <> n -> f_op m = "Identity" -> stuck (FGraph (l1 ++ n :: l2) gi go) m ->
       In m (map (fun m => subst_node a b (hh m)) (l1 ++ l2)) /\
       stuck (FGraph (map (fun m => subst_node a b (hh m)) (l1 ++ l2)) gi go) m).
  { intros a b hh Na Hname Hh Da Hai Hao Hd m Hm Nmn Hmop (xm & ym & Exm & Eym & Hym & Hxm). cbn [f_outs f_ins] in *.
    assert (Nxa : xm <> a) by (intros ->; tauto).
    destruct (Sg (FGraph (l1 ++ n :: l2) gi go) m (within_refl _) Hm Hmop) as (x' & y' & _ & _ & _ & _ & Ebm).
    assert (Em : subst_node a b (hh m) = m).
    { rewrite Hh; auto.
      - destruct m as [n1 n2 n3 n4 n5 n6 n7]. cbn [f_in f_bodies subst_node] in *. subst n5 n7. cbn. unfold sub.
        destruct (String.eqb_spec xm a); [congruence|auto].
      - rewrite Eym. intros [K|[]]. subst. auto. }
    split.
    - apply in_map_iff. exists m. split; auto.
    - exists xm, ym. cbn [f_outs f_ins]. repeat split; auto. destruct Hxm as [Hxm|Hxm]; auto. }
  assert (Hrk : forall t, ~ In t (alldefs (FGraph (l1 ++ n :: l2) gi go)) -> (if String.eqb t y then rk x else rk t) = rk t).
  { intros t Ht. destruct (String.eqb_spec t y) as [E|]; auto. exfalso. apply Ht. rewrite E. apply defs_alldefs. exact Dy. }
  destruct (mem y go) eqn:Eo.
  - apply mem_in in Eo. unfold handle_output. cbn [f_nodes f_ins f_outs]. rewrite Hwo.
    destruct (mem x (concat (map f_out (l1 ++ n :: l2)) ++ gi)) eqn:M1; cbn [negb].
    + apply mem_in in M1.
      assert (Dx : In x (defs (FGraph (l1 ++ n :: l2) gi go))).
      { apply in_defs. split; auto. rewrite in_app_iff, in_concat_map in M1. cbn [f_ins f_nodes]. tauto. }
      destruct (mem x gi) eqn:M2.
      { apply mem_in in M2. eexists _, false, rk. split; [reflexivity|]. split; [split; auto|].
        split; [apply equiv_refl|]. repeat (split; [auto using narrow_refl|]). exists x, y. repeat (split; [auto|]). auto. }
      destruct (mem x go) eqn:M3.
      { apply mem_in in M3. eexists _, false, rk. split; [reflexivity|]. split; [split; auto|].
        split; [apply equiv_refl|]. repeat (split; [auto using narrow_refl|]). exists x, y. repeat (split; [auto|]). auto. }
      apply mem_false in M2, M3.
      destruct (elim_output V op_rel ext idm rk n x y l1 l2 gi go Wg Hid Dx M2 M3) as (Eq & Hall & Wg' & Hfv).
      unfold replace_all. destruct (String.eqb_spec x y) as [|_]; [congruence|].
      assert (Circ : existsb (circ_node x y) (map (ren_out x y) (l1 ++ l2)) = false).
      { destruct (existsb _ _) eqn:E; auto. apply existsb_exists in E. destruct E as (m & Hm & E).
        apply in_map_iff in Hm. destruct Hm as (m0 & <- & Hm0).
        rewrite (proj1 (circ_false x y Ny)) in E; [discriminate| |].
        - intros [K1 K2]. destruct m0 as [n1 n2 n3 n4 n5 n6 n7]. cbn [ren_out f_in f_out] in *.
          apply in_map_iff in K2. destruct K2 as (u & Eu & Hu). unfold sub in Eu. destruct (String.eqb_spec u x) as [Eux|].
          + rewrite Eux in Hu. assert (rk x < rk x); [|lia]. apply (g_acyclic _ _ G (FNode n1 n2 n3 n4 n5 n6 n7)); [apply Rest; exact Hm0| |exact Hu|exact Nx].
            rewrite fv_node_eq. apply in_app_iff. left. exact K1.
          + subst u. destruct (alldefs_split _ _ _ _ _ (g_ssa _ _ G)) as (_ & _ & Sd).
            apply (Sd y); [apply alldefs_in_node; rewrite Ey; cbn; auto|]. apply alldefs_in. right.
            eexists. split; [exact Hm0|]. apply alldefs_in_node. auto.
        - intros bd Hbd. apply (Nest m0 Hm0 bd). destruct m0; exact Hbd. }
      rewrite Circ. rewrite map_map. eexists _, true, _. split; [reflexivity|]. split; [split; [exact Wg'|]|].
      { eapply shape_step; eauto. intros []. cbn. repeat split; auto. }
      split; [exact Eq|]. split; [reflexivity|]. split; [reflexivity|]. split.
      { apply (Dn (fun m => subst_node x y (ren_out x y m))). intro m. rewrite (proj1 (depth_subst x y)). destruct m. reflexivity. }
      split; [split; [exact Hall|split; [exact Hfv|exact Hrk]]|].
      split; [|split; [|split]].
      * cbn [f_nodes]. rewrite Hwo, map_map. apply map_ext. intros []. reflexivity.
      * cbn [f_nodes]. intros m' Hm'. apply in_map_iff in Hm'. destruct Hm' as (m & <- & Hm). exists m.
        split; [auto|]. split; [auto|]. destruct m; auto.
      * unfold identities. cbn [f_nodes]. apply Cnt. intros []. reflexivity.
      * cbn [f_nodes]. apply Hstuck; auto.
        -- intros []. reflexivity.
        -- intros m Hm Hx. destruct m as [n1 n2 n3 n4 n5 n6 n7]. cbn [ren_out f_out] in *. now rewrite map_sub_id.
        -- intros t Ht. apply in_defs in Ht. apply in_defs. destruct Ht as [Nt Ht]. split; auto. cbn [f_ins f_nodes] in *.
           destruct Ht as [Ht|(m & Hm & Ht)]; auto. right. apply in_map_iff in Hm. destruct Hm as (m0 & <- & Hm0).
           rewrite f_out_subst in Ht. destruct m0 as [n1 n2 n3 n4 n5 n6 n7]. cbn [ren_out f_out] in Ht. apply in_map_iff in Ht.
           destruct Ht as (u & Eu & Hu). unfold sub in Eu. destruct (String.eqb_spec u x).
           ++ subst t. exists n. split; auto. rewrite Ey. cbn. auto.
           ++ subst t. eexists. split; [apply Rest; exact Hm0|]. exact Hu.
    + apply mem_false in M1. eexists _, false, rk. split; [reflexivity|]. split; [split; auto|].
      split; [apply equiv_refl|]. repeat (split; [auto using narrow_refl|]). exists x, y. repeat split; auto. left.
      rewrite in_defs. cbn [f_ins f_nodes]. intros [_ K]. apply M1. rewrite in_app_iff, in_concat_map. tauto.
  - apply mem_false in Eo. unfold handle_non_output, replace_all. cbn [f_nodes f_ins f_outs].
    destruct (String.eqb_spec y x) as [|_]; [congruence|].
    destruct (elim_non_output V op_rel ext idm rk n x y l1 l2 gi go Wg Hid Eo) as (Eq & Hall & Wg' & Hfv).
    destruct (alldefs_split _ _ _ _ _ (g_ssa _ _ G)) as (_ & _ & Sd).
    assert (Yr : ~ In y (alldefs (FGraph (l1 ++ l2) gi go))) by (apply Sd; apply alldefs_in_node; rewrite Ey; cbn; auto).
    assert (Circ : existsb (circ_node y x) (l1 ++ n :: l2) = false).
    { destruct (existsb _ _) eqn:E; auto. apply existsb_exists in E. destruct E as (m & Hm & E).
      rewrite (proj1 (circ_false y x Nx)) in E; [discriminate| |].
      - intros [K1 K2]. assert (rk y < rk x); [|lia]. apply (g_acyclic _ _ G m); auto. rewrite fv_node_eq. apply in_app_iff. auto.
      - intros bd Hbd. exact (good_not_nested rk (FGraph (l1 ++ n :: l2) gi go) m bd x G Hm Hbd Bx). }
    rewrite Circ.
    assert (Ew : without (f_name n) (map (subst_node y x) (l1 ++ n :: l2)) = map (subst_node y x) (l1 ++ l2)).
    { rewrite map_app. cbn [map]. rewrite map_app. apply without_split; [|destruct n; reflexivity].
      assert (Ng := g_names _ _ G). cbn [f_nodes] in Ng. rewrite <- (names_subst y x), map_app in Ng. exact Ng. }
    rewrite Ew. eexists _, true, _. split; [reflexivity|]. split; [split; [exact Wg'|]|].
    { apply (shape_step y x (fun m => m) (FGraph (l1 ++ n :: l2) gi go)); auto. }
    split; [exact Eq|]. split; [reflexivity|]. split; [reflexivity|]. split.
    { apply (Dn (subst_node y x)). apply depth_subst. }
    split; [split; [exact Hall|split; [exact Hfv|exact Hrk]]|].
    split; [|split; [|split]].
    + cbn [f_nodes]. rewrite Hwo. apply names_subst.
    + cbn [f_nodes]. intros m' Hm'. apply in_map_iff in Hm'. destruct Hm' as (m & <- & Hm). exists m.
      split; [auto|]. split; [auto|]. destruct m; auto.
    + unfold identities. cbn [f_nodes]. apply Cnt. intros []. reflexivity.
    + cbn [f_nodes]. apply (Hstuck y x (fun m => m)); auto.
      * intro K. apply Yr. apply alldefs_in. auto.
      * intros t Ht. change (In t (defs (subst_graph y x (FGraph (l1 ++ l2) gi go)))) in Ht. rewrite defs_subst in Ht.
        apply defs_split. auto.
Qed.

Lemma get_node_in g nm n : get_node g nm = Some n -> In n (f_nodes g) /\ f_name n = nm.
Proof. intro H. apply find_some in H. destruct H as [A B]. apply String.eqb_eq in B. auto. Qed.
Lemma get_node_none g nm n : get_node g nm = None -> In n (f_nodes g) -> f_name n <> nm.
Proof. intros H Hn E. assert (K := find_none _ _ H n Hn). cbn in K. rewrite E, String.eqb_refl in K. discriminate. Qed.
Lemma name_inj rk g n m : W rk g -> In n (f_nodes g) -> In m (f_nodes g) -> f_name n = f_name m -> n = m.
Proof.
  intros [Wg _] Hn Hm E. assert (N := g_names _ _ (Wg g (within_refl _))).
  induction (f_nodes g) as [|a l IH]; [destruct Hn|]. cbn in N. inversion N as [|? ? Na Nl]; subst.
  destruct Hn as [->|Hn], Hm as [->|Hm]; auto.
  - exfalso. apply Na. rewrite E. now apply in_map.
  - exfalso. apply Na. rewrite <- E. now apply in_map.
Qed.
Lemma without_in nm ns m : In m (without nm ns) <-> In m ns /\ f_name m <> nm.
Proof.
  unfold without. rewrite filter_In, negb_true_iff. destruct (String.eqb_spec (f_name m) nm); intuition congruence.
Qed.

Lemma pass_spec names : forall rk g b, W rk g ->
  (forall m, In m (f_nodes g) -> f_op m = "Identity" -> In (f_name m) names \/ stuck g m) ->
  (forall m, In m (f_nodes g) -> In (f_name m) names -> f_op m = "Identity") ->
  exists g' u rk', pass g names b = Some (g', u) /\ W rk' g' /\ equiv g g' /\
    f_ins g' = f_ins g /\ f_outs g' = f_outs g /\ depth g' <= depth g /\ narrow rk g rk' g' /\
    (forall m, In m (f_nodes g') -> f_op m = "Identity" -> stuck g' m).
Proof.
  induction names as [|nm names IH]; intros rk g b Wg H1 H2; cbn [pass].
  - exists g, b, rk. split; auto. split; auto. split; [apply equiv_refl|]. repeat (split; [auto using narrow_refl|]).
    intros m Hm Hop. destruct (H1 m Hm Hop) as [[]|K]; auto.
  - destruct (get_node g nm) as [n|] eqn:En.
    + apply get_node_in in En. destruct En as [Hn En].
      assert (Hop : f_op n = "Identity") by (apply H2; auto; rewrite En; cbn; auto).
      destruct (handle_spec rk g n Wg Hn Hop) as (g1 & ret & rk1 & Eh & W1 & Eq1 & Ei1 & Eo1 & Dp1 & Nr1 & Hret).
      rewrite Eh. assert (K : (forall m, In m (f_nodes g1) -> f_op m = "Identity" -> In (f_name m) names \/ stuck g1 m) /\
                              (forall m, In m (f_nodes g1) -> In (f_name m) names -> f_op m = "Identity")).
      { destruct ret.
        - destruct Hret as (P1 & P2 & P3 & P4). split.
          + intros m' Hm' Hop'. destruct (P2 m' Hm') as (m & Hm & Ne & E1 & E2).
            rewrite E1. rewrite E2 in Hop'. destruct (H1 m Hm Hop') as [[K|K]|K]; auto.
            * exfalso. apply Ne. apply (name_inj rk g); auto. congruence.
            * right. destruct (P4 m Hm Ne Hop' K) as [Q1 Q2].
              assert (m' = m); [|subst; auto]. apply (name_inj rk1 g1); auto.
          + intros m' Hm' Hin. destruct (P2 m' Hm') as (m & Hm & Ne & E1 & E2). rewrite E2. apply H2; auto. rewrite <- E1. cbn; auto.
        - destruct Hret as [-> St]. split.
          + intros m Hm Hm2. destruct (H1 m Hm Hm2) as [[K|K]|K]; auto. right.
            assert (m = n); [|subst; auto]. apply (name_inj rk g); auto. congruence.
          + intros m Hm Hin. apply H2; auto. cbn; auto. }
      destruct K as [K1 K2]. destruct (IH rk1 g1 ret W1 K1 K2) as (g' & u & rk' & Ep & W' & Eq' & Ei' & Eo' & Dp' & Nr' & St').
      exists g', u, rk'. split; auto. split; auto. split; [eapply equiv_trans; eauto|]. split; [congruence|]. split; [congruence|].
      split; [lia|]. split; [eapply narrow_trans; eauto|auto].
    + apply IH; auto.
      * intros m Hm Hop. destruct (H1 m Hm Hop) as [[K|K]|K]; auto. exfalso. apply (get_node_none g nm m En Hm). auto.
      * intros m Hm Hin. apply H2; auto. cbn; auto.
Qed.

Lemma handle_stuck rk g n : W rk g -> In n (f_nodes g) -> f_op n = "Identity" -> stuck g n -> handle g n = Some (g, false).
Proof.
  intros Wg Hn Hop (x & y & Ex & Ey & Hy & Hx). destruct Wg as [_ Sg].
  destruct (Sg g n (within_refl _) Hn Hop) as (x' & y' & Ex' & Ey' & Nx & Ny & _).
  assert (x' = x) by congruence. subst x'. unfold handle. rewrite Ex, Ey. cbn [existsb].
  rewrite (proj2 (mem_in y (f_outs g)) Hy). cbn [orb]. unfold handle_output.
  destruct (mem x (concat (map f_out (f_nodes g)) ++ f_ins g)) eqn:M1; cbn [negb]; auto.
  destruct (mem x (f_ins g)) eqn:M2; auto. destruct (mem x (f_outs g)) eqn:M3; auto.
  exfalso. apply mem_false in M2, M3. destruct Hx as [Hx|[Hx|Hx]]; auto. apply Hx. apply in_defs. split; auto.
  apply mem_in in M1. rewrite in_app_iff, in_concat_map in M1. tauto.
Qed.
Lemma pass_stuck names : forall rk g, W rk g -> (forall m, In m (f_nodes g) -> f_op m = "Identity" -> stuck g m) ->
  (forall m, In m (f_nodes g) -> In (f_name m) names -> f_op m = "Identity") -> pass g names false = Some (g, false).
Proof.
  induction names as [|nm names IH]; intros rk g Wg H1 H2; auto. cbn [pass].
  assert (K : pass g names false = Some (g, false)) by (apply (IH rk); auto; intros m Hm Hin; apply H2; cbn; auto).
  destruct (get_node g nm) as [n|] eqn:En; auto. apply get_node_in in En. destruct En as [Hn En].
  assert (Hop : f_op n = "Identity") by (apply H2; auto; rewrite En; cbn; auto).
  rewrite (handle_stuck rk g n); auto.
Qed.
Lemma identities_names rk g : W rk g -> forall m, In m (f_nodes g) -> (In (f_name m) (map f_name (identities g)) <-> f_op m = "Identity").
Proof.
  intros Wg m Hm. rewrite in_map_iff. unfold identities. split.
  - intros (n & E & Hn). apply filter_In in Hn. destruct Hn as [Hn Hi]. unfold is_identity in Hi. apply String.eqb_eq in Hi.
    assert (n = m); [|subst; auto]. apply (name_inj rk g); auto.
  - intro E. exists m. split; auto. apply filter_In. split; auto. unfold is_identity. now rewrite E.
Qed.

Lemma level_spec rk g : W rk g ->
  exists g' rk', optimize_level g = Some g' /\ W rk' g' /\ equiv g g' /\
    f_ins g' = f_ins g /\ f_outs g' = f_outs g /\ depth g' <= depth g /\ narrow rk g rk' g' /\
    (forall m, In m (f_nodes g') -> f_op m = "Identity" -> stuck g' m).
Proof.
  intro Wg. assert (Hid := identities_names rk g Wg).
  destruct (pass_spec (map f_name (identities g)) rk g false Wg) as (g' & u & rk' & Ep & W' & Eq & Ei & Eo & Dp & Nr & St).
  - intros m Hm Hop. left. now apply Hid.
  - intros m Hm Hin. now apply Hid.
  - exists g', rk'. split; [|auto 10]. unfold optimize_level. cbn [rounds]. rewrite Ep. destruct u; auto.
    destruct (length (identities g)) as [|k] eqn:El.
    + apply length_zero_iff_nil in El. rewrite El in Ep. cbn in Ep. congruence.
    + cbn [rounds]. rewrite (pass_stuck _ rk'); auto. intros m Hm Hin. now apply (identities_names rk' g' W').
Qed.
Lemma level_fix rk g : W rk g -> (forall m, In m (f_nodes g) -> f_op m = "Identity" -> stuck g m) -> optimize_level g = Some g.
Proof.
  intros Wg St. unfold optimize_level. cbn [rounds]. rewrite (pass_stuck _ rk); auto.
  intros m Hm Hin. now apply (identities_names rk g Wg).
Qed.
End Handle.
