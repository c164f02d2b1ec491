(** A Transpose and the node behind it change places: validity and meaning of the graph. *)
From Coq Require Import String List Arith ZArith Bool Lia.
From Verif Require Import FGraph FGraphSpec FGraphProofs IdentityModel IdentityProofs ApplyOptProofs RewriteProofs SwitchModel.
Import ListNotations.
Local Open Scope string_scope.
Local Open Scope list_scope.

Lemma rerank_mono rk RK b : WW rk b ->
  (forall t o, In o (alldefs b) -> In t (alldefs b) \/ In t (fv_graph b) -> rk t < rk o -> RK t < RK o) -> WW RK b.
Proof.
  intros A E h Hw. assert (G := A h Hw). destruct G as [G1 G2 G3 G4 G5 G6]. constructor; auto.
  intros n t o Hn Ht Ho No. apply E; [| |apply (G5 n); auto].
  - eapply within_alldefs; eauto. apply alldefs_in. right. exists n. split; auto. apply alldefs_in_node. auto.
  - eapply within_fv; eauto.
Qed.
Lemma rerank_top rk RK g : WW rk g ->
  (forall n t o, In n (f_nodes g) -> In t (fv_node n) -> In o (f_out n) -> o <> "" -> RK t < RK o) ->
  (forall n b t o, In n (f_nodes g) -> In b (f_bodies n) -> In o (alldefs b) -> In t (alldefs b) \/ In t (fv_graph b) -> rk t < rk o -> RK t < RK o) ->
  WW RK g.
Proof.
  intros A H1 H2. apply WW_top.
  - assert (G := A g (within_refl g)). destruct G as [G1 G2 G3 G4 G5 G6]. constructor; auto.
  - intros n b Hn Hb. apply (rerank_mono rk); [exact (WW_body rk g n b A Hn Hb)|]. intros t o. apply (H2 n b t o); auto.
Qed.

(** nd and tr are replaced by nd' and tr', everything else reads t where it read y *)
Definition exchange_node (nd tr nd' tr' : fnode) (y t : string) (n : fnode) : fnode :=
  if String.eqb (f_name n) (f_name nd) then nd' else if String.eqb (f_name n) (f_name tr) then tr' else subst_node y t n.
Definition exchange (nd tr nd' tr' : fnode) (y t : string) (g : fgraph) : fgraph :=
  FGraph (map (exchange_node nd tr nd' tr' y t) (f_nodes g)) (f_ins g) (f_outs g).

Record exchangeable (rk : string -> nat) (g : fgraph) (nd tr nd' tr' : fnode) (y t : string) : Prop := {
  x_valid : WW rk g;
  x_nd : In nd (f_nodes g); x_tr : In tr (f_nodes g);
  x_out : f_out nd = [y]; x_tout : f_out tr = [t]; x_y : y <> ""; x_t : t <> "";
  x_reads : In t (f_in nd);
  x_only : forall m, In m (f_nodes g) -> In t (fv_node m) -> m = nd;
  x_go : ~ In y (f_outs g) /\ ~ In t (f_outs g);
  x_bodies : f_bodies nd = [] /\ f_bodies tr = [] /\ f_bodies nd' = [] /\ f_bodies tr' = [];
  x_names : f_name nd' = f_name nd /\ f_name tr' = f_name tr;
  x_outs : f_out nd' = [y] /\ f_out tr' = [t];
  x_trin : f_in tr' = [y];
  x_in : forall i, In i (f_in nd') -> i <> t /\ rk i < rk y /\ (In i (defs g) \/ In i (fv_graph g)) }.

Section Exchange.
Variables (rk : string -> nat) (g : fgraph) (nd tr nd' tr' : fnode) (y t : string).
Hypothesis X : exchangeable rk g nd tr nd' tr' y t.
Let G : good rk g := x_valid _ _ _ _ _ _ _ _ X g (within_refl g).

Lemma x_rank : rk t < rk y.
Proof.
  apply (g_acyclic _ _ G nd t y); [apply (x_nd _ _ _ _ _ _ _ _ X)| |rewrite (x_out _ _ _ _ _ _ _ _ X); now left|apply (x_y _ _ _ _ _ _ _ _ X)].
  rewrite fv_node_eq. apply in_app_iff. left. apply (x_reads _ _ _ _ _ _ _ _ X).
Qed.
Lemma x_neq : y <> t. Proof. intro E. generalize x_rank. rewrite E. lia. Qed.
Lemma x_diff : f_name nd <> f_name tr.
Proof.
  intro E. apply x_neq. assert (N := g_names _ _ G).
  assert (K : nd = tr).
  { clear - N E X. assert (A := x_nd _ _ _ _ _ _ _ _ X). assert (B := x_tr _ _ _ _ _ _ _ _ X). revert N A B. induction (f_nodes g) as [|m l IH]; cbn [map In]; intros N A B; [tauto|].
    inversion N as [|? ? Hn N']; subst. destruct A as [A|A], B as [B|B]; subst; auto.
    - exfalso. apply Hn. rewrite E. apply in_map. exact B.
    - exfalso. apply Hn. rewrite <- E. apply in_map. exact A. }
  assert (A := x_out _ _ _ _ _ _ _ _ X). assert (B := x_tout _ _ _ _ _ _ _ _ X). congruence.
Qed.
Lemma x_defs : In y (defs g) /\ In t (defs g).
Proof.
  split; apply in_defs; (split; [apply (x_y _ _ _ _ _ _ _ _ X) || apply (x_t _ _ _ _ _ _ _ _ X)|right]).
  - exists nd. split; [apply (x_nd _ _ _ _ _ _ _ _ X)|]. rewrite (x_out _ _ _ _ _ _ _ _ X). now left.
  - exists tr. split; [apply (x_tr _ _ _ _ _ _ _ _ X)|]. rewrite (x_tout _ _ _ _ _ _ _ _ X). now left.
Qed.
(** nested bodies neither define nor read the two names *)
Lemma x_nested n b : In n (f_nodes g) -> In b (f_bodies n) -> ~ In y (alldefs b) /\ ~ In t (alldefs b) /\ ~ In t (fv_graph b).
Proof.
  intros Hn Hb. destruct x_defs as [Dy Dt]. split; [|split].
  - apply (good_not_nested rk g n b y G Hn Hb). now left.
  - apply (good_not_nested rk g n b t G Hn Hb). now left.
  - intro K. assert (E : n = nd). { apply (x_only _ _ _ _ _ _ _ _ X); auto. rewrite fv_node_eq. apply in_app_iff. right. apply in_concat_map. eauto. }
    subst n. rewrite (proj1 (x_bodies _ _ _ _ _ _ _ _ X)) in Hb. inversion Hb.
Qed.
Lemma same_name n m : In n (f_nodes g) -> In m (f_nodes g) -> f_name n = f_name m -> n = m.
Proof.
  assert (N := g_names _ _ G). revert N. induction (f_nodes g) as [|z l IH]; cbn [map In]; intros N A B E; [tauto|].
  inversion N as [|? ? Hn N']; subst. destruct A as [A|A], B as [B|B]; subst; auto.
  - exfalso. apply Hn. rewrite E. apply in_map. exact B.
  - exfalso. apply Hn. rewrite <- E. apply in_map. exact A.
Qed.
(** outputs of other nodes differ from the two names *)
Lemma other_out n o : In n (f_nodes g) -> n <> nd -> n <> tr -> In o (f_out n) -> o <> "" -> o <> y /\ o <> t.
Proof.
  intros Hn N1 N2 Ho No.
  assert (U : forall m, In m (f_nodes g) -> m <> n -> ~ In o (f_out m)).
  { intros m Hm Nm K. apply in_split in Hn. destruct Hn as (l1 & l2 & E). assert (S : NoDup (alldefs (FGraph (l1 ++ n :: l2) (f_ins g) (f_outs g)))).
    { assert (S := g_ssa _ _ G). rewrite <- E. destruct g as [ns gi go]. exact S. }
    destruct (alldefs_split l1 n l2 (f_ins g) (f_outs g) S) as (_ & _ & D).
    apply (D o). { apply alldefs_in_node. left. auto. }
    apply alldefs_in. right. exists m. split; [|apply alldefs_in_node; left; auto].
    rewrite E in Hm. apply in_app_iff in Hm. cbn [f_nodes]. apply in_app_iff. cbn [In] in Hm. intuition congruence. }
  split; intro E; subst o.
  - apply (U nd); [apply (x_nd _ _ _ _ _ _ _ _ X)|congruence|]. rewrite (x_out _ _ _ _ _ _ _ _ X). now left.
  - apply (U tr); [apply (x_tr _ _ _ _ _ _ _ _ X)|congruence|]. rewrite (x_tout _ _ _ _ _ _ _ _ X). now left.
Qed.

Lemma exchange_valid : exists RK, WW RK (exchange nd tr nd' tr' y t g) /\ (forall v, In v (fv_graph (exchange nd tr nd' tr' y t g)) -> In v (fv_graph g)).
Proof.
  assert (RT := x_rank). assert (NE := x_neq). destruct x_defs as [Dy Dt].
  destruct (x_bodies _ _ _ _ _ _ _ _ X) as (B1 & B2 & B3 & B4). destruct (x_names _ _ _ _ _ _ _ _ X) as [N1 N2].
  destruct (x_outs _ _ _ _ _ _ _ _ X) as [O1 O2]. assert (Xn := x_nd _ _ _ _ _ _ _ _ X). assert (Xt := x_tr _ _ _ _ _ _ _ _ X).
  assert (Oy := x_out _ _ _ _ _ _ _ _ X). assert (Ot := x_tout _ _ _ _ _ _ _ _ X).
  assert (Ny := x_y _ _ _ _ _ _ _ _ X). assert (Nt := x_t _ _ _ _ _ _ _ _ X).
  set (RK := fun v => if String.eqb v y then 3 * rk y + 2 else if String.eqb v t then 3 * rk y + 1 else 3 * rk v).
  set (RK' := fun v => if String.eqb v y then 3 * rk y + 1 else if String.eqb v t then 3 * rk y + 2 else 3 * rk v).
  assert (Ry : RK y = 3 * rk y + 2) by (unfold RK; now rewrite String.eqb_refl).
  assert (Rt : RK t = 3 * rk y + 1). { unfold RK. rewrite String.eqb_refl. destruct (String.eqb_spec t y); congruence. }
  assert (Ro : forall v, v <> y -> v <> t -> RK v = 3 * rk v). { intros v A B. unfold RK. destruct (String.eqb_spec v y); [congruence|]. destruct (String.eqb_spec v t); congruence. }
  assert (Ry' : RK' y = 3 * rk y + 1) by (unfold RK'; now rewrite String.eqb_refl).
  assert (Rt' : RK' t = 3 * rk y + 2). { unfold RK'. rewrite String.eqb_refl. destruct (String.eqb_spec t y); congruence. }
  assert (Ro' : forall v, v <> y -> v <> t -> RK' v = 3 * rk v). { intros v A B. unfold RK'. destruct (String.eqb_spec v y); [congruence|]. destruct (String.eqb_spec v t); congruence. }
  (* the Transpose directly below the node *)
  assert (W1 : WW RK g).
  { apply (rerank_top rk); [apply (x_valid _ _ _ _ _ _ _ _ X)| |].
    - intros n v o Hn Hv Ho No. assert (R := g_acyclic _ _ G n v o Hn Hv Ho No).
      destruct (string_dec v t) as [->|Vt].
      + apply (x_only _ _ _ _ _ _ _ _ X) in Hv; auto. subst n. rewrite Oy in Ho. destruct Ho as [<-|[]]. rewrite Rt, Ry. lia.
      + destruct (string_dec v y) as [->|Vy].
        * rewrite Ry. rewrite Ro by (intro; subst o; lia). lia.
        * rewrite (Ro v) by auto. destruct (string_dec o y) as [->|Oy']; [rewrite Ry; lia|]. destruct (string_dec o t) as [->|Ot']; [rewrite Rt; lia|]. rewrite (Ro o) by auto. lia.
    - intros n b v o Hn Hb Ho Hv R. destruct (x_nested n b Hn Hb) as (K1 & K2 & K3).
      rewrite (Ro o) by congruence. destruct (string_dec v y) as [->|Vy]; [rewrite Ry; lia|]. rewrite (Ro v); [lia|auto|]. intros ->. tauto. }
  (* the node reads other tensors *)
  assert (Lo : forall i, In i (f_in nd') -> RK i < 3 * rk y /\ i <> y /\ i <> t).
  { intros i Hi. destruct (x_in _ _ _ _ _ _ _ _ X i Hi) as (A & B & _). assert (i <> y) by (intro; subst; lia). rewrite Ro by auto. repeat split; auto. lia. }
  set (rp := fun n => if String.eqb (f_name n) (f_name nd) then nd' else n).
  assert (Xn' := Xn). apply in_split in Xn'. destruct Xn' as (l1 & l2 & E1).
  assert (Eg : g = FGraph (l1 ++ nd :: l2) (f_ins g) (f_outs g)). { rewrite <- E1. destruct g; reflexivity. }
  assert (E1' : map rp (f_nodes g) = l1 ++ nd' :: l2).
  { assert (U : forall l, (forall m, In m l -> f_name m <> f_name nd) -> map rp l = l).
    { intros l H. induction l as [|m l IH]; cbn [map]; auto. f_equal; [|apply IH; intros; apply H; now right]. unfold rp. destruct (String.eqb_spec (f_name m) (f_name nd)) as [E|]; auto. destruct (H m (or_introl eq_refl) E). }
    assert (N := g_names _ _ G). rewrite E1, map_app in N. cbn [map] in N. apply NoDup_remove_2 in N. rewrite in_app_iff in N.
    rewrite E1, map_app. cbn [map]. rewrite !U.
    - unfold rp. now rewrite String.eqb_refl.
    - intros m Hm E. apply N. right. rewrite <- E. now apply in_map.
    - intros m Hm E. apply N. left. rewrite <- E. now apply in_map. }
  destruct (replace_valid RK l1 nd nd' l2 (f_ins g) (f_outs g)) as [W2 F2]; auto.
  { now rewrite <- Eg. } { congruence. }
  { intros i Hi. rewrite <- Eg. apply (x_in _ _ _ _ _ _ _ _ X i Hi). }
  { intros i o Hi Ho No. rewrite Oy in Ho. destruct Ho as [<-|[]]. apply Lo in Hi. rewrite Ry. lia. }
  rewrite <- E1' in W2, F2. rewrite <- Eg in F2.
  set (g2 := FGraph (map rp (f_nodes g)) (f_ins g) (f_outs g)) in *.
  assert (Sh : forall n, In n (f_nodes g2) -> n = nd' \/ (In n (f_nodes g) /\ n <> nd)).
  { intros n Hn. unfold g2 in Hn. cbn [f_nodes] in Hn. apply in_map_iff in Hn. destruct Hn as (m & <- & Hm). unfold rp. destruct (String.eqb_spec (f_name m) (f_name nd)) as [E|E]; auto.
    right. split; auto. intros ->. auto. }
  assert (D2 : forall v, In v (defs g) -> In v (defs g2)).
  { intros v Hv. apply in_defs. apply in_defs in Hv. destruct Hv as [Nv Hv]. split; auto. destruct Hv as [Hv|(m & Hm & Hv)]; [left; exact Hv|right].
    exists (rp m). split; [unfold g2; cbn [f_nodes]; now apply in_map|]. unfold rp. destruct (String.eqb_spec (f_name m) (f_name nd)) as [E|E]; auto.
    assert (m = nd) by (apply same_name; auto). subst m. congruence. }
  assert (Rd2 : forall n v, In n (f_nodes g2) -> In v (fv_node n) -> v <> t).
  { intros n v Hn Hv ->. destruct (Sh n Hn) as [->|[Hg Nn]].
    - rewrite fv_node_eq, B3, app_nil_r in Hv. apply Lo in Hv. tauto.
    - apply Nn. now apply (x_only _ _ _ _ _ _ _ _ X). }
  (* everything reads t where it read y *)
  destruct (subst_valid RK RK y t g2 W2 NE Ny Nt (D2 y Dy) (or_introl (D2 t Dt))) as [W3 F3].
  { intros n v o Hn Hv Ho No. assert (R := g_acyclic _ _ (W2 g2 (within_refl g2)) n v o Hn Hv Ho No). unfold sub. destruct (String.eqb_spec v y); [subst v; lia|lia]. }
  { intros v o Ho _ R. unfold sub. destruct (String.eqb_spec v y); [subst v; lia|lia]. }
  (* exchange the ranks *)
  assert (Nst : forall n b, In n (f_nodes g2) -> In b (f_bodies n) -> ~ In y (alldefs b) /\ ~ In t (alldefs b)).
  { intros n b Hn Hb. destruct (Sh n Hn) as [->|[Hg Nn]]; [rewrite B3 in Hb; inversion Hb|]. destruct (x_nested n b Hg Hb) as (K1 & K2 & K3). auto. }
  assert (W4 : WW RK' (subst_graph y t g2)).
  { apply (rerank_top RK); auto.
    - intros n v o Hn Hv Ho No. assert (R := g_acyclic _ _ (W3 _ (within_refl _)) n v o Hn Hv Ho No).
      change (f_nodes (subst_graph y t g2)) with (map (subst_node y t) (f_nodes g2)) in Hn. apply in_map_iff in Hn. destruct Hn as (m & <- & Hm). rewrite f_out_subst in Ho.
      assert (Cm : closed_node m). { apply (WW_closed RK g2); auto. }
      destruct (proj1 (fv_subst_ind y t NE Ny) m Cm v Hv) as [Vy Hv'].
      destruct (Sh m Hm) as [->|[Hg Nn]].
      + rewrite O1 in Ho. destruct Ho as [<-|[]]. destruct Hv' as [->|Hv'].
        * exfalso. destruct (proj1 (fv_subst_img y t Ny) nd' Cm) with (x := t) as (z & Hz & Ez); auto. { intros bd Hbd. rewrite B3 in Hbd. inversion Hbd. }
          assert (z <> t) by (apply (Rd2 nd' z); auto). unfold sub in Ez. destruct (String.eqb_spec z y); [|congruence]. subst z. rewrite fv_node_eq, B3, app_nil_r in Hz. apply Lo in Hz. tauto.
        * rewrite fv_node_eq, B3, app_nil_r in Hv'. apply Lo in Hv'. destruct Hv' as (A & B & C). rewrite Ro' by auto. rewrite Ro in A by auto. rewrite Ry'. lia.
      + assert (No' : o <> y). { intros ->. apply Nn. destruct (In_dec string_dec y (f_out m)); [|tauto]. destruct (string_dec (f_name m) (f_name nd)) as [E|E]; [apply same_name; auto|].
          destruct (string_dec (f_name m) (f_name tr)) as [E'|E'].
          - assert (m = tr) by (apply same_name; auto). subst m. rewrite Ot in Ho. destruct Ho as [Ho|[]]. congruence.
          - exfalso. destruct (other_out m y Hg); auto; congruence. }
        destruct (string_dec v t) as [->|Vt].
        * rewrite Rt in R. rewrite Rt'. destruct (string_dec o t) as [->|Ot']; [lia|]. rewrite Ro' by auto. rewrite Ro in R by auto. lia.
        * rewrite (Ro' v) by auto. rewrite (Ro v) in R by auto. destruct (string_dec o t) as [->|Ot']; [rewrite Rt' ; rewrite Rt in R; lia|]. rewrite (Ro' o) by auto. rewrite Ro in R by auto. lia.
    - intros n b v o Hn Hb Ho Hv R. change (f_nodes (subst_graph y t g2)) with (map (subst_node y t) (f_nodes g2)) in Hn. apply in_map_iff in Hn. destruct Hn as (m & <- & Hm).
      rewrite f_bodies_subst in Hb. apply in_map_iff in Hb. destruct Hb as (b0 & <- & Hb0). destruct (Nst m b0 Hm Hb0) as [K1 K2].
      rewrite (proj2 (alldefs_subst y t)) in Ho. assert (o <> y) by congruence. assert (o <> t) by congruence. rewrite (Ro' o) by auto. rewrite (Ro o) in R by auto.
      destruct (string_dec v y) as [->|Vy]; [rewrite Ry' ; rewrite Ry in R; lia|]. destruct (string_dec v t) as [->|Vt]; [rewrite Rt'; rewrite Rt in R; lia|]. rewrite Ro' by auto. rewrite Ro in R by auto. lia. }
  (* the Transpose reads y *)
  set (ns3 := map (subst_node y t) (map rp (f_nodes g))) in *.
  assert (DN := x_diff).
  assert (H3 : In (subst_node y t tr) ns3).
  { unfold ns3. apply in_map. replace tr with (rp tr) by (unfold rp; destruct (String.eqb_spec (f_name tr) (f_name nd)); congruence). now apply in_map. }
  apply in_split in H3. destruct H3 as (k1 & k2 & E3).
  change (subst_graph y t g2) with (FGraph ns3 (f_ins g) (f_outs g)) in W4, F3. rewrite E3 in W4, F3.
  assert (Ntr : f_name (subst_node y t tr) = f_name tr) by (destruct tr; reflexivity).
  destruct (replace_valid RK' k1 (subst_node y t tr) tr' k2 (f_ins g) (f_outs g) W4) as [W5 F5]; auto.
  { congruence. } { rewrite f_out_subst. congruence. }
  { intros v Hv. rewrite (x_trin _ _ _ _ _ _ _ _ X) in Hv. destruct Hv as [<-|[]]. left. rewrite <- E3. change (In y (defs (subst_graph y t g2))). rewrite defs_subst. auto. }
  { intros v o Hv Ho No. rewrite (x_trin _ _ _ _ _ _ _ _ X) in Hv. destruct Hv as [<-|[]]. rewrite f_out_subst, Ot in Ho. destruct Ho as [<-|[]]. rewrite Ry', Rt'. lia. }
  assert (E4 : k1 ++ tr' :: k2 = map (exchange_node nd tr nd' tr' y t) (f_nodes g)).
  { set (rp3 := fun n => if String.eqb (f_name n) (f_name tr) then tr' else n).
    assert (Nm3 : map f_name ns3 = map f_name (f_nodes g)).
    { unfold ns3. rewrite names_subst, map_map. apply map_ext_in. intros m Hm. unfold rp. destruct (String.eqb_spec (f_name m) (f_name nd)) as [E|E]; auto. now rewrite E. }
    transitivity (map rp3 ns3).
    - assert (U : forall l, (forall m, In m l -> f_name m <> f_name tr) -> map rp3 l = l).
      { intros l H. induction l as [|m l IH]; cbn [map]; auto. f_equal; [|apply IH; intros; apply H; now right]. unfold rp3. destruct (String.eqb_spec (f_name m) (f_name tr)) as [E|]; auto. destruct (H m (or_introl eq_refl) E). }
      assert (N := g_names _ _ G). rewrite <- Nm3, E3, map_app in N. cbn [map] in N. apply NoDup_remove_2 in N. rewrite in_app_iff in N.
      rewrite E3, map_app. cbn [map]. rewrite !U.
      + unfold rp3. now rewrite Ntr, String.eqb_refl.
      + intros m Hm E. apply N. right. rewrite Ntr, <- E. now apply in_map.
      + intros m Hm E. apply N. left. rewrite Ntr, <- E. now apply in_map.
    - unfold ns3. rewrite !map_map. apply map_ext_in. intros m Hm. unfold exchange_node, rp. destruct (String.eqb_spec (f_name m) (f_name nd)) as [E|E].
      + assert (Sd : subst_node y t nd' = nd').
        { assert (Li : map (sub y t) (f_in nd') = f_in nd'). { apply map_sub_id. intro K. apply Lo in K. tauto. }
          destruct nd' as [a1 a2 a3 a4 a5 a6 a7]. cbn [f_bodies f_in] in *. subst a7. cbn [subst_node map]. now rewrite Li. }
        rewrite Sd. unfold rp3. destruct (String.eqb_spec (f_name nd') (f_name tr)); congruence.
      + unfold rp3. assert (Z : f_name (subst_node y t m) = f_name m) by (destruct m; reflexivity). rewrite Z. reflexivity. }
  rewrite E4 in W5, F5. exists RK'. split; [exact W5|]. intros v Hv. apply F2, F3, F5, Hv.
Qed.
End Exchange.

Section Meaning.
Variable V : Type.
Variable op_rel : string -> string -> list (string * attr) -> nat -> list V -> list (list V -> list V -> Prop) -> list V -> Prop.
Hypothesis ext : op_ext op_rel.
Notation holds := (holds op_rel). Notation body_rel := (body_rel op_rel). Notation all_hold := (all_hold op_rel).
Notation equiv := (equiv op_rel). Notation env := (env V). Notation upd := (upd V).
Variables (rk : string -> nat) (g : fgraph) (nd tr nd' tr' : fnode) (y t : string).
Hypothesis X : exchangeable rk g nd tr nd' tr' y t.
Definition context (r : env) : Prop := forall m, In m (f_nodes g) -> m <> nd -> m <> tr -> holds r m.
Hypothesis Forw : forall r : env, context r -> holds r nd -> holds r tr ->
  exists u, holds (upd (upd r t (r y)) y u) nd' /\ holds (upd (upd r t (r y)) y u) tr'.
Variable ok : env -> Prop.
Hypothesis Back : forall r : env, ok r -> context (upd r y (r t)) -> holds r nd' -> holds r tr' ->
  exists v, holds (upd (upd r y (r t)) t v) nd /\ holds (upd (upd r y (r t)) t v) tr.
Let G : good rk g := x_valid _ _ _ _ _ _ _ _ X g (within_refl g).

Lemma exchange_call r0 args res : let g' := exchange nd tr nd' tr' y t g in (body_rel r0 g args res -> body_rel r0 g' args res) /\
  ((forall r : env, (forall u, ~ In u (defs g') -> r u = r0 u) -> map r (f_ins g') = args -> all_hold r (f_nodes g') -> ok r) -> body_rel r0 g' args res -> body_rel r0 g args res).
Proof. intro g'. unfold g'. clear g'.
  assert (NE := x_neq _ _ _ _ _ _ _ _ X). assert (DN := x_diff _ _ _ _ _ _ _ _ X). destruct (x_go _ _ _ _ _ _ _ _ X) as [Gy Gt].
  destruct (x_defs _ _ _ _ _ _ _ _ X) as [Dy Dt]. assert (Ny := x_y _ _ _ _ _ _ _ _ X). assert (Nt := x_t _ _ _ _ _ _ _ _ X).
  assert (Iy : ~ In y (f_ins g) /\ ~ In t (f_ins g)).
  { assert (K : forall n o, In n (f_nodes g) -> In o (f_out n) -> o <> "" -> ~ In o (f_ins g)).
    { intros n o Hn Ho No Hi. assert (S := g_ssa _ _ G). destruct g as [ns gi go]. cbn [alldefs f_nodes f_ins] in *. destruct (NoDup_app_inv _ _ S) as (_ & _ & D).
      apply (D o); [apply in_nonempty; auto|]. apply in_concat_map. exists n. split; auto. apply alldefs_in_node. auto. }
    split; [apply (K nd)|apply (K tr)]; auto; try apply (x_nd _ _ _ _ _ _ _ _ X); try apply (x_tr _ _ _ _ _ _ _ _ X).
    - rewrite (x_out _ _ _ _ _ _ _ _ X). now left.
    - rewrite (x_tout _ _ _ _ _ _ _ _ X). now left. }
  assert (Dx : forall v, In v (defs (exchange nd tr nd' tr' y t g)) <-> In v (defs g)).
  { intro v. rewrite !in_defs. cbn [exchange f_ins f_nodes].
    assert (Sm : forall m, In m (f_nodes g) -> f_out (exchange_node nd tr nd' tr' y t m) = f_out m).
    { intros m Hm. unfold exchange_node. destruct (String.eqb_spec (f_name m) (f_name nd)) as [E|E].
      - assert (m = nd) by (apply (same_name _ _ _ _ _ _ _ _ X); auto; apply (x_nd _ _ _ _ _ _ _ _ X)). subst m. rewrite (x_out _ _ _ _ _ _ _ _ X). apply (x_outs _ _ _ _ _ _ _ _ X).
      - destruct (String.eqb_spec (f_name m) (f_name tr)) as [E'|E'].
        + assert (m = tr) by (apply (same_name _ _ _ _ _ _ _ _ X); auto; apply (x_tr _ _ _ _ _ _ _ _ X)). subst m. rewrite (x_tout _ _ _ _ _ _ _ _ X). apply (x_outs _ _ _ _ _ _ _ _ X).
        + apply f_out_subst. }
    split; intros [Nv H]; (split; [exact Nv|]); destruct H as [H|(m & Hm & H)]; auto; right.
    - apply in_map_iff in Hm. destruct Hm as (m0 & <- & Hm). rewrite Sm in H by auto. eauto.
    - exists (exchange_node nd tr nd' tr' y t m). split; [now apply in_map|]. now rewrite Sm. }
  (* an other node, before and after *)
  assert (Mid : forall (r r' : env) m, In m (f_nodes g) -> m <> nd -> m <> tr ->
    (forall v, v <> y -> v <> t -> r' v = r v) -> r' t = r y -> (holds r m <-> holds r' (subst_node y t m))).
  { intros r r' m Hm N1 N2 Ag Et.
    assert (Nst : forall bd, In bd (f_bodies m) -> ~ In y (alldefs bd) /\ ~ In t (alldefs bd)). { intros bd Hb. destruct (x_nested _ _ _ _ _ _ _ _ X m bd Hm Hb) as (A & B & _). auto. }
    assert (Cm : closed_node m) by (apply (WW_closed rk g m (x_valid _ _ _ _ _ _ _ _ X) Hm)).
    assert (Nr : ~ In t (fv_node m)) by (intro K; apply N1; apply (x_only _ _ _ _ _ _ _ _ X); auto).
    assert (Ou : forall o, In o (f_out m) -> o <> "" -> o <> y /\ o <> t). { intros o Ho No. apply (other_out _ _ _ _ _ _ _ _ X m o); auto. }
    assert (Hs := holds_subst V op_rel ext y t m (upd r t (r y)) Nst). rewrite upd_same, upd_other in Hs by congruence. specialize (Hs eq_refl).
    split; intro H.
    - apply (holds_agree V op_rel ext (subst_node y t m) (upd r t (r y))).
      + intros v Hv. destruct (proj1 (fv_subst_ind y t NE Ny) m Cm v Hv) as [Vy _]. destruct (string_dec v t) as [->|Vt]; [rewrite upd_same; auto|]. rewrite upd_other by auto. symmetry. auto.
      + intros v Hv Nv. rewrite f_out_subst in Hv. destruct (Ou v Hv Nv). rewrite upd_other by auto. symmetry. auto.
      + apply Hs. apply (holds_agree V op_rel ext m r); auto.
        * intros v Hv. rewrite upd_other; auto. congruence.
        * intros v Hv Nv. destruct (Ou v Hv Nv). rewrite upd_other; auto.
    - apply (holds_agree V op_rel ext m (upd r t (r y))).
      + intros v Hv. rewrite upd_other; auto. congruence.
      + intros v Hv Nv. destruct (Ou v Hv Nv). rewrite upd_other; auto.
      + apply Hs. apply (holds_agree V op_rel ext (subst_node y t m) r'); auto.
        * intros v Hv. destruct (proj1 (fv_subst_ind y t NE Ny) m Cm v Hv) as [Vy _]. destruct (string_dec v t) as [->|Vt]; [rewrite upd_same; auto|]. rewrite upd_other by auto. auto.
        * intros v Hv Nv. rewrite f_out_subst in Hv. destruct (Ou v Hv Nv). rewrite upd_other by auto. auto. }
  assert (Io : forall (r r' : env) l, (forall v, v <> y -> v <> t -> r' v = r v) -> ~ In y l -> ~ In t l -> map r' l = map r l).
  { intros r r' l Ag A B. apply map_ext_in. intros v Hv. apply Ag; congruence. }
  rewrite !body_rel_eq. cbn [exchange f_ins f_outs f_nodes]. split.
  - intros (r & E1 & E2 & E3 & E4).
    destruct (Forw r) as (u & Hn & Ht). { intros m Hm _ _. apply E3. exact Hm. } { apply E3, (x_nd _ _ _ _ _ _ _ _ X). } { apply E3, (x_tr _ _ _ _ _ _ _ _ X). }
    set (r' := upd (upd r t (r y)) y u) in *.
    assert (Ag : forall v, v <> y -> v <> t -> r' v = r v). { intros v A B. unfold r'. rewrite !upd_other; auto. }
    exists r'. split; [|split; [|split]].
    + intros v Hv. rewrite Dx in Hv. rewrite Ag by congruence. auto.
    + rewrite (Io r r'); tauto.
    + intros m' Hm'. apply in_map_iff in Hm'. destruct Hm' as (m & <- & Hm). unfold exchange_node. destruct (String.eqb_spec (f_name m) (f_name nd)) as [E|E]; [exact Hn|].
      destruct (String.eqb_spec (f_name m) (f_name tr)) as [E'|E']; [exact Ht|].
      apply (Mid r r'); auto; [congruence|congruence|]. unfold r'. rewrite upd_other, upd_same by congruence. reflexivity.
    + rewrite (Io r r'); tauto.
  - intros Ok (r & E1 & E2 & E3 & E4). specialize (Ok r E1 E2 E3).
    set (r1 := upd r y (r t)).
    assert (C : forall m v, In m (f_nodes g) -> m <> nd -> m <> tr -> holds (upd r1 t v) m).
    { intros m v Hm N1 N2. apply (Mid (upd r1 t v) r); auto.
      - intros z A B. unfold r1. rewrite !upd_other; auto.
      - unfold r1. rewrite upd_other, upd_same by auto. reflexivity.
      - assert (K : In (exchange_node nd tr nd' tr' y t m) (map (exchange_node nd tr nd' tr' y t) (f_nodes g))) by now apply in_map.
        apply E3 in K. unfold exchange_node in K. destruct (String.eqb_spec (f_name m) (f_name nd)) as [E|E].
        { exfalso. apply N1. apply (same_name _ _ _ _ _ _ _ _ X); auto. apply (x_nd _ _ _ _ _ _ _ _ X). }
        destruct (String.eqb_spec (f_name m) (f_name tr)) as [E'|E']; [|exact K].
        exfalso. apply N2. apply (same_name _ _ _ _ _ _ _ _ X); auto. apply (x_tr _ _ _ _ _ _ _ _ X). }
    destruct (Back r Ok) as (v & Hn & Ht).
    { intros m Hm N1 N2. assert (Nr : ~ In t (fv_node m)) by (intro K; apply N1; apply (x_only _ _ _ _ _ _ _ _ X); auto).
      apply (holds_agree V op_rel ext m (upd r1 t (r t))); [| |apply C; auto].
      - intros z Hz. rewrite upd_other; auto. congruence.
      - intros z Hz Nz. destruct (other_out _ _ _ _ _ _ _ _ X m z); auto. rewrite upd_other; auto. }
    { assert (K := in_map (exchange_node nd tr nd' tr' y t) _ _ (x_nd _ _ _ _ _ _ _ _ X)). apply E3 in K. unfold exchange_node in K. rewrite String.eqb_refl in K. exact K. }
    { assert (K := in_map (exchange_node nd tr nd' tr' y t) _ _ (x_tr _ _ _ _ _ _ _ _ X)). apply E3 in K. unfold exchange_node in K. rewrite String.eqb_refl in K. destruct (String.eqb_spec (f_name tr) (f_name nd)); [congruence|exact K]. }
    fold r1 in Hn, Ht. set (r' := upd r1 t v) in *.
    assert (Ag : forall z, z <> y -> z <> t -> r' z = r z). { intros z A B. unfold r', r1. rewrite !upd_other; auto. }
    exists r'. split; [|split; [|split]].
    + intros z Hz. rewrite Ag by congruence. apply E1. now rewrite Dx.
    + rewrite (Io r r'); tauto.
    + intros m Hm. destruct (string_dec (f_name m) (f_name nd)) as [E|E].
      { assert (m = nd) by (apply (same_name _ _ _ _ _ _ _ _ X); auto; apply (x_nd _ _ _ _ _ _ _ _ X)). subst m. exact Hn. }
      destruct (string_dec (f_name m) (f_name tr)) as [E'|E'].
      { assert (m = tr) by (apply (same_name _ _ _ _ _ _ _ _ X); auto; apply (x_tr _ _ _ _ _ _ _ _ X)). subst m. exact Ht. }
      apply C; auto; congruence.
    + rewrite (Io r r'); tauto.
Qed.
End Meaning.
