From Coq Require Import String List Bool Arith Lia.
From Verif Require Import Util GraphModel GraphSpec.
Import ListNotations.
Local Open Scope string_scope.
Local Open Scope list_scope.

(** * basics *)
Lemma smem_in x l : smem x l = true <-> In x l.
Proof.
  unfold smem. rewrite existsb_exists. split.
  - intros (y & H & E). apply String.eqb_eq in E. now subst.
  - intro H. exists x. split; auto. apply String.eqb_refl.
Qed.
Lemma smem_false x l : smem x l = false <-> ~ In x l.
Proof. rewrite <- smem_in. destruct (smem x l); split; congruence. Qed.
Lemma sadd_in x y l : In y (sadd x l) <-> y = x \/ In y l.
Proof.
  unfold sadd. destruct (smem x l) eqn:E; simpl.
  - apply smem_in in E. split; auto. intros [->|H]; auto.
  - split; intros [H|H]; auto.
Qed.
Lemma srem_in x y l : In y (srem x l) <-> In y l /\ y <> x.
Proof.
  unfold srem. rewrite filter_In. split; intros [A B]; split; auto.
  - intros ->. rewrite String.eqb_refl in B. discriminate.
  - destruct (String.eqb_spec x y); auto; congruence.
Qed.
Lemma mset_same {A} k (v : A) m : mset k v m k = Some v.
Proof. unfold mset. now rewrite String.eqb_refl. Qed.
Lemma mset_other {A} k k' (v : A) m : k' <> k -> mset k v m k' = m k'.
Proof. unfold mset. intro H. destruct (String.eqb_spec k' k); congruence. Qed.
Lemma mdel_same {A} k (m : smap A) : mdel k m k = None.
Proof. unfold mdel. now rewrite String.eqb_refl. Qed.
Lemma mdel_other {A} k k' (m : smap A) : k' <> k -> mdel k m k' = m k'.
Proof. unfold mdel. intro H. destruct (String.eqb_spec k' k); congruence. Qed.
Lemma hset_same i n h : hset i n h i = Some n.
Proof. unfold hset. now rewrite Nat.eqb_refl. Qed.
Lemma hset_other i j n h : j <> i -> hset i n h j = h j.
Proof. unfold hset. intro H. destruct (Nat.eqb_spec j i); congruence. Qed.
Lemma live_in g i : live g i = true <-> In i (nodes g).
Proof.
  unfold live. rewrite existsb_exists. split.
  - intros (y & H & E). apply Nat.eqb_eq in E. now subst.
  - intro H. exists i. split; auto. apply Nat.eqb_refl.
Qed.
Lemma remove_first_in i j l : NoDup l -> (In j (remove_first i l) <-> In j l /\ j <> i).
Proof.
  induction l as [|k l IH]; intro Hn; simpl; [tauto|]. inversion Hn; subst.
  destruct (Nat.eqb_spec i k) as [->|N].
  - split; [intro H; split; auto; intros ->; auto|]. intros [[H|H] K]; auto; congruence.
  - simpl. rewrite IH by auto. split; [intros [H|H]|intros [[H|H] K]]; auto; intuition congruence.
Qed.
Lemma remove_first_nodup i l : NoDup l -> NoDup (remove_first i l).
Proof.
  induction l as [|k l IH]; intro Hn; simpl; auto. inversion Hn; subst.
  destruct (Nat.eqb_spec i k) as [->|N]; auto. constructor; auto.
  intro H. apply remove_first_in in H; tauto.
Qed.

(** * the invariant *)
Record wf (g : graph) : Prop := {
  w_nodup : NoDup (nodes g);
  w_live : forall i, In i (nodes g) -> exists n, heap g i = Some n;
  w_name : forall name i, by_name g name = Some i <-> exists n, node_at g i n /\ n_name n = name;
  w_out : forall i n o, node_at g i n -> In o (n_out n) -> o <> "" -> out2node g o = Some (n_name n);
  w_outinv : forall o name, out2node g o = Some name -> o <> "" ->
               exists i n, node_at g i n /\ n_name n = name /\ In o (n_out n);
  w_next : forall i n, heap g i = Some n -> i < next g;
  w_named : forall i n, node_at g i n -> n_name n <> "" }.

Definition cons_in (g : graph) (t x : string) : Prop := exists l, consumers g t = Some l /\ In x l.
(** completeness of the consumer index *)
Definition cmpl (g : graph) : Prop :=
  forall i n t, node_at g i n -> In t (n_in n) -> cons_in g t (n_name n).

(** same except for the consumer index *)
Definition sbc (g g' : graph) : Prop :=
  (forall j, heap g' j = heap g j) /\ next g' = next g /\ nodes g' = nodes g /\ by_name g' = by_name g /\
  out2node g' = out2node g /\ g_inputs g' = g_inputs g /\ g_outputs g' = g_outputs g.
Lemma sbc_refl g : sbc g g. Proof. repeat split. Qed.
Lemma sbc_trans g g1 g2 : sbc g g1 -> sbc g1 g2 -> sbc g g2.
Proof.
  unfold sbc. intros (A & B) (C & D). split; [intro j; rewrite C; apply A|]. intuition congruence.
Qed.
Lemma sbc_set_consumers g c : sbc g (set_consumers g c).
Proof. repeat split. Qed.
Lemma sbc_register g t n : sbc g (register g t n).
Proof. apply sbc_set_consumers. Qed.
Lemma sbc_register_all ts n g : sbc g (register_all g ts n).
Proof.
  revert g. induction ts as [|t ts IH]; intro g; [apply sbc_refl|].
  simpl. eapply sbc_trans; [apply sbc_register|apply IH].
Qed.
Lemma node_at_sbc g g' i n : sbc g g' -> (node_at g' i n <-> node_at g i n).
Proof. intros (H & _ & N & _). unfold node_at. now rewrite H, N. Qed.
Lemma wf_sbc g g' : sbc g g' -> wf g -> wf g'.
Proof.
  intros S [W1 W2 W3 W4 W5 W6 W7].
  assert (NA : forall i n, node_at g' i n <-> node_at g i n) by (intros; now apply node_at_sbc).
  destruct S as (H & N & D & B & O & _ & _). constructor.
  - now rewrite D.
  - intros i Hi. rewrite D in Hi. rewrite H. auto.
  - intros name i. rewrite B, W3. split; intros (n & A & E); exists n; split; auto; now apply NA.
  - intros i n o A. rewrite O. apply NA in A. eauto.
  - intros o name. rewrite O. intros E Ne. destruct (W5 o name E Ne) as (i & n & A & F). exists i, n.
    split; auto. now apply NA.
  - intros i n. rewrite H, N. eauto.
  - intros i n A. apply NA in A. eauto.
Qed.

Lemma cons_in_register g t n t' x : cons_in (register g t n) t' x <-> (t' = t /\ x = n) \/ cons_in g t' x.
Proof.
  unfold cons_in, register, set_consumers. cbn [consumers].
  destruct (string_dec t' t) as [->|Ne].
  - rewrite mset_same. split.
    + intros (l & E & H). inversion E; subst. apply sadd_in in H. destruct H as [->|H]; auto.
      destruct (consumers g t) as [l|]; [eauto|destruct H].
    + intros [[_ ->]|(l & E & H)]; eexists; (split; [reflexivity|]); apply sadd_in; auto.
      rewrite E. auto.
  - rewrite mset_other by auto. split; auto. intros [[? _]|H]; auto. congruence.
Qed.
Lemma cons_in_register_all ts n g t' x :
  cons_in (register_all g ts n) t' x <-> (In t' ts /\ x = n) \/ cons_in g t' x.
Proof.
  revert g. induction ts as [|t ts IH]; intro g; [simpl; tauto|].
  change (register_all g (t :: ts) n) with (register_all (register g t n) ts n).
  rewrite IH, cons_in_register. simpl. intuition (subst; auto).
Qed.
Lemma unregister_spec g t n g' : unregister g t n = Some g' ->
  sbc g g' /\ forall t' x, x <> n -> cons_in g t' x -> cons_in g' t' x.
Proof.
  unfold unregister. destruct (consumers g t) as [l|] eqn:E; [|discriminate]. intro H.
  inversion H; subst; clear H. destruct (smem t l); [|split; [apply sbc_refl|auto]].
  split; [apply sbc_set_consumers|]. intros t' x Hx (l' & E' & Hi).
  unfold cons_in, set_consumers. cbn [consumers].
  destruct (string_dec t' t) as [->|Ne].
  - rewrite mset_same. eexists. split; [reflexivity|]. apply srem_in. split; auto. congruence.
  - rewrite mset_other by auto. eauto.
Qed.
Lemma unregister_all_spec ins n g g' : unregister_all g ins n = Some g' ->
  sbc g g' /\ forall t' x, x <> n -> cons_in g t' x -> cons_in g' t' x.
Proof.
  revert g. induction ins as [|t ins IH]; intros g H; simpl in H.
  - inversion H; subst. split; [apply sbc_refl|auto].
  - destruct (String.eqb t ""); [auto|]. destruct (unregister g t n) as [g1|] eqn:E; [|discriminate].
    destruct (unregister_spec _ _ _ _ E) as [S1 C1]. destruct (IH _ H) as [S2 C2].
    split; [eapply sbc_trans; eauto|]. auto.
Qed.
Lemma cmpl_sbc g g' : sbc g g' -> cmpl g ->
  (forall t x, cons_in g t x -> cons_in g' t x) -> cmpl g'.
Proof. intros S C H i n t A Ht. apply H. eapply C; eauto. apply (node_at_sbc _ _ i n S). exact A. Qed.

(** * make_node *)
Lemma fold_mset_out (name : string) outs (m : smap string) (o : string) :
  fold_left (fun m o => mset o name m) outs m o = if smem o outs then Some name else m o.
Proof.
  revert m. induction outs as [|x outs IH]; intro m; [reflexivity|].
  cbn [fold_left]. rewrite IH. change (smem o (x :: outs)) with (String.eqb o x || smem o outs).
  unfold mset. destruct (smem o outs); destruct (String.eqb o x); reflexivity.
Qed.

Lemma make_node_spec g name op p ins outs g' i :
  wf g -> name <> "" -> make_node g name op p ins outs = Some (g', i) ->
  wf g' /\ i = next g /\ nodes g' = nodes g ++ [i] /\
  (forall j, heap g' j = hset i (mkNode name op p ins outs) (heap g) j) /\
  (forall t x, cons_in g' t x <-> (In t ins /\ x = name) \/ cons_in g t x).
Proof.
  intros W Hname H. unfold make_node in H.
  destruct (get_node_by_name g name) eqn:Eb; [discriminate|].
  destruct (existsb _ outs) eqn:Eo; [discriminate|].
  set (g1 := register_all g ins name) in *.
  assert (S1 : sbc g g1) by apply sbc_register_all.
  assert (W1 := wf_sbc _ _ S1 W).
  match type of H with Some (register_all ?x _ _, _) = _ => set (g2 := x) in * end.
  inversion H; subst i g'; clear H.
  assert (S2 : sbc g2 (register_all g2 ins name)) by apply sbc_register_all.
  assert (Hnx : next g1 = next g) by (destruct S1; tauto).
  assert (Hhp : forall j, heap g1 j = heap g j) by (destruct S1; auto).
  assert (Hnd : nodes g1 = nodes g) by (destruct S1; tauto).
  assert (Hb1 : by_name g1 = by_name g) by (destruct S1; tauto).
  assert (Ho1 : out2node g1 = out2node g) by (destruct S1 as (_&_&_&_&?&_); auto).
  assert (Hfree : heap g1 (next g1) = None).
  { destruct (heap g1 (next g1)) eqn:E; auto. apply (w_next _ W1) in E. lia. }
  assert (Hni : ~ In (next g1) (nodes g1)).
  { intro K. destruct (w_live _ W1 _ K) as (n & K'). congruence. }
  set (nn := mkNode name op p ins outs) in *.
  assert (NA : forall j n, node_at g2 j n <-> (j = next g1 /\ n = nn) \/ node_at g1 j n).
  { intros j n. unfold node_at, g2. cbn [nodes heap]. rewrite in_app_iff. simpl.
    destruct (Nat.eq_dec j (next g1)) as [->|Nj].
    - rewrite hset_same. split.
      + intros [_ K]. left. split; congruence.
      + intros [[_ ->]|[K _]]; [auto|contradiction].
    - rewrite hset_other by auto. split.
      + intros [[K|[K|[]]] E]; [auto|congruence].
      + intros [[K _]|[K E]]; [congruence|auto]. }
  assert (Hdis : forall o, In o outs -> o <> "" -> out2node g1 o = None).
  { intros o Ho Ne. destruct (out2node g1 o) as [nm|] eqn:E; auto. exfalso.
    destruct (w_outinv _ W1 _ _ E Ne) as (j & m & A & En & _).
    assert (Bj : by_name g1 nm = Some j) by (apply (w_name _ W1); eauto).
    assert (T : existsb (fun o => match get_node_by_output g o with Some _ => true | None => false end) outs = true).
    { apply existsb_exists. exists o. split; auto. unfold get_node_by_output. rewrite <- Ho1, E.
      destruct (String.eqb_spec nm "") as [->|]; [|rewrite <- Hb1, Bj; auto].
      exfalso. apply (w_named _ W1 j m); auto. }
    congruence. }
  assert (W2 : wf g2).
  { constructor.
    - change (nodes g2) with (nodes g1 ++ [next g1]). assert (N := w_nodup _ W1). clear - N Hni.
      revert N Hni. generalize (next g1) as k. generalize (nodes g1) as l.
      induction l as [|a l IH]; intros k N Hk; simpl.
      + constructor; [intros []|constructor].
      + inversion N; subst. constructor.
        * rewrite in_app_iff. simpl. intros [K|[K|[]]]; auto. subst. apply Hk. left. auto.
        * apply IH; auto. intro K. apply Hk. right. auto.
    - intros j Hj. cbn [nodes heap g2] in *. unfold hset. destruct (Nat.eqb_spec j (next g1)); [eauto|].
      apply in_app_or in Hj. destruct Hj as [Hj|[Hj|[]]]; [|congruence]. now apply (w_live _ W1).
    - intros nm j. cbn [by_name g2]. destruct (string_dec nm name) as [->|Ne].
      + rewrite mset_same. split.
        * intro K. inversion K; subst. exists nn. split; auto. apply NA. auto.
        * intros (n & A & En). apply NA in A. destruct A as [[-> _]|A]; auto. exfalso.
          assert (K : by_name g1 name = Some j) by (apply (w_name _ W1); eauto).
          unfold get_node_by_name in Eb. congruence.
      + rewrite mset_other by auto. rewrite (w_name _ W1). split.
        * intros (n & A & En). exists n. split; auto. apply NA. auto.
        * intros (n & A & En). apply NA in A. destruct A as [[-> ->]|A]; [|eauto]. simpl in En. congruence.
    - intros j n o A Ho Ne. cbn [out2node g2]. rewrite fold_mset_out. apply NA in A.
      destruct A as [[-> ->]|A].
      + simpl in Ho. apply smem_in in Ho. rewrite Ho. auto.
      + destruct (smem o outs) eqn:E.
        * apply smem_in in E. assert (K := w_out _ W1 _ _ _ A Ho Ne). rewrite (Hdis o E Ne) in K. discriminate.
        * eapply (w_out _ W1); eauto.
    - intros o nm E Ne. cbn [out2node g2] in E. rewrite fold_mset_out in E.
      destruct (smem o outs) eqn:Em.
      + inversion E; subst. exists (next g1), nn. split; [apply NA; auto|]. split; auto.
        simpl. now apply smem_in.
      + destruct (w_outinv _ W1 _ _ E Ne) as (j & n & A & F). exists j, n. split; auto. apply NA. auto.
    - intros j n E. cbn [heap next g2] in *. unfold hset in E. destruct (Nat.eqb_spec j (next g1)); [lia|].
      apply (w_next _ W1) in E. lia.
    - intros j n A. apply NA in A. destruct A as [[-> ->]|A]; [exact Hname|]. eapply (w_named _ W1); eauto. }
  split; [exact (wf_sbc _ _ S2 W2)|]. split; [auto|]. split.
  { destruct S2 as (_ & _ & E & _). rewrite E. cbn [nodes g2]. now rewrite Hnd. }
  split.
  { intro j. destruct S2 as (E & _). rewrite E. unfold g2. cbn [heap]. unfold hset. rewrite Hnx.
    destruct (Nat.eqb j (next g)); [reflexivity|]. apply Hhp. }
  intros t x. rewrite cons_in_register_all.
  assert (C2 : cons_in g2 t x <-> cons_in g1 t x) by reflexivity. rewrite C2. unfold g1.
  rewrite cons_in_register_all. tauto.
Qed.

(** * remove_node *)
Lemma del_outputs_spec outs m m' : del_outputs outs m = Some m' ->
  forall o, m' o = if smem o outs && negb (String.eqb o "") then None else m o.
Proof.
  revert m. induction outs as [|x outs IH]; intros m H o; simpl in H.
  - inversion H; subst. reflexivity.
  - change (smem o (x :: outs)) with (String.eqb o x || smem o outs).
    destruct (String.eqb_spec x "") as [->|Nx].
    + rewrite (IH _ H). destruct (String.eqb_spec o ""); simpl; auto.
      subst. rewrite !andb_false_r. auto.
    + destruct (m x) eqn:E; [|discriminate]. rewrite (IH _ H). unfold mdel.
      destruct (String.eqb_spec o x) as [->|]; simpl.
      * destruct (String.eqb_spec x ""); [congruence|]. simpl. destruct (smem x outs); reflexivity.
      * reflexivity.
Qed.

Lemma remove_node_spec g name g' :
  wf g -> remove_node g name = Some g' ->
  exists i n, node_at g i n /\ n_name n = name /\ wf g' /\
    (forall j m, node_at g' j m <-> node_at g j m /\ j <> i) /\
    (forall j, heap g' j = heap g j) /\
    (forall o, o <> "" -> In o (n_out n) -> get_node_by_output g' o = None) /\
    get_node_by_name g' name = None /\
    (forall t x, x <> name -> cons_in g t x -> cons_in g' t x) /\ g_outputs g' = g_outputs g.
Proof.
  intros W H. unfold remove_node in H.
  destruct (by_name g name) as [i|] eqn:Eb; [|discriminate].
  destruct (heap g i) as [n|] eqn:Eh; [|discriminate].
  destruct (del_outputs (n_out n) (out2node g)) as [m'|] eqn:Ed; [|discriminate].
  match type of H with match unregister_all ?x _ _ with _ => _ end = _ => set (g1 := x) in * end.
  destruct (unregister_all g1 (n_in n) name) as [g2|] eqn:Eu; [|discriminate].
  inversion H; subst g'; clear H.
  destruct (unregister_all_spec _ _ _ _ Eu) as [S C].
  destruct S as (Sh & Sn & Sd & Sb & So & Si & Sg).
  assert (An : node_at g i n /\ n_name n = name).
  { apply (w_name _ W) in Eb. destruct Eb as (n' & A & E). assert (n' = n) by (destruct A; congruence).
    subst. auto. }
  destruct An as [An Enm].
  exists i, n. split; [auto|]. split; [auto|].
  assert (DO := del_outputs_spec _ _ _ Ed).
  set (g3 := mkGraph (heap g2) (next g2) (remove_first i (nodes g2)) (by_name g2)
                (out2node g2) (consumers g2) (g_inputs g2) (g_outputs g2)).
  assert (NA : forall j m, node_at g3 j m <-> node_at g j m /\ j <> i).
  { intros j m. unfold node_at, g3. cbn [nodes heap]. rewrite Sh, Sd. cbn [nodes heap g1].
    rewrite remove_first_in by (apply (w_nodup _ W)). tauto. }
  assert (Ho : out2node g3 = m') by exact So.
  assert (Hb : by_name g3 = mdel name (by_name g)) by exact Sb.
  assert (Hh : forall j, heap g3 j = heap g j) by exact Sh.
  split.
  - constructor.
    + unfold g3. cbn [nodes]. rewrite Sd. apply remove_first_nodup. apply (w_nodup _ W).
    + intros j Hj. unfold g3 in Hj. cbn [nodes] in Hj. rewrite Sd in Hj. cbn [nodes g1] in Hj.
      apply remove_first_in in Hj; [|apply (w_nodup _ W)]. rewrite Hh. apply (w_live _ W). tauto.
    + intros nm j. rewrite Hb. destruct (string_dec nm name) as [->|Ne].
      * rewrite mdel_same. split; [discriminate|]. intros (m & A & E). exfalso. apply NA in A.
        destruct A as [A Nj]. apply Nj.
        assert (K : by_name g name = Some j) by (apply (w_name _ W); eauto). congruence.
      * rewrite mdel_other by auto. rewrite (w_name _ W). split.
        -- intros (m & A & E). exists m. split; auto. apply NA. split; auto. intros ->.
           destruct A as [_ A]. rewrite Eh in A. inversion A; subst. congruence.
        -- intros (m & A & E). apply NA in A. exists m. tauto.
    + intros j m o A Hi Ne. rewrite Ho, DO. apply NA in A. destruct A as [A Nj].
      destruct (smem o (n_out n)) eqn:E; simpl.
      * exfalso. apply smem_in in E. assert (K1 := w_out _ W _ _ _ A Hi Ne).
        assert (K2 := w_out _ W _ _ _ An E Ne). rewrite K1 in K2. inversion K2 as [K3].
        assert (B1 : by_name g (n_name m) = Some j) by (apply (w_name _ W); eauto).
        rewrite K3, Enm in B1. congruence.
      * eapply (w_out _ W); eauto.
    + intros o nm E Ne. rewrite Ho, DO in E. destruct (String.eqb_spec o "") as [->|_]; [congruence|].
      destruct (smem o (n_out n)) eqn:Em; simpl in E; [discriminate|].
      destruct (w_outinv _ W _ _ E Ne) as (j & m & A & F & G). exists j, m. split; auto. apply NA.
      split; auto. intros ->. destruct A as [_ A]. rewrite Eh in A. inversion A; subst.
      apply smem_in in G. congruence.
    + intros j m. rewrite Hh. unfold g3. cbn [next]. rewrite Sn. apply (w_next _ W).
    + intros j m A. apply NA in A. eapply (w_named _ W). apply A.
  - split; [exact NA|]. split; [exact Hh|]. split; [|split; [|split]].
    + intros o Ne Hi. unfold get_node_by_output. rewrite Ho, DO. apply smem_in in Hi. rewrite Hi.
      destruct (String.eqb_spec o ""); [congruence|]. reflexivity.
    + unfold get_node_by_name. rewrite Hb. apply mdel_same.
    + intros t x Hx K. apply (C t x Hx K).
    + exact Sg.
Qed.

(** * changing the inputs of a node *)
Lemma node_at_fun g i n m : node_at g i n -> node_at g i m -> n = m.
Proof. intros [_ A] [_ B]. congruence. Qed.

Lemma wf_with_in g i n ins : wf g -> heap g i = Some n ->
  wf (set_heap g (hset i (with_in n ins) (heap g))).
Proof.
  intros [W1 W2 W3 W4 W5 W6 W7] Eh.
  set (g' := set_heap g (hset i (with_in n ins) (heap g))).
  assert (F : forall j m, node_at g' j m -> exists m', node_at g j m' /\ n_name m = n_name m' /\ n_out m = n_out m').
  { intros j m [A B]. unfold g', set_heap in *. cbn [heap nodes] in *. unfold hset in B.
    destruct (Nat.eqb_spec j i) as [->|].
    - inversion B; subst. exists n. repeat split; auto.
    - exists m. repeat split; auto. }
  assert (G : forall j m, node_at g j m -> exists m', node_at g' j m' /\ n_name m = n_name m' /\ n_out m = n_out m').
  { intros j m [A B]. unfold node_at, g', set_heap. cbn [heap nodes]. unfold hset.
    destruct (Nat.eqb_spec j i) as [->|].
    - exists (with_in n ins). rewrite Eh in B. inversion B; subst. repeat split; auto.
    - exists m. repeat split; auto. }
  constructor.
  - exact W1.
  - intros j Hj. destruct (W2 j Hj) as (m & E). destruct (G j m (conj Hj E)) as (m' & [_ K] & _). eauto.
  - intros nm j. cbn [by_name set_heap g']. rewrite W3. split.
    + intros (m & A & E). destruct (G j m A) as (m' & A' & E1 & _). exists m'. split; auto. congruence.
    + intros (m & A & E). destruct (F j m A) as (m' & A' & E1 & _). exists m'. split; auto. congruence.
  - intros j m o A Ho Ne. destruct (F j m A) as (m' & A' & E1 & E2). rewrite E1. rewrite E2 in Ho.
    apply (W4 j m' o A' Ho Ne).
  - intros o nm E Ne. destruct (W5 o nm E Ne) as (j & m & A & E1 & E2).
    destruct (G j m A) as (m' & A' & E3 & E4). exists j, m'. rewrite <- E3, <- E4. auto.
  - intros j m. unfold g', set_heap. cbn [heap next]. unfold hset. destruct (Nat.eqb_spec j i) as [->|]; eauto.
  - intros j m A. destruct (F j m A) as (m' & A' & E1 & _). rewrite E1. eauto.
Qed.

(** effect of the operations that change inputs: heap changes only in the inputs of i *)
Definition in_changed (g g' : graph) (i : nat) (n : node) (ins : list string) : Prop :=
  (forall j, heap g' j = hset i (with_in n ins) (heap g) j) /\ next g' = next g /\ nodes g' = nodes g /\
  by_name g' = by_name g /\ out2node g' = out2node g /\ g_inputs g' = g_inputs g /\ g_outputs g' = g_outputs g.
Lemma in_changed_sbc g g' i n ins :
  in_changed g g' i n ins <-> sbc (set_heap g (hset i (with_in n ins) (heap g))) g'.
Proof. unfold in_changed, sbc, set_heap. cbn. tauto. Qed.
Lemma in_changed_wf g g' i n ins : wf g -> heap g i = Some n -> in_changed g g' i n ins -> wf g'.
Proof. intros W E S. apply (proj1 (in_changed_sbc _ _ _ _ _)) in S. eapply wf_sbc; [exact S|]. now apply wf_with_in. Qed.
Lemma in_changed_node g g' i n ins : heap g i = Some n -> in_changed g g' i n ins ->
  forall j m, node_at g' j m <-> (j = i /\ In i (nodes g) /\ m = with_in n ins) \/ (j <> i /\ node_at g j m).
Proof.
  intros E (H & _ & N & _) j m. unfold node_at. rewrite H, N. unfold hset.
  destruct (Nat.eqb_spec j i) as [->|]; split; intros A.
  - left. destruct A as [A B]. inversion B. auto.
  - destruct A as [(_ & A & ->)|[? _]]; [auto|congruence].
  - right. tauto.
  - destruct A as [[? _]|[_ A]]; [congruence|auto].
Qed.

Definition fin_op (g : graph) (i : nat) (n : node) (old new : string) (ins : list string) : graph :=
  let g1 := set_heap g (hset i (with_in n ins) (heap g)) in
  let g2 := match consumers g1 old with
            | None => g1
            | Some l => if smem (n_name n) l
                        then set_consumers g1 (mset old (srem (n_name n) l) (consumers g1)) else g1
            end in
  register g2 new (n_name n).
Lemma fin_op_spec g i n old new ins :
  in_changed g (fin_op g i n old new ins) i n ins /\
  (forall t x, cons_in (fin_op g i n old new ins) t x <->
     (t = new /\ x = n_name n) \/ (cons_in g t x /\ ~ (t = old /\ x = n_name n))).
Proof.
  unfold fin_op. set (g1 := set_heap g (hset i (with_in n ins) (heap g))).
  cbn zeta.
  assert (K : forall g2, sbc g1 g2 -> in_changed g (register g2 new (n_name n)) i n ins).
  { intros g2 S. apply in_changed_sbc. eapply sbc_trans; [exact S|apply sbc_register]. }
  assert (C1 : consumers g1 = consumers g) by reflexivity.
  destruct (consumers g1 old) as [l|] eqn:E.
  - destruct (smem (n_name n) l) eqn:Em.
    + split; [apply K, sbc_set_consumers|]. intros t x. rewrite cons_in_register.
      assert (X : cons_in (set_consumers g1 (mset old (srem (n_name n) l) (consumers g1))) t x <->
                  cons_in g t x /\ ~ (t = old /\ x = n_name n)); [|rewrite X; tauto].
      unfold cons_in, set_consumers. cbn [consumers]. destruct (string_dec t old) as [->|Ne].
      * rewrite mset_same. rewrite <- C1, E. split.
        -- intros (l' & E' & H). inversion E'; subst. apply srem_in in H. split; [exists l; tauto|]. tauto.
        -- intros [(l' & E' & H) N]. inversion E'; subst. eexists. split; [reflexivity|]. apply srem_in.
           split; auto.
      * rewrite mset_other by auto. rewrite C1. split; [intro H; split; auto; tauto|tauto].
    + apply smem_false in Em. split; [apply K, sbc_refl|]. intros t x. rewrite cons_in_register.
      assert (X : cons_in g1 t x <-> cons_in g t x /\ ~ (t = old /\ x = n_name n)); [|rewrite X; tauto].
      unfold cons_in. rewrite C1. split; [|tauto]. intros (l' & E' & H). split; [eauto|].
      intros [-> ->]. rewrite C1 in E. rewrite E in E'. inversion E'; subst. auto.
  - split; [apply K, sbc_refl|]. intros t x. rewrite cons_in_register.
    assert (X : cons_in g1 t x <-> cons_in g t x /\ ~ (t = old /\ x = n_name n)); [|rewrite X; tauto].
    unfold cons_in. rewrite C1. split; [|tauto]. intros (l' & E' & H). split; [eauto|].
    intros [-> ->]. rewrite C1 in E. congruence.
Qed.

Lemma replace_input_spec g i old new idx g' : replace_input g i old new idx = Some g' ->
  exists n ins, heap g i = Some n /\ g' = fin_op g i n old new ins /\
    match idx with
    | None => ins = subst_in old new (n_in n)
    | Some k => nth_error (n_in n) k = Some old /\ ins = list_set k new (n_in n)
    end.
Proof.
  unfold replace_input. destruct (heap g i) as [n|] eqn:E; [|discriminate].
  destruct idx as [k|].
  - destruct (nth_error (n_in n) k) as [t|] eqn:Et; [|discriminate].
    destruct (String.eqb_spec t old) as [->|]; [|discriminate]. intro H. inversion H; subst.
    exists n, (list_set k new (n_in n)). repeat split; auto.
  - intro H. inversion H; subst. exists n, (subst_in old new (n_in n)). repeat split; auto.
Qed.

Lemma in_list_set {A} k (x : A) l y : In y (list_set k x l) -> y = x \/ In y l.
Proof.
  revert k. induction l as [|a l IH]; intros [|k] H; simpl in *; auto.
  - destruct H; auto.
  - destruct H as [H|H]; auto. destruct (IH k H); auto.
Qed.
Lemma subst_in_in old new l y : In y (subst_in old new l) <-> (y = new /\ In old l) \/ (y <> old /\ In y l).
Proof.
  unfold subst_in. rewrite in_map_iff. split.
  - intros (t & <- & H). destruct (String.eqb_spec t old) as [->|]; auto.
  - intros [[-> H]|[N H]].
    + exists old. now rewrite String.eqb_refl.
    + exists y. destruct (String.eqb_spec y old); [congruence|auto].
Qed.

(** completeness after [fin_op] *)
Lemma fin_op_cmpl g i n old new ins :
  wf g -> cmpl g -> heap g i = Some n -> In i (nodes g) ->
  (forall t, In t ins -> t = new \/ In t (n_in n)) -> (old <> new -> ~ In old ins) ->
  cmpl (fin_op g i n old new ins).
Proof.
  intros W C E Hi Hin Hold. destruct (fin_op_spec g i n old new ins) as [S K].
  intros j m t A Ht. apply (in_changed_node _ _ _ _ _ E S) in A. apply K.
  destruct A as [(-> & _ & ->)|[Nj A]].
  - simpl in Ht |- *. destruct (string_dec t new) as [->|Nt]; auto.
    destruct (Hin t Ht) as [->|Hn]; [tauto|]. right. split.
    + apply (C i n t); auto. split; auto.
    + intros [-> _]. apply Hold; auto.
  - right. split; [eapply C; eauto|]. intros [-> En]. apply Nj.
    assert (B1 : by_name g (n_name m) = Some j) by (apply (w_name _ W); eauto).
    assert (B2 : by_name g (n_name n) = Some i) by (apply (w_name _ W); exists n; repeat split; auto).
    rewrite En in B1. congruence.
Qed.

(** * replace_inputs *)
Lemma drop_old_spec olds c t l : drop_old c olds t = Some l ->
  exists l0, c t = Some l0 /\ forall x, In x l0 -> ~ (In t olds /\ x = t) -> In x l.
Proof.
  revert c. induction olds as [|o olds IH]; intros c H; simpl in H.
  - exists l. split; auto.
  - destruct (IH _ H) as (l1 & E1 & K).
    destruct (c o) as [lo|] eqn:Eo.
    + destruct (smem o lo) eqn:Em.
      * destruct (string_dec t o) as [->|Nt].
        -- rewrite mset_same in E1. inversion E1; subst. exists lo. split; auto. intros x Hx N.
           apply K.
           ++ apply srem_in. split; auto. intros ->. apply N. split; [left; auto|auto].
           ++ intros [A ->]. apply N. split; [right; auto|auto].
        -- rewrite mset_other in E1 by auto. exists l1. split; auto. intros x Hx N. apply K; auto.
           intros [A B]. apply N. split; [right; auto|auto].
      * exists l1. split; auto. intros x Hx N. apply K; auto. intros [A B]. apply N. split; [right; auto|auto].
    + exists l1. split; auto. intros x Hx N. apply K; auto. intros [A B]. apply N. split; [right; auto|auto].
Qed.
Lemma drop_old_none olds c t : drop_old c olds t = None -> c t = None.
Proof.
  revert c. induction olds as [|o olds IH]; intros c H; simpl in H; auto.
  apply IH in H. destruct (c o) as [lo|] eqn:Eo; auto. destruct (smem o lo); auto.
  unfold mset in H. destruct (String.eqb_spec t o); auto. discriminate.
Qed.
Lemma replace_inputs_spec g i news g' : replace_inputs g i news = Some g' ->
  exists n, heap g i = Some n /\ in_changed g g' i n news /\
    (forall t x, cons_in g t x -> ~ (In t (n_in n) /\ x = t) -> cons_in g' t x) /\
    (forall t, In t news -> cons_in g' t (n_name n)).
Proof.
  unfold replace_inputs. destruct (heap g i) as [n|] eqn:E; [|discriminate].
  intro H. set (g0 := set_consumers g (drop_old (consumers g) (n_in n))) in *.
  set (g1 := register_all g0 news (n_name n)) in *.
  assert (S : sbc g g1) by (eapply sbc_trans; [apply sbc_set_consumers|apply sbc_register_all]).
  assert (Hh : forall j, heap g1 j = heap g j) by (destruct S; auto).
  inversion H; subst g'; clear H. exists n. split; [auto|]. split; [|split].
  - destruct S as (_ & S2 & S3 & S4 & S5 & S6 & S7). unfold in_changed, set_heap. cbn.
    repeat split; auto. intro j. unfold hset. destruct (Nat.eqb j i); [reflexivity|apply Hh].
  - intros t x (l & El & Hx) N.
    change (cons_in g1 t x). unfold g1. apply cons_in_register_all. right.
    unfold cons_in, g0, set_consumers. cbn [consumers].
    destruct (drop_old (consumers g) (n_in n) t) as [l'|] eqn:Ed.
    + destruct (drop_old_spec _ _ _ _ Ed) as (l0 & E0 & K). exists l'. split; auto. apply K; auto. congruence.
    + apply drop_old_none in Ed. congruence.
  - intros t Ht. change (cons_in g1 t (n_name n)). unfold g1. apply cons_in_register_all. auto.
Qed.

(** * replace_all_inputs *)
Lemma in_changed_trans g g1 g2 i n ins1 ins2 :
  in_changed g g1 i n ins1 -> in_changed g1 g2 i (with_in n ins1) ins2 -> in_changed g g2 i n ins2.
Proof.
  intros (A1 & A2 & A3 & A4 & A5 & A6 & A7) (B1 & B2 & B3 & B4 & B5 & B6 & B7).
  unfold in_changed. split; [|intuition congruence].
  intro j. rewrite B1. unfold hset. destruct (Nat.eqb_spec j i) as [->|N].
  - reflexivity.
  - rewrite A1, hset_other by auto. reflexivity.
Qed.
Lemma in_changed_sbc_l g g1 g2 i n ins : sbc g g1 -> in_changed g1 g2 i n ins -> in_changed g g2 i n ins.
Proof.
  intros (A1 & A2 & A3 & A4 & A5 & A6 & A7) (B1 & B2 & B3 & B4 & B5 & B6 & B7).
  unfold in_changed. split; [|intuition congruence].
  intro j. rewrite B1. unfold hset. destruct (Nat.eqb j i); auto.
Qed.
Lemma in_changed_refl g i n : heap g i = Some n -> in_changed g g i n (n_in n).
Proof.
  intro E. unfold in_changed. split; [|repeat split].
  intro j. unfold hset. destruct (Nat.eqb_spec j i) as [->|]; auto. rewrite E. destruct n; reflexivity.
Qed.

Lemma nth_error_skipn_cons {A} k (l : list A) x : nth_error l k = Some x -> skipn k l = x :: skipn (S k) l.
Proof.
  revert l. induction k as [|k IH]; intros [|a l] H; simpl in *; try discriminate.
  - congruence.
  - apply IH in H. exact H.
Qed.
Lemma firstn_S {A} k (l : list A) x : nth_error l k = Some x -> firstn (S k) l = firstn k l ++ [x].
Proof.
  revert l. induction k as [|k IH]; intros [|a l] H; simpl in *; try discriminate.
  - congruence.
  - f_equal. now apply IH.
Qed.
Lemma list_set_split {A} k (l : list A) x y : nth_error l k = Some y ->
  list_set k x l = firstn k l ++ x :: skipn (S k) l.
Proof.
  revert l. induction k as [|k IH]; intros [|a l] H; simpl in *; try discriminate; auto.
  f_equal. now apply IH.
Qed.
Lemma firstn_list_set {A} k (l : list A) x : firstn k (list_set k x l) = firstn k l.
Proof. revert l. induction k as [|k IH]; intros [|a l]; simpl; auto. f_equal. apply IH. Qed.
Lemma skipn_list_set {A} k (l : list A) x : skipn (S k) (list_set k x l) = skipn (S k) l.
Proof.
  revert l. induction k as [|k IH]; intros [|a l]; simpl; auto.
  specialize (IH l). destruct l; auto.
Qed.
Lemma length_list_set {A} k (l : list A) x : length (list_set k x l) = length l.
Proof. revert l. induction k as [|k IH]; intros [|a l]; simpl; auto. Qed.
Lemma nth_error_list_set {A} k (l : list A) x y : nth_error l k = Some y -> nth_error (list_set k x l) k = Some x.
Proof. revert l. induction k as [|k IH]; intros [|a l] H; simpl in *; try discriminate; auto. Qed.

Lemma subst_in_id old new l : ~ In old l -> subst_in old new l = l.
Proof.
  intro H. unfold subst_in. rewrite <- (map_id l) at 2. apply map_ext_in. intros t Ht.
  destruct (String.eqb_spec t old); congruence.
Qed.

Lemma replace_slots_spec todo : forall g i n old new k g',
  old <> new -> heap g i = Some n -> length (n_in n) <= k + todo ->
  replace_slots g i old new k todo = Some g' ->
  in_changed g g' i n (firstn k (n_in n) ++ subst_in old new (skipn k (n_in n))) /\
  (In old (skipn k (n_in n)) -> forall t x, cons_in g' t x <->
     (t = new /\ x = n_name n) \/ (cons_in g t x /\ ~ (t = old /\ x = n_name n))) /\
  (~ In old (skipn k (n_in n)) -> g' = g).
Proof.
  induction todo as [|todo IH]; intros g i n old new k g' Hne E Hl H; cbn [replace_slots] in H.
  - inversion H; subst. rewrite skipn_all2, firstn_all2 by lia. simpl. rewrite app_nil_r.
    split; [now apply in_changed_refl|]. split; [intros []|auto].
  - rewrite E in H. destruct (nth_error (n_in n) k) as [t|] eqn:Et.
    2:{ inversion H; subst. apply nth_error_None in Et. rewrite skipn_all2, firstn_all2 by lia. simpl.
        rewrite app_nil_r. split; [now apply in_changed_refl|]. split; [intros []|auto]. }
    assert (Sk := nth_error_skipn_cons _ _ _ Et). assert (Fi := firstn_S _ _ _ Et).
    destruct (String.eqb_spec t old) as [->|Nt].
    + destruct (replace_input g i old new (Some k)) as [g1|] eqn:Er; [|discriminate].
      destruct (replace_input_spec _ _ _ _ _ _ Er) as (n1 & ins & E1 & -> & E2 & ->).
      assert (n1 = n) by congruence. subst n1. clear E1.
      destruct (fin_op_spec g i n old new (list_set k new (n_in n))) as [Sx K].
      set (g1 := fin_op g i n old new (list_set k new (n_in n))) in *.
      assert (Eh : heap g1 i = Some (with_in n (list_set k new (n_in n)))).
      { destruct Sx as (Sx & _). rewrite Sx. apply hset_same. }
      destruct (IH g1 i _ old new (S k) g' Hne Eh) as (I1 & I2 & I3).
      { simpl. rewrite length_list_set. lia. }
      { exact H. }
      cbn [n_in with_in n_name] in I1, I2, I3.
      rewrite skipn_list_set in I1, I2, I3.
      rewrite (firstn_S _ _ _ (nth_error_list_set k _ new _ Et)), firstn_list_set in I1.
      rewrite <- app_assoc in I1. cbn [app] in I1.
      rewrite Sk. cbn [subst_in map]. rewrite String.eqb_refl. split.
      { eapply in_changed_trans; eauto. }
      split; [|intro N; exfalso; apply N; left; auto]. intros _ t x.
      destruct (in_dec string_dec old (skipn (S k) (n_in n))) as [Hi|Hi].
      * rewrite (I2 Hi), K. split; [|tauto]. intros [A|[[A|A] B]]; auto.
      * rewrite (I3 Hi), K. tauto.
    + destruct (IH g i n old new (S k) g' Hne E ltac:(lia) H) as (I1 & I2 & I3).
      rewrite Sk. cbn [subst_in map]. destruct (String.eqb_spec t old) as [|_]; [congruence|].
      rewrite Fi, <- app_assoc in I1. split; [exact I1|]. split.
      * intros [A|A]; [congruence|]. auto.
      * intro N. apply I3. intro A. apply N. right. auto.
Qed.

(** state of the loop of replace_all_inputs: the nodes in [done] are rewritten *)
Definition rewired (old new : string) (done : list nat) (g g' : graph) : Prop :=
  next g' = next g /\ nodes g' = nodes g /\ by_name g' = by_name g /\ out2node g' = out2node g /\
  g_inputs g' = g_inputs g /\ g_outputs g' = g_outputs g /\
  (forall j, match heap g j with
             | None => heap g' j = None
             | Some n => heap g' j = Some (with_in n (if existsb (Nat.eqb j) done
                                                     then subst_in old new (n_in n) else n_in n))
             end).

Lemma with_in_id n : with_in n (n_in n) = n.
Proof. destruct n; reflexivity. Qed.

Lemma subst_in_idem old new l : subst_in old new (subst_in old new l) = subst_in old new l.
Proof.
  unfold subst_in. rewrite map_map. apply map_ext. intro t.
  destruct (String.eqb_spec t old) as [->|]; auto.
  - destruct (String.eqb new old); auto.
  - destruct (String.eqb_spec t old); congruence.
Qed.

Lemma rewired_refl old new g : rewired old new [] g g.
Proof. repeat split. intro j. cbn [existsb]. destruct (heap g j) eqn:E; auto. now rewrite with_in_id. Qed.

Lemma rewired_step old new done g g1 g2 i n :
  rewired old new done g g1 -> heap g1 i = Some n ->
  in_changed g1 g2 i n (subst_in old new (n_in n)) -> rewired old new (done ++ [i]) g g2.
Proof.
  intros (A1 & A2 & A3 & A4 & A5 & A6 & A7) E (B1 & B2 & B3 & B4 & B5 & B6 & B7).
  unfold rewired. repeat (split; [congruence|]). intro j. specialize (A7 j).
  rewrite B1. unfold hset. rewrite existsb_app. cbn [existsb]. rewrite orb_false_r.
  destruct (Nat.eqb_spec j i) as [->|N].
  - rewrite orb_true_r. destruct (heap g i) as [m|]; [|congruence].
    rewrite E in A7. inversion A7; subst n. cbn [with_in n_in n_name n_op n_payload n_out].
    destruct (existsb (Nat.eqb i) done); [rewrite subst_in_idem|]; reflexivity.
  - rewrite orb_false_r. exact A7.
Qed.

Lemma wf_rewired old new done g g' : wf g -> rewired old new done g g' -> wf g'.
Proof.
  intros [W1 W2 W3 W4 W5 W6 W7] (A1 & A2 & A3 & A4 & A5 & A6 & A7).
  assert (F : forall j m, node_at g' j m -> exists m', node_at g j m' /\ n_name m = n_name m' /\ n_out m = n_out m').
  { intros j m [A B]. specialize (A7 j). rewrite A2 in A. destruct (heap g j) as [m'|] eqn:E; [|congruence].
    exists m'. rewrite B in A7. inversion A7; subst. repeat split; auto. }
  assert (G : forall j m, node_at g j m -> exists m', node_at g' j m' /\ n_name m = n_name m' /\ n_out m = n_out m').
  { intros j m [A B]. specialize (A7 j). rewrite B in A7.
    eexists. split; [split; [rewrite A2; exact A|exact A7]|]. split; reflexivity. }
  constructor.
  - now rewrite A2.
  - intros j Hj. rewrite A2 in Hj. destruct (W2 j Hj) as (m & E). destruct (G j m (conj Hj E)) as (m' & [_ K] & _). eauto.
  - intros nm j. rewrite A3, W3. split.
    + intros (m & A & E). destruct (G j m A) as (m' & A' & E1 & _). exists m'. split; auto. congruence.
    + intros (m & A & E). destruct (F j m A) as (m' & A' & E1 & _). exists m'. split; auto. congruence.
  - intros j m o A Ho Ne. destruct (F j m A) as (m' & A' & E1 & E2). rewrite E1, A4. rewrite E2 in Ho.
    apply (W4 j m' o A' Ho Ne).
  - intros o nm E Ne. rewrite A4 in E. destruct (W5 o nm E Ne) as (j & m & A & E1 & E2).
    destruct (G j m A) as (m' & A' & E3 & E4). exists j, m'. rewrite <- E3, <- E4. auto.
  - intros j m E. rewrite A1. specialize (A7 j). destruct (heap g j) as [m'|] eqn:E'; [eauto|congruence].
  - intros j m A. destruct (F j m A) as (m' & A' & E1 & _). rewrite E1. eauto.
Qed.

Lemma replace_in_ops_spec ops : forall g0 done g old new g',
  wf g0 -> old <> new -> rewired old new done g0 g ->
  (forall i, In i ops -> In i (nodes g0)) ->
  replace_in_ops g ops old new = Some g' ->
  rewired old new (done ++ ops) g0 g' /\ (cmpl g -> cmpl g').
Proof.
  induction ops as [|i ops IH]; intros g0 done g old new g' W Hne R Hl H; cbn [replace_in_ops] in H.
  - inversion H; subst. rewrite app_nil_r. auto.
  - destruct (heap g i) as [n|] eqn:E; [|discriminate].
    destruct (smem old (n_in n) && smem new (n_out n)); [discriminate|].
    set (gr := register g new (n_name n)) in *.
    destruct (replace_slots gr i old new 0 (length (n_in n))) as [g1|] eqn:Es; [|discriminate].
    assert (Er : heap gr i = Some n) by exact E.
    destruct (replace_slots_spec _ gr i n old new 0 g1 Hne Er (le_n _) Es) as (S1 & S2 & S3).
    cbn [firstn app skipn] in S1, S2, S3.
    assert (S0 : in_changed g g1 i n (subst_in old new (n_in n))).
    { eapply in_changed_sbc_l; [apply sbc_register|exact S1]. }
    assert (R1 := rewired_step _ _ _ _ _ _ _ _ R E S0).
    assert (Wg := wf_rewired _ _ _ _ _ W R).
    assert (Hi : In i (nodes g)).
    { destruct R as (_ & R2 & _). rewrite R2. apply Hl. left. auto. }
    assert (C1 : cmpl g -> cmpl g1).
    { intros C j m t A Ht. apply (in_changed_node _ _ _ _ _ E S0) in A.
      assert (NJ : j <> i -> node_at g j m -> n_name m <> n_name n).
      { intros Nj A' En. apply Nj.
        assert (B1 : by_name g (n_name m) = Some j) by (apply (w_name _ Wg); eauto).
        assert (B2 : by_name g (n_name n) = Some i) by (apply (w_name _ Wg); exists n; repeat split; auto).
        rewrite En in B1. congruence. }
      destruct (in_dec string_dec old (n_in n)) as [Ho|Ho].
      - apply (S2 Ho). destruct A as [(-> & _ & ->)|[Nj A]].
        + cbn [with_in n_in n_name] in Ht |- *. apply subst_in_in in Ht. destruct Ht as [[-> _]|[N Ht]]; auto.
          right. split; [|tauto]. apply cons_in_register. right. apply (C i n t); auto. split; auto.
        + right. split; [apply cons_in_register; right; eapply C; eauto|].
          intros [-> En]. exact (NJ Nj A En).
      - rewrite (S3 Ho). apply cons_in_register. destruct A as [(-> & _ & ->)|[Nj A]].
        + cbn [with_in n_in n_name] in Ht |- *. rewrite subst_in_id in Ht by auto. right.
          apply (C i n t); auto. split; auto.
        + right. eapply C; eauto. }
    destruct (IH g0 (done ++ [i]) g1 old new g' W Hne R1) as [R2 C2].
    + intros j Hj. apply Hl. right. auto.
    + exact H.
    + rewrite <- app_assoc in R2. split; [exact R2|]. auto.
Qed.

Lemma found_nodes_in g names i : wf g -> (In i (found_nodes g names) <-> exists n, node_at g i n /\ In (n_name n) names).
Proof.
  intro W. induction names as [|x names IH]; cbn [found_nodes].
  - split; [intros []|]. intros (n & _ & []).
  - unfold get_node_by_name. destruct (by_name g x) as [j|] eqn:E.
    + simpl. rewrite IH. apply (w_name _ W) in E. destruct E as (m & A & En). split.
      * intros [->|(n & B & C)]; [exists m; split; auto; left; auto|exists n; split; auto; right; auto].
      * intros (n & B & [C|C]); [|right; eauto]. left. subst x.
        assert (B1 : by_name g (n_name n) = Some i) by (apply (w_name _ W); eauto).
        assert (B2 : by_name g (n_name m) = Some j) by (apply (w_name _ W); eauto). congruence.
    + rewrite IH. split.
      * intros (n & B & C). exists n. split; auto. right. auto.
      * intros (n & B & [C|C]); eauto. subst x.
        assert (B1 : by_name g (n_name n) = Some i) by (apply (w_name _ W); eauto). congruence.
Qed.

Lemma find_consumers_in g t i : wf g ->
  (In i (find_output_consumers g t) <-> exists n, node_at g i n /\ cons_in g t (n_name n) /\ In t (n_in n)).
Proof.
  intro W. unfold find_output_consumers. destruct (consumers g t) as [names|] eqn:E.
  - rewrite filter_In, (found_nodes_in _ _ _ W). split.
    + intros [(n & A & B) C]. exists n. destruct (heap g i) eqn:Eh; [|discriminate].
      assert (n0 = n) by (destruct A; congruence). subst. apply smem_in in C.
      split; auto. split; auto. exists names. auto.
    + intros (n & A & (l & El & B) & C). split.
      * exists n. split; auto. congruence.
      * destruct A as [_ A]. rewrite A. now apply smem_in.
  - split; [intros []|]. intros (n & A & (l & El & B) & C). congruence.
Qed.

Definition replace_targets (g : graph) (old : string) (ops : option (list nat)) : list nat :=
  match ops with
  | Some l => l
  | None => match consumers g old with Some names => found_nodes g names | None => [] end
  end.

Lemma replace_all_inputs_spec g old new ops g' :
  wf g -> (match ops with Some l => forall i, In i l -> In i (nodes g) | None => True end) ->
  replace_all_inputs g old new ops = Some g' ->
  (old = new /\ g' = g) \/
  (old <> new /\ exists l, rewired old new l g g' /\ (cmpl g -> cmpl g') /\
     l = replace_targets g old ops /\
     match ops with
     | Some l' => True
     | None => forall i n, node_at g i n -> cons_in g old (n_name n) -> In i l
     end).
Proof.
  intros W Hops H. unfold replace_all_inputs in H.
  destruct (String.eqb_spec old new) as [->|Hne]; [left; split; congruence|]. right. split; auto.
  set (g1 := match consumers g new with
             | Some _ => g
             | None => set_consumers g (mset new [] (consumers g))
             end) in *.
  assert (S : sbc g g1) by (unfold g1; destruct (consumers g new); [apply sbc_refl|apply sbc_set_consumers]).
  assert (C1 : forall t x, cons_in g1 t x <-> cons_in g t x).
  { intros t x. unfold g1. destruct (consumers g new) as [l|] eqn:E; [tauto|].
    unfold cons_in, set_consumers. cbn [consumers]. unfold mset. destruct (String.eqb_spec t new) as [->|]; [|tauto].
    split; intros (l & E' & Hx); [inversion E'; subst; destruct Hx|congruence]. }
  assert (W1 := wf_sbc _ _ S W).
  match type of H with replace_in_ops _ ?x _ _ = _ => set (l := x) in * end.
  assert (R0 : rewired old new [] g g1).
  { destruct S as (S1 & S2 & S3 & S4 & S5 & S6 & S7). repeat (split; [congruence|]). intro j.
    cbn [existsb]. rewrite S1. destruct (heap g j); auto. now rewrite with_in_id. }
  assert (Hl : forall i, In i l -> In i (nodes g)).
  { intros i Hi. unfold l in Hi. destruct ops as [l'|]; auto.
    destruct (consumers g1 old) as [names|]; [|destruct Hi].
    apply (found_nodes_in _ _ _ W1) in Hi. destruct Hi as (n & [A _] & _).
    destruct S as (_ & _ & S3 & _). congruence. }
  destruct (replace_in_ops_spec l g [] g1 old new g' W Hne R0 Hl H) as [R C].
  exists l. split; [exact R|]. split.
  - intro Cg. apply C. eapply cmpl_sbc; eauto. intros t x. apply C1.
  - split.
    { unfold l, replace_targets. destruct ops as [l'|]; auto.
      assert (Ec : consumers g1 old = consumers g old).
      { unfold g1. destruct (consumers g new); auto. unfold set_consumers. cbn [consumers]. now apply mset_other. }
      rewrite Ec. destruct (consumers g old) as [names|]; auto.
      destruct S as (_ & _ & _ & S4 & _). clear - S4. induction names as [|x names IH]; auto. cbn [found_nodes].
      unfold get_node_by_name. rewrite S4, IH. reflexivity. }
    unfold l. destruct ops as [l'|]; auto. intros i n A K.
    apply C1 in K. destruct K as (names & E & Hx). rewrite E. apply (found_nodes_in _ _ _ W1).
    exists n. split; auto. apply (node_at_sbc _ _ i n S). auto.
Qed.

(** * remove_input *)
Lemma in_remove_nth {A} k (l : list A) x : In x (remove_nth k l) -> In x l.
Proof.
  revert k. induction l as [|a l IH]; intros [|k] H; simpl in *; auto. destruct H; auto. right. eauto.
Qed.
Lemma index_of_nth t l k : index_of t l = Some k -> nth_error l k = Some t.
Proof.
  revert k. induction l as [|y l IH]; intros k H; simpl in H; [discriminate|].
  destruct (String.eqb_spec t y) as [->|].
  - inversion H; subst. reflexivity.
  - destruct (index_of t l) as [k'|]; [|discriminate]. inversion H; subst. simpl. auto.
Qed.
Lemma count_remove_nth t l k : nth_error l k = Some t ->
  count_occ string_dec l t = S (count_occ string_dec (remove_nth k l) t).
Proof.
  revert k. induction l as [|y l IH]; intros [|k] H; simpl in *; try discriminate.
  - inversion H; subst. destruct (string_dec t t); congruence.
  - apply IH in H. destruct (string_dec y t); rewrite H; reflexivity.
Qed.

Lemma remove_input_spec g i t idx g' : remove_input g i t idx = Some g' ->
  exists n, heap g i = Some n /\
   (g' = g \/
    exists k, nth_error (n_in n) k = Some t /\ in_changed g g' i n (remove_nth k (n_in n)) /\
      (forall t' x, x <> n_name n -> cons_in g t' x -> cons_in g' t' x) /\
      (forall t' x, t' <> t -> cons_in g t' x -> cons_in g' t' x) /\
      (idx = None -> ~ In t (remove_nth k (n_in n))) /\ (forall k', idx = Some k' -> k' = k)).
Proof.
  unfold remove_input. destruct (heap g i) as [n|] eqn:E; [|discriminate]. intro H. exists n. split; auto.
  destruct idx as [k|].
  - destruct (nth_error (n_in n) k) as [t'|] eqn:Et; [|discriminate].
    destruct (String.eqb_spec t' t) as [->|]; [|discriminate]. right. exists k. split; auto.
    set (g1 := match consumers g t with
               | Some l => if smem (n_name n) l then set_consumers g (mset t (srem (n_name n) l) (consumers g)) else g
               | None => g end) in *.
    assert (S : sbc g g1).
    { unfold g1. destruct (consumers g t); [destruct (smem _ _)|]; try apply sbc_refl. apply sbc_set_consumers. }
    assert (C : forall t' x, (x <> n_name n \/ t' <> t) -> cons_in g t' x -> cons_in g1 t' x).
    { intros t' x D (l' & E' & Hx). unfold g1. destruct (consumers g t) as [l|] eqn:El; [|exists l'; auto].
      destruct (smem (n_name n) l); [|exists l'; auto]. unfold cons_in, set_consumers. cbn [consumers].
      destruct (string_dec t' t) as [->|Nt].
      - rewrite mset_same. eexists. split; [reflexivity|]. apply srem_in. destruct D as [D|D]; [|congruence].
        split; auto. congruence.
      - rewrite mset_other by auto. eauto. }
    inversion H; subst g'. split.
    + eapply in_changed_sbc_l; [exact S|]. repeat split.
    + split; [intros t' x D; apply (C t' x); auto|]. split; [intros t' x D; apply (C t' x); auto|].
      split; [discriminate|]. intros k' K. congruence.
  - destruct (index_of t (n_in n)) as [k|] eqn:Ek; [|left; congruence].
    destruct (Nat.leb_spec (count_occ string_dec (n_in n) t) 1) as [L|]; [|discriminate].
    destruct (unregister g t (n_name n)) as [g1|] eqn:Eu; [|discriminate].
    destruct (unregister_spec _ _ _ _ Eu) as [S C]. inversion H; subst g'.
    right. exists k. apply index_of_nth in Ek. split; auto. split.
    { eapply in_changed_sbc_l; [exact S|]. repeat split. }
    split; [exact C|]. split.
    { intros t' x D (l' & E' & Hx). unfold unregister in Eu. destruct (consumers g t) as [l|] eqn:El; [|discriminate].
      inversion Eu; subst g1. change (cons_in (if smem t l then set_consumers g (mset t (srem (n_name n) l) (consumers g)) else g) t' x).
      destruct (smem t l); [|exists l'; auto].
      unfold cons_in, set_consumers. cbn [consumers]. rewrite mset_other by auto. eauto. }
    split; [|discriminate]. intros _ Hin.
    apply (count_occ_In string_dec) in Hin. assert (K := count_remove_nth _ _ _ Ek). lia.
Qed.

(** * set_output *)
Lemma del_keys_spec outs m m' : del_keys outs m = Some m' ->
  forall o, m' o = if smem o outs then None else m o.
Proof.
  revert m. induction outs as [|x outs IH]; intros m H o; simpl in H.
  - inversion H; subst. reflexivity.
  - change (smem o (x :: outs)) with (String.eqb o x || smem o outs).
    destruct (m x) eqn:E; [|discriminate]. rewrite (IH _ H). unfold mdel.
    destruct (String.eqb_spec o x) as [->|]; simpl; auto. destruct (smem x outs); reflexivity.
Qed.
Lemma add_keys_spec outs name m m' : add_keys outs name m = Some m' ->
  (forall o, m' o = if smem o outs then Some name else m o) /\ (forall o, In o outs -> m o = None).
Proof.
  revert m. induction outs as [|x outs IH]; intros m H; simpl in H.
  - inversion H; subst. split; [reflexivity|]. intros o [].
  - destruct (m x) eqn:E; [discriminate|]. destruct (IH _ H) as [I1 I2]. split.
    + intro o. rewrite I1. change (smem o (x :: outs)) with (String.eqb o x || smem o outs).
      unfold mset. destruct (String.eqb o x), (smem o outs); reflexivity.
    + intros o [<-|Ho]; auto. specialize (I2 o Ho). unfold mset in I2.
      destruct (String.eqb_spec o x); congruence.
Qed.

Lemma set_output_wf g i outs g' : wf g -> set_output g i outs = Some g' ->
  wf g' /\ consumers g' = consumers g /\
  exists n, node_at g i n /\ forall j m, node_at g' j m <->
     (j = i /\ m = mkNode (n_name n) (n_op n) (n_payload n) (n_in n) outs) \/ (j <> i /\ node_at g j m).
Proof.
  intros W H. unfold set_output in H. destruct (existsb (Nat.eqb i) (nodes g)) eqn:El; [|discriminate].
  change (live g i = true) in El. apply live_in in El.
  destruct (heap g i) as [n|] eqn:E; [|discriminate].
  destruct (del_keys (n_out n) (out2node g)) as [m1|] eqn:Ed; [|discriminate].
  destruct (add_keys outs (n_name n) m1) as [m2|] eqn:Ea; [|discriminate].
  inversion H; subst g'; clear H. assert (D := del_keys_spec _ _ _ Ed).
  destruct (add_keys_spec _ _ _ _ Ea) as [A1 A2].
  set (nn := mkNode (n_name n) (n_op n) (n_payload n) (n_in n) outs).
  set (g' := set_out2node _ m2).
  assert (An : node_at g i n) by (split; auto).
  assert (NA : forall j m, node_at g' j m <-> (j = i /\ m = nn) \/ (j <> i /\ node_at g j m)).
  { intros j m. unfold node_at, g', set_out2node, set_heap. cbn [nodes heap]. unfold hset.
    destruct (Nat.eqb_spec j i) as [->|N].
    - split; [intros [_ K]; inversion K; auto|]. intros [[_ ->]|[K _]]; [auto|congruence].
    - split; [intro K; right; auto|]. intros [[K _]|[_ K]]; [congruence|auto]. }
  split; [|split; [reflexivity|exists n; auto]].
  destruct W as [W1 W2 W3 W4 W5 W6 W7]. constructor.
  - exact W1.
  - intros j Hj. unfold g', set_out2node, set_heap. cbn [heap]. unfold hset. destruct (Nat.eqb j i); eauto.
  - intros nm j. change (by_name g' nm) with (by_name g nm). rewrite W3. split.
    + intros (m & A & En). destruct (Nat.eq_dec j i) as [->|N].
      * exists nn. assert (m = n) by (eapply node_at_fun; eauto). subst. split; auto. apply NA. auto.
      * exists m. split; auto. apply NA. auto.
    + intros (m & A & En). apply NA in A. destruct A as [[-> ->]|[N A]]; eauto.
  - intros j m o A Ho Ne. change (out2node g' o) with (m2 o). rewrite A1. apply NA in A.
    destruct A as [[-> ->]|[N A]].
    + cbn [n_out nn] in Ho. apply smem_in in Ho. rewrite Ho. reflexivity.
    + assert (K := W4 _ _ _ A Ho Ne).
      assert (Hn : smem o (n_out n) = false).
      { apply smem_false. intro Hi. assert (K' := W4 _ _ _ An Hi Ne). rewrite K in K'. inversion K' as [K2].
        apply N. assert (B1 : by_name g (n_name m) = Some j) by (apply W3; eauto).
        assert (B2 : by_name g (n_name n) = Some i) by (apply W3; eauto). rewrite K2 in B1. congruence. }
      assert (Hm : m1 o = Some (n_name m)) by (rewrite D, Hn; auto).
      destruct (smem o outs) eqn:Eo; [|auto]. apply smem_in in Eo. apply A2 in Eo. congruence.
  - intros o nm Eo Ne. change (m2 o = Some nm) in Eo. rewrite A1 in Eo. destruct (smem o outs) eqn:Em.
    + inversion Eo; subst. exists i, nn. split; [apply NA; auto|]. split; auto. now apply smem_in.
    + rewrite D in Eo. destruct (smem o (n_out n)) eqn:Em2; [discriminate|].
      destruct (W5 _ _ Eo Ne) as (j & m & A & F & G). exists j, m. split; auto. apply NA. right. split; auto.
      intros ->. assert (m = n) by (eapply node_at_fun; eauto). subst m. apply smem_in in G. congruence.
  - intros j m. unfold g', set_out2node, set_heap. cbn [heap next]. unfold hset.
    destruct (Nat.eqb_spec j i) as [->|]; eauto.
  - intros j m A. apply NA in A. destruct A as [[-> ->]|[N A]]; [apply (W7 i n An)|eauto].
Qed.

(** * reset_nodes *)
Lemma index_names_spec h ops name i :
  (forall j k n m, In j ops -> In k ops -> h j = Some n -> h k = Some m -> n_name n = n_name m -> j = k) ->
  (index_names h ops name = Some i <-> In i ops /\ exists n, h i = Some n /\ n_name n = name).
Proof.
  intro Hu. unfold index_names.
  assert (G : forall ops' m, (forall j, In j ops' -> In j ops) ->
     fold_left (fun m i => match h i with Some n => mset (n_name n) i m | None => m end) ops' m name =
     match find (fun j => match h j with Some n => String.eqb (n_name n) name | None => false end) ops' with
     | Some j => Some j | None => m name end).
  { induction ops' as [|j ops' IH]; intros m Hs; [reflexivity|]. cbn [fold_left find].
    rewrite IH by (intros; apply Hs; right; auto).
    destruct (h j) as [n|] eqn:E; auto. destruct (String.eqb_spec (n_name n) name) as [En|Nn].
    - destruct (find _ ops') as [k|] eqn:F.
      + apply find_some in F. destruct F as [Hk F]. destruct (h k) as [p|] eqn:Ek; [|discriminate].
        apply String.eqb_eq in F. f_equal. symmetry.
        apply (Hu j k n p); auto; try (apply Hs; [left|right]; auto; fail). { apply Hs; left; auto. } { apply Hs; right; auto. } congruence.
      + rewrite <- En. apply mset_same.
    - destruct (find _ ops'); auto. apply mset_other. congruence. }
  rewrite G by auto. destruct (find _ ops) as [j|] eqn:F.
  - apply find_some in F. destruct F as [Hj F]. destruct (h j) as [p|] eqn:Ej; [|discriminate].
    apply String.eqb_eq in F. split.
    + intro K. inversion K; subst. split; eauto.
    + intros (Hi & n & En & Nn). f_equal. apply (Hu j i p n); auto. congruence.
  - split; [discriminate|]. intros (Hi & n & En & Nn). assert (K := find_none _ _ F i Hi). cbn in K.
    rewrite En in K. apply String.eqb_neq in K. congruence.
Qed.

Lemma reset_loop_spec ops : forall g g', reset_loop g ops = Some g' ->
  (forall j, heap g' j = heap g j) /\ next g' = next g /\ nodes g' = nodes g /\ by_name g' = by_name g /\
  g_inputs g' = g_inputs g /\ g_outputs g' = g_outputs g /\
  (forall o, out2node g' o = out2node g o \/
      exists i n, In i ops /\ heap g i = Some n /\ In o (n_out n) /\ out2node g' o = Some (n_name n)) /\
  (forall o i n, In i ops -> heap g i = Some n -> In o (n_out n) ->
      exists j m, In j ops /\ heap g j = Some m /\ In o (n_out m) /\ out2node g' o = Some (n_name m)) /\
  (forall t x, cons_in g' t x <-> cons_in g t x \/
      exists i n, In i ops /\ heap g i = Some n /\ In t (n_in n) /\ x = n_name n).
Proof.
  induction ops as [|i ops IH]; intros g g' H; cbn [reset_loop] in H.
  - inversion H; subst. repeat split; auto.
    + intros o i n [].
    + intros [K|(i & n & [] & _)]; auto.
  - destruct (heap g i) as [n|] eqn:E; [|discriminate].
    set (gm := set_out2node g (fold_left (fun m o => mset o (n_name n) m) (n_out n) (out2node g))) in *.
    set (g1 := register_all gm (n_in n) (n_name n)) in *.
    destruct (IH _ _ H) as (I1 & I2 & I3 & I4 & I5 & I6 & I7 & I8 & I9).
    assert (S : sbc gm g1) by apply sbc_register_all.
    destruct S as (S1 & S2 & S3 & S4 & S5 & S6 & S7).
    assert (Hh : forall j, heap g1 j = heap g j) by (intro j; rewrite S1; reflexivity).
    assert (Ho : forall o, out2node g1 o = if smem o (n_out n) then Some (n_name n) else out2node g o).
    { intro o. rewrite S5. unfold gm, set_out2node. cbn [out2node]. apply fold_mset_out. }
    split; [intro j; rewrite I1; apply Hh|]. split; [rewrite I2, S2; reflexivity|].
    split; [rewrite I3, S3; reflexivity|]. split; [rewrite I4, S4; reflexivity|].
    split; [rewrite I5, S6; reflexivity|]. split; [rewrite I6, S7; reflexivity|].
    split; [|split].
    + intro o. destruct (I7 o) as [K|(j & m & A & B & C & D)].
      * rewrite Ho in K. destruct (smem o (n_out n)) eqn:Em; [|auto]. right. exists i, n.
        apply smem_in in Em. simpl. auto.
      * right. exists j, m. rewrite Hh in B. simpl. auto.
    + intros o j m [<-|Hj] Ej Hm.
      * assert (m = n) by congruence. subst m.
        destruct (I7 o) as [K|(j & m & A & B & C & D)].
        -- exists i, n. apply smem_in in Hm as Hm'. rewrite K, Ho, Hm'. simpl. auto.
        -- exists j, m. rewrite Hh in B. simpl. auto.
      * destruct (I8 o j m Hj) as (k & p & A & B & C & D); auto. { rewrite Hh; auto. }
        exists k, p. rewrite Hh in B. simpl. auto.
    + intros t x. rewrite I9. unfold g1. rewrite cons_in_register_all.
      change (cons_in gm t x) with (cons_in g t x). split.
      * intros [[[A B]|A]|(j & m & A & B & C)]; auto.
        -- right. exists i, n. simpl. auto.
        -- right. exists j, m. change (heap g1 j = Some m) in B. rewrite Hh in B. simpl. auto.
      * intros [A|(j & m & [<-|A] & B & C & D)]; auto.
        -- left. left. rewrite E in B. inversion B; subst. auto.
        -- right. exists j, m. change (register_all gm (n_in n) (n_name n)) with g1. rewrite Hh. auto.
Qed.

Lemma nodupb_NoDup l : nodupb l = true -> NoDup l.
Proof.
  induction l as [|x l IH]; simpl; [constructor|]. intro H. apply andb_prop in H. destruct H as [A B].
  constructor; auto. intro K. apply negb_true_iff in A.
  assert (T : existsb (Nat.eqb x) l = true) by (apply existsb_exists; exists x; split; auto; apply Nat.eqb_refl).
  congruence.
Qed.

Lemma reset_nodes_spec g ops g' : wf g -> (forall i, In i ops -> In i (nodes g)) -> NoDup ops ->
  reset_nodes g ops = Some g' -> wf g' /\ cmpl g' /\ nodes g' = ops /\ (forall j, heap g' j = heap g j).
Proof.
  intros W Hs Hn H. unfold reset_nodes in H.
  match type of H with match reset_loop ?x _ with _ => _ end = _ => set (g0 := x) in * end.
  destruct (reset_loop g0 ops) as [g1|] eqn:E; [|discriminate].
  destruct (_ && _); [|discriminate]. inversion H; subst g'; clear H.
  destruct (reset_loop_spec _ _ _ E) as (I1 & I2 & I3 & I4 & I5 & I6 & I7 & I8 & I9).
  assert (NA : forall j m, node_at g1 j m <-> In j ops /\ heap g j = Some m).
  { intros j m. unfold node_at. rewrite I3, I1. cbn [nodes heap g0]. tauto. }
  assert (Hu : forall j k n m, In j ops -> In k ops -> heap g j = Some n -> heap g k = Some m -> n_name n = n_name m -> j = k).
  { intros j k n m Hj Hk Ej Ek En.
    assert (B1 : by_name g (n_name n) = Some j) by (apply (w_name _ W); exists n; repeat split; auto).
    assert (B2 : by_name g (n_name m) = Some k) by (apply (w_name _ W); exists m; repeat split; auto). congruence. }
  split; [|split; [|split]].
  - constructor.
    + rewrite I3. exact Hn.
    + intros j Hj. rewrite I3 in Hj. rewrite I1. apply (w_live _ W). auto.
    + intros nm j. rewrite I4. cbn [by_name g0]. rewrite (index_names_spec _ _ _ _ Hu). split.
      * intros (A & n & B & C). exists n. split; auto. apply NA. auto.
      * intros (n & A & C). apply NA in A. destruct A. split; eauto.
    + intros j n o A Ho Ne. apply NA in A. destruct A as [A B].
      destruct (I8 o j n A B Ho) as (k & m & C & D & F & G). rewrite G. f_equal.
      assert (K1 := w_out _ W j n o (conj (Hs _ A) B) Ho Ne).
      assert (K2 := w_out _ W k m o (conj (Hs _ C) D) F Ne). congruence.
    + intros o nm Eo Ne. destruct (I7 o) as [K|(j & n & A & B & C & D)].
      * rewrite K in Eo. discriminate.
      * exists j, n. rewrite D in Eo. inversion Eo; subst. split; [apply NA; auto|]. auto.
    + intros j m Ej. rewrite I1 in Ej. rewrite I2. apply (w_next _ W j m Ej).
    + intros j m A. apply NA in A. destruct A as [A B]. apply (w_named _ W j m). split; auto.
  - intros j m t A Ht. apply NA in A. destruct A as [A B]. apply I9. right. exists j, m. auto.
  - exact I3.
  - exact I1.
Qed.

(** * histories *)
Lemma wf_same_fields g ins outs :
  wf g -> wf (mkGraph (heap g) (next g) (nodes g) (by_name g) (out2node g) (consumers g) ins outs).
Proof. intros [W1 W2 W3 W4 W5 W6 W7]. constructor; auto. Qed.

Lemma wf_empty : wf empty_graph.
Proof.
  constructor; cbn.
  - constructor.
  - intros i [].
  - intros name i. split; [discriminate|]. intros (n & [[] _] & _).
  - intros i n o [[] _].
  - intros o name H. discriminate.
  - intros i n H. discriminate.
  - intros i n [[] _].
Qed.

Lemma apply_edit_wf g e g' : wf g -> named e -> apply_edit g e = Some g' -> wf g'.
Proof.
  intros W N H. destruct e; cbn [apply_edit named] in *.
  - destruct (make_node g name op payload ins outs) as [[g1 i]|] eqn:E; [|discriminate].
    inversion H; subst. eapply make_node_spec; eauto.
  - destruct (remove_node_spec _ _ _ W H) as (i & n & _ & _ & K & _). exact K.
  - destruct (live g i) eqn:L; [|discriminate].
    destruct (replace_input_spec _ _ _ _ _ _ H) as (n & ins & E & -> & _).
    eapply in_changed_wf; eauto. apply fin_op_spec.
  - destruct (live g i) eqn:L; [|discriminate].
    destruct (replace_inputs_spec _ _ _ _ H) as (n & E & S & _). eapply in_changed_wf; eauto.
  - destruct (match ops with Some l => forallb (live g) l | None => true end) eqn:L; [|discriminate].
    destruct (replace_all_inputs_spec g old new ops g' W) as [[_ ->]|(_ & l & R & _)]; auto.
    + destruct ops as [l|]; auto. intros i Hi. rewrite forallb_forall in L. apply live_in. auto.
    + eapply wf_rewired; eauto.
  - destruct (live g i) eqn:L; [|discriminate].
    destruct (remove_input_spec _ _ _ _ _ H) as (n & E & [->|(k & _ & S & _)]); auto.
    eapply in_changed_wf; eauto.
  - destruct (set_output_wf _ _ _ _ W H) as [K _]. exact K.
  - destruct (forallb (live g) ops && nodupb ops) eqn:L; [|discriminate]. apply andb_prop in L. destruct L as [L1 L2].
    assert (Hs : forall i, In i ops -> In i (nodes g)).
    { intros i Hi. rewrite forallb_forall in L1. apply live_in. auto. }
    destruct (reset_nodes_spec g ops g' W Hs (nodupb_NoDup _ L2) H) as (R & _). exact R.
  - destruct (live g i); [|discriminate]. inversion H; subst. now apply wf_same_fields.
  - destruct (out2node g o); [|discriminate]. destruct (smem o (g_outputs g)); [discriminate|].
    inversion H; subst. now apply wf_same_fields.
Qed.

Lemma run_wf es : forall g g', wf g -> Forall named es -> run g es = Some g' -> wf g'.
Proof.
  induction es as [|e es IH]; intros g g' W N H; simpl in H.
  - inversion H; subst. auto.
  - destruct (apply_edit g e) as [g1|] eqn:E; [|discriminate]. inversion N; subst.
    apply (IH g1); auto. eapply apply_edit_wf; eauto.
Qed.

Lemma apply_edit_cmpl g e g' : wf g -> cmpl g -> named e -> clean g e -> apply_edit g e = Some g' -> cmpl g'.
Proof.
  intros W C N K H. destruct e; cbn [apply_edit named clean] in *.
  - destruct (make_node g name op payload ins outs) as [[g1 i]|] eqn:E; [|discriminate].
    inversion H; subst. cbn [fst]. destruct (make_node_spec _ _ _ _ _ _ _ _ W N E) as (W' & Ei & Nd & Hp & Ci).
    intros j m t [A B] Ht. apply Ci. rewrite Nd in A. rewrite Hp in B. unfold hset in B.
    destruct (Nat.eqb_spec j i) as [->|Nj].
    + inversion B; subst m. auto.
    + right. apply (C j m t); auto. split; auto. apply in_app_or in A. destruct A as [A|[A|[]]]; auto. congruence.
  - destruct (remove_node_spec _ _ _ W H) as (i & n & A & En & W' & NA & Hh & _ & _ & Ci & _).
    intros j m t B Ht. apply NA in B. destruct B as [B Nj]. apply Ci; [|eapply C; eauto].
    intro Em. apply Nj.
    assert (B1 : by_name g (n_name m) = Some j) by (apply (w_name _ W); eauto).
    assert (B2 : by_name g (n_name n) = Some i) by (apply (w_name _ W); eauto). congruence.
  - destruct (live g i) eqn:L; [|discriminate]. apply live_in in L.
    destruct (replace_input_spec _ _ _ _ _ _ H) as (n & ins & E & -> & Hi).
    apply fin_op_cmpl; auto.
    + destruct idx as [k|].
      * destruct Hi as [_ ->]. intros t Ht. now apply in_list_set in Ht.
      * subst ins. intros t Ht. apply subst_in_in in Ht. tauto.
    + destruct idx as [k|].
      * destruct Hi as [_ ->]. intro Ne. apply K; auto.
      * subst ins. intros Ne Ht. apply subst_in_in in Ht. tauto.
  - destruct (live g i) eqn:L; [|discriminate]. apply live_in in L.
    destruct (replace_inputs_spec _ _ _ _ H) as (n & E & S & C1 & C2).
    intros j m t A Ht. apply (in_changed_node _ _ _ _ _ E S) in A. destruct A as [(-> & _ & ->)|[Nj A]].
    + apply C2. exact Ht.
    + apply C1; [eapply C; eauto|]. intros [Hi Em]. apply Nj. subst t. eapply K; eauto.
  - destruct (match ops with Some l => forallb (live g) l | None => true end) eqn:L; [|discriminate].
    destruct (replace_all_inputs_spec g old new ops g' W) as [[_ ->]|(_ & l & R & Cc & _)]; auto.
    destruct ops as [l|]; auto. intros i Hi. rewrite forallb_forall in L. apply live_in. auto.
  - destruct (live g i) eqn:L; [|discriminate]. apply live_in in L.
    destruct (remove_input_spec _ _ _ _ _ H) as (n & E & [->|(k & Et & S & C1 & C2 & Ni & Ki)]); auto.
    intros j m u A Hu. apply (in_changed_node _ _ _ _ _ E S) in A. destruct A as [(-> & _ & ->)|[Nj A]].
    + cbn [with_in n_in n_name] in *.
      assert (Nu : u <> t).
      { intros ->. destruct idx as [k'|].
        - specialize (Ki k' eq_refl). subst k'. eapply K; eauto.
        - apply Ni; auto. }
      apply C2; auto. apply (C i n u); [split; auto|]. eapply in_remove_nth; eauto.
    + apply C1; [|eapply C; eauto]. intro Em. apply Nj.
      assert (B1 : by_name g (n_name m) = Some j) by (apply (w_name _ W); eauto).
      assert (B2 : by_name g (n_name n) = Some i) by (apply (w_name _ W); exists n; repeat split; auto). congruence.
  - destruct (set_output_wf _ _ _ _ W H) as (W' & Ec & n & A & NA).
    intros j m t B Ht. unfold cons_in. rewrite Ec. apply NA in B. destruct B as [[-> ->]|[Nj B]].
    + apply (C i n t); auto.
    + apply (C j m t); auto.
  - destruct (forallb (live g) ops && nodupb ops) eqn:L; [|discriminate]. apply andb_prop in L. destruct L as [L1 L2].
    assert (Hs : forall i, In i ops -> In i (nodes g)).
    { intros i Hi. rewrite forallb_forall in L1. apply live_in. auto. }
    destruct (reset_nodes_spec g ops g' W Hs (nodupb_NoDup _ L2) H) as (_ & R & _). exact R.
  - destruct (live g i); [|discriminate]. inversion H; subst. exact C.
  - destruct (out2node g o); [|discriminate]. destruct (smem o (g_outputs g)); [discriminate|].
    inversion H; subst. exact C.
Qed.

Lemma clean_run_inv g es g' : clean_run g es g' -> Forall named es -> wf g -> cmpl g -> wf g' /\ cmpl g'.
Proof.
  induction 1 as [g|g e g1 es g2 K A R IH]; intros N W C; auto. inversion N; subst.
  apply IH; auto. - eapply apply_edit_wf; eauto. - eapply apply_edit_cmpl; eauto.
Qed.
Lemma cmpl_empty : cmpl empty_graph. Proof. intros i n t [[] _]. Qed.

Lemma wf_lookups g : wf g -> lookups_consistent g.
Proof.
  intro W. assert (D : forall i j n m, node_at g i n -> node_at g j m -> n_name n = n_name m -> i = j).
  { intros i j n m A B E.
    assert (B1 : by_name g (n_name n) = Some i) by (apply (w_name _ W); eauto).
    assert (B2 : by_name g (n_name m) = Some j) by (apply (w_name _ W); eauto). congruence. }
  constructor.
  - apply (w_nodup _ W).
  - intros i Hi. destruct (w_live _ W i Hi) as (n & E). exists n. split; auto.
  - apply (w_name _ W).
  - intros o i Ne. unfold get_node_by_output. split.
    + destruct (out2node g o) as [nm|] eqn:E; [|discriminate].
      destruct (String.eqb_spec nm "") as [->|]; [discriminate|]. intro B.
      destruct (w_outinv _ W o nm E Ne) as (j & m & A & En & Ho).
      assert (B1 : by_name g nm = Some j) by (apply (w_name _ W); eauto).
      assert (i = j) by congruence. subst j. eauto.
    + intros (n & A & Ho). rewrite (w_out _ W _ _ _ A Ho Ne).
      destruct (String.eqb_spec (n_name n) "") as [E|_].
      * exfalso. apply (w_named _ W i n A E).
      * apply (w_name _ W). eauto.
  - exact D.
  - intros i j n m o A B Ne Ho Ho'. apply (D i j n m A B).
    assert (K1 := w_out _ W _ _ _ A Ho Ne). assert (K2 := w_out _ W _ _ _ B Ho' Ne). congruence.
Qed.
Lemma wf_consumers_sound g : wf g -> consumers_sound g.
Proof. intros W t i H. apply (find_consumers_in _ _ _ W) in H. destruct H as (n & A & _ & B). eauto. Qed.
Lemma cmpl_consumers g : wf g -> cmpl g -> consumers_complete g.
Proof. intros W C t i n A H. apply (find_consumers_in _ _ _ W). exists n. split; auto. split; auto. eapply C; eauto. Qed.

Lemma rewired_effect old new l g g' : rewired old new l g g' ->
  same_except_inputs g g' /\
  forall i n, node_at g i n -> exists n', node_at g' i n' /\
    n_in n' = (if existsb (Nat.eqb i) l then subst_in old new (n_in n) else n_in n).
Proof.
  intros (A1 & A2 & A3 & A4 & A5 & A6 & A7). split.
  - unfold same_except_inputs, get_node_by_output, get_node_by_name. rewrite A3, A4.
    repeat (split; [congruence || auto|]). intros i n [A B]. specialize (A7 i). rewrite B in A7.
    eexists. split; [split; [rewrite A2; exact A|exact A7]|]. repeat split.
  - intros i n [A B]. specialize (A7 i). rewrite B in A7.
    eexists. split; [split; [rewrite A2; exact A|exact A7]|]. reflexivity.
Qed.
