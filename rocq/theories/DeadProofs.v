From Coq Require Import String List Bool Arith Lia.
From Coq Require Import Permutation.
From Verif Require Import FGraph FGraphProofs FGraphSpec ExecSpec IdentityProofs ApplyOptProofs ExecProofs DeadModel DeadSpec.
Import ListNotations.
Local Open Scope string_scope.
Local Open Scope list_scope.

(** ** the worklist *)
Definition uniq_names (g : fgraph) : Prop := NoDup (map f_name (f_nodes g)).
Lemma nm_inj g n m : uniq_names g -> In n (f_nodes g) -> In m (f_nodes g) -> f_name n = f_name m -> n = m.
Proof.
  unfold uniq_names. generalize (f_nodes g) as l. induction l as [|k l IH]; cbn; [tauto|].
  intros ND Hn Hm E. inversion ND as [|? ? Hni ND']; subst.
  destruct Hn as [<-|Hn], Hm as [<-|Hm]; auto.
  - exfalso. apply Hni. rewrite E. now apply in_map.
  - exfalso. apply Hni. rewrite <- E. now apply in_map.
Qed.
Lemma has_in g n l : uniq_names g -> In n (f_nodes g) -> incl l (f_nodes g) -> (has n l = true <-> In n l).
Proof.
  intros U Hn Hl. unfold has. rewrite existsb_exists. split.
  - intros (m & Hm & E). apply String.eqb_eq in E. rewrite (nm_inj g n m); auto.
  - intro H. exists n. split; auto. apply String.eqb_refl.
Qed.
Lemma has_false g n l : uniq_names g -> In n (f_nodes g) -> incl l (f_nodes g) -> (has n l = false <-> ~ In n l).
Proof. intros. rewrite <- (has_in g n l) by auto. destruct (has n l); split; congruence. Qed.
Lemma producer_in g t n : producer g t = Some n -> In n (f_nodes g) /\ In t (f_out n).
Proof. unfold producer. intro H. apply find_some in H. rewrite mem_in in H. exact H. Qed.

Section Work.
Variable g : fgraph.
Hypothesis U : uniq_names g.
Notation reads n := (f_in n ++ implicit_inputs n).

Lemma add_inputs_spec ts : forall res todo, incl res (f_nodes g) -> incl todo (f_nodes g) ->
  NoDup todo -> (forall n, In n todo -> ~ In n res) ->
  let todo' := add_inputs g ts res todo in
  incl todo' (f_nodes g) /\ NoDup todo' /\ (forall n, In n todo' -> ~ In n res) /\ incl todo todo' /\
  (forall t m, In t ts -> producer g t = Some m -> In m res \/ In m todo') /\
  (forall m, In m todo' -> In m todo \/ exists t, In t ts /\ producer g t = Some m).
Proof.
  induction ts as [|t ts IH]; intros res todo Hr Ht ND D; cbn [add_inputs].
  - cbn. refine (conj Ht (conj ND (conj D (conj (incl_refl _) (conj _ _))))); [intros t m []|auto].
  - destruct (producer g t) as [m|] eqn:E.
    + destruct (producer_in _ _ _ E) as [Hm _].
      destruct (has m res || has m todo) eqn:B.
      * destruct (IH res todo Hr Ht ND D) as (A1 & A2 & A3 & A4 & A5 & A6).
        refine (conj A1 (conj A2 (conj A3 (conj A4 (conj _ _))))).
        -- intros t' m' [<-|Ht'] E'; [|eauto]. rewrite E in E'. injection E' as <-.
           apply orb_true_iff in B. destruct B as [B|B]; apply (has_in g) in B; auto.
        -- intros k Hk. destruct (A6 k Hk) as [|(t' & X & Y)]; auto. right. exists t'. split; auto. now right.
      * apply orb_false_iff in B. destruct B as [B1 B2]. apply (has_false g) in B1; auto. apply (has_false g) in B2; auto.
        destruct (IH res (m :: todo)) as (A1 & A2 & A3 & A4 & A5 & A6); auto.
        -- intros k [<-|Hk]; auto.
        -- constructor; auto.
        -- intros k [<-|Hk]; auto.
        -- refine (conj A1 (conj A2 (conj A3 (conj _ (conj _ _))))); [intros k Hk; apply A4; now right| |].
           ++ intros t' m' [<-|Ht'] E'; [|eauto]. rewrite E in E'. injection E' as <-. right. apply A4. now left.
           ++ intros k Hk. destruct (A6 k Hk) as [[<-|X]|(t' & X & Y)]; auto.
              ** right. exists t. split; auto. now left.
              ** right. exists t'. split; auto. now right.
    + destruct (IH res todo Hr Ht ND D) as (A1 & A2 & A3 & A4 & A5 & A6).
      refine (conj A1 (conj A2 (conj A3 (conj A4 (conj _ _))))).
      * intros t' m' [<-|Ht'] E'; [congruence|eauto].
      * intros k Hk. destruct (A6 k Hk) as [|(t' & X & Y)]; auto. right. exists t'. split; auto. now right.
Qed.

(** reachable from a starting set by following producers *)
Inductive reach (S : fnode -> Prop) : fnode -> Prop :=
| reach0 n : S n -> reach S n
| reachS n m t : reach S m -> In t (reads m) -> producer g t = Some n -> reach S n.

Lemma extract_spec S fuel : forall todo res,
  incl res (f_nodes g) -> incl todo (f_nodes g) -> NoDup todo -> NoDup res -> (forall n, In n todo -> ~ In n res) ->
  (forall n, In n res \/ In n todo -> reach S n) ->
  (forall n t m, In n res -> In t (reads n) -> producer g t = Some m -> In m res \/ In m todo) ->
  length (f_nodes g) <= fuel + length res ->
  let out := extract fuel g todo res in
  incl out (f_nodes g) /\ incl res out /\ incl todo out /\ (forall n, In n out -> reach S n) /\
  (forall n t m, In n out -> In t (reads n) -> producer g t = Some m -> In m out).
Proof.
  induction fuel as [|fuel IH]; intros todo res Hr Ht NDt NDr D R C L.
  - assert (todo = []) as ->.
    { destruct todo as [|n todo]; auto. exfalso.
      assert (H : length (n :: res) <= length (f_nodes g)).
      { apply NoDup_incl_length.
        - constructor; auto. apply D. now left.
        - intros k [<-|Hk]; auto. apply Ht. now left. }
      cbn in H. lia. }
    cbn. refine (conj Hr (conj (incl_refl _) (conj _ (conj _ _)))); [intros k []|auto|]. intros n t m Hn Htm E. destruct (C n t m Hn Htm E) as [|[]]; auto.
  - destruct todo as [|n todo].
    + cbn. refine (conj Hr (conj (incl_refl _) (conj _ (conj _ _)))); [intros k []|auto|]. intros n t m Hn Htm E. destruct (C n t m Hn Htm E) as [|[]]; auto.
    + cbn [extract].
      inversion NDt as [|? ? Hni NDt']; subst.
      assert (Hn : In n (f_nodes g)) by (apply Ht; now left).
      assert (Hnr : ~ In n res) by (apply D; now left).
      destruct (add_inputs_spec (reads n) (n :: res) todo) as (A1 & A2 & A3 & A4 & A5 & A6).
      * intros k [<-|Hk]; auto.
      * intros k Hk. apply Ht. now right.
      * auto.
      * intros k Hk [<-|Hk']; [auto|]. apply (D k); auto. now right.
      * destruct (IH (add_inputs g (reads n) (n :: res) todo) (n :: res)) as (B1 & B2 & B3 & B4 & B5).
        -- intros k [<-|Hk]; auto.
        -- exact A1.
        -- exact A2.
        -- constructor; auto.
        -- exact A3.
        -- intros k [[<-|Hk]|Hk].
           ++ apply R. right; now left.
           ++ apply R. auto.
           ++ destruct (A6 k Hk) as [X|(t & X & Y)].
              ** apply R. right; now right.
              ** eapply reachS; [|exact X|exact Y]. apply R. right; now left.
        -- intros k t m [<-|Hk] Htm E.
           ++ eauto.
           ++ destruct (C k t m Hk Htm E) as [X|[<-|X]].
              ** left; now right.
              ** left; now left.
              ** right. apply A4. exact X.
        -- cbn. lia.
        -- split; [exact B1|]. split; [intros k Hk; apply B2; now right|]. split.
           ++ intros k [<-|Hk]; [apply B2; now left|]. apply B3. apply A4. exact Hk.
           ++ split; [exact B4|exact B5].
Qed.

Lemma extract_outs_spec outs :
  let K := extract_sub_graph_nodes g outs in
  incl K (f_nodes g) /\ (forall o n, In o outs -> producer g o = Some n -> In n K) /\
  (forall n t m, In n K -> In t (reads n) -> producer g t = Some m -> In m K) /\
  (forall n, In n K -> reach (fun n => exists o, In o outs /\ producer g o = Some n) n).
Proof.
  cbn. unfold extract_sub_graph_nodes.
  assert (H : forall o, In o outs -> forall n, producer g o = Some n ->
     let out := extract_one g o in incl out (f_nodes g) /\ In n out /\
       (forall n, In n out -> reach (fun n => exists o, In o outs /\ producer g o = Some n) n) /\
       (forall n t m, In n out -> In t (reads n) -> producer g t = Some m -> In m out)).
  { intros o Ho n E. unfold extract_one. rewrite E.
    destruct (producer_in _ _ _ E) as [Hn _].
    destruct (extract_spec (fun n => exists o, In o outs /\ producer g o = Some n) (length (f_nodes g)) [n] []) as (B1 & B2 & B3 & B4 & B5).
    - intros k [].
    - intros k [<-|[]]. auto.
    - constructor; [intros []|constructor].
    - constructor.
    - intros k _ [].
    - intros k [[]|[<-|[]]]. constructor. eauto.
    - intros k t m [].
    - lia.
    - split; [exact B1|]. split; [apply B3; now left|]. split; [exact B4|exact B5]. }
  assert (H0 : forall o n, In n (extract_one g o) -> exists m, producer g o = Some m).
  { intros o n Hn. unfold extract_one in Hn. destruct (producer g o) as [m|]; [eauto|destruct Hn]. }
  repeat split.
  - intros n Hn. apply in_concat in Hn. destruct Hn as (l & Hl & Hn). apply in_map_iff in Hl. destruct Hl as (o & <- & Ho).
    destruct (H0 o n Hn) as (m & E). destruct (H o Ho m E) as (B1 & _). apply B1. exact Hn.
  - intros o n Ho E. apply in_concat. exists (extract_one g o). split; [now apply in_map|]. apply (H o Ho n E).
  - intros n t m Hn Ht E. apply in_concat in Hn. destruct Hn as (l & Hl & Hn). apply in_map_iff in Hl. destruct Hl as (o & <- & Ho).
    destruct (H0 o n Hn) as (k & Ek). destruct (H o Ho k Ek) as (_ & _ & _ & B).
    apply in_concat. exists (extract_one g o). split; [now apply in_map|]. exact (B n t m Hn Ht E).
  - intros n Hn. apply in_concat in Hn. destruct Hn as (l & Hl & Hn). apply in_map_iff in Hl. destruct Hl as (o & <- & Ho).
    destruct (H0 o n Hn) as (k & Ek). destruct (H o Ho k Ek) as (_ & _ & B & _). exact (B n Hn).
Qed.
End Work.

(** ** implicit inputs are the free names *)
Lemma prods_alldefs :
  (forall n x, x <> "" -> (In x (prods_node n) <-> In x (alldefs_node n))) /\
  (forall g x, x <> "" -> (In x (prods g) <-> In x (alldefs g))).
Proof.
  apply fnode_fgraph_ind.
  - intros nm op dom at_ ins outs bodies IH x Ne. cbn [prods_node alldefs_node].
    rewrite !in_app_iff, !in_concat_map, in_nonempty. split; intros [H|(b & Hb & H)]; auto.
    + right. exists b. split; auto. now apply IH.
    + tauto.
    + right. exists b. split; auto. now apply IH.
  - intros ns gi go IH x Ne. cbn [prods alldefs].
    rewrite !in_app_iff, !in_concat_map, in_nonempty. split; intros [H|(b & Hb & H)]; auto.
    + right. exists b. split; auto. now apply IH.
    + tauto.
    + right. exists b. split; auto. now apply IH.
Qed.
Lemma fv_uses :
  (forall n, closed_node n -> forall x, x <> "" -> In x (fv_node n) -> In x (uses_node n)) /\
  (forall g, closed_graph g -> forall x, x <> "" -> In x (fv_graph g) -> In x (uses g)).
Proof.
  apply fnode_fgraph_ind.
  - intros nm op dom at_ ins outs bodies IH C x Ne H. rewrite fv_node_eq in H. cbn [f_in f_bodies uses_node] in *.
    rewrite in_app_iff, in_concat_map in *. destruct H as [H|(b & Hb & H)]; auto. right. exists b. split; auto. apply IH; auto.
    apply (proj1 (closed_node_eq _) C b). exact Hb.
  - intros ns gi go IH C x Ne H. apply in_fv_graph in H. cbn [f_ins f_outs f_nodes uses] in *. apply closed_graph_eq in C.
    destruct C as [C1 C2]. cbn [f_outs f_nodes] in *. rewrite in_concat_map. destruct H as [Nd [H|[H|(n & Hn & H)]]].
    + exfalso. apply Nd. apply in_defs. cbn. tauto.
    + exfalso. apply Nd. auto.
    + exists n. split; auto.
Qed.
Lemma uses_fv :
  (forall n x, In x (uses_node n) -> In x (fv_node n) \/ exists b, In b (f_bodies n) /\ In x (alldefs b)) /\
  (forall g x, In x (uses g) -> In x (fv_graph g) \/ In x (alldefs g)).
Proof.
  apply fnode_fgraph_ind.
  - intros nm op dom at_ ins outs bodies IH x H. rewrite fv_node_eq. cbn [f_in f_bodies uses_node] in *.
    rewrite in_app_iff, in_concat_map in *. destruct H as [H|(b & Hb & H)]; auto.
    destruct (IH b Hb x H); [left|right]; eauto.
  - intros ns gi go IH x H. cbn [uses] in H. rewrite in_concat_map in H. destruct H as (n & Hn & H).
    destruct (IH n Hn x H) as [H'|(b & Hb & H')].
    + destruct (used_defs_or_free (FGraph ns gi go) n x Hn H') as [D|D]; auto. right. now apply defs_alldefs.
    + right. apply alldefs_in. right. exists n. split; auto. apply alldefs_in_node. right. eauto.
Qed.

Section Imp.
Variables (rk : string -> nat) (g : fgraph).
Hypothesis W : forall h, within g h -> good rk h.
Lemma implicit_complete n x : In n (f_nodes g) -> x <> "" -> In x (fv_node n) -> In x (f_in n ++ implicit_inputs n).
Proof.
  intros Hn Ne H. rewrite fv_node_eq in H. rewrite in_app_iff in *. destruct H as [H|H]; auto. right.
  apply in_concat_map in H. destruct H as (b & Hb & H).
  assert (Cg := good_closed rk g W). apply closed_graph_eq in Cg.
  assert (Cb : closed_graph b). { apply (proj1 (closed_node_eq n) (proj2 Cg n Hn)). exact Hb. }
  unfold implicit_inputs. apply filter_In. split.
  - apply in_concat_map. exists b. split; auto. now apply fv_uses.
  - apply negb_true_iff. apply mem_false. intro K. apply in_concat_map in K. destruct K as (c & Hc & K).
    apply prods_alldefs in K; auto.
    assert (G := W g (within_refl g)).
    assert (F : In x (fv_node n)) by exact (fv_body n b x Hb H).
    exact (good_not_nested rk g n c x G Hn Hc (used_defs_or_free g n x Hn F) K).
Qed.
Lemma implicit_sound n x : In n (f_nodes g) -> x <> "" -> In x (f_in n ++ implicit_inputs n) -> In x (fv_node n).
Proof.
  intros Hn Ne H. rewrite in_app_iff in H. destruct H as [H|H]; [now apply fv_in|].
  unfold implicit_inputs in H. apply filter_In in H. destruct H as [H K]. apply negb_true_iff, mem_false in K.
  apply in_concat_map in H. destruct H as (b & Hb & H). apply uses_fv in H. destruct H as [H|H].
  - eapply fv_body; eauto.
  - exfalso. apply K. apply in_concat_map. exists b. split; auto. now apply prods_alldefs.
Qed.
End Imp.

(** ** dropping unread nodes *)
Section Drop.
Variable V : Type.
Variable op_rel : string -> string -> list (string * attr) -> nat -> list V ->
                  list (list V -> list V -> Prop) -> list V -> Prop.
Hypothesis ext : op_ext op_rel.
Notation holds := (holds op_rel). Notation body_rel := (body_rel op_rel). Notation all_hold := (all_hold op_rel).

Definition dropped (k : fnode -> bool) (ns : list fnode) := filter (fun n => negb (k n)) ns.
Lemma drop_forward ns gi go k :
  (forall n t, In n ns -> k n = true -> In t (fv_node n) -> ~ In t (outs_of (dropped k ns))) ->
  (forall o, In o go -> ~ In o (outs_of (dropped k ns))) ->
  NoDup (defs (FGraph ns gi go)) ->
  forall r args res, body_rel r (FGraph ns gi go) args res -> body_rel r (FGraph (filter k ns) gi go) args res.
Proof.
  intros H1 H2 ND r args res B. apply body_rel_eq in B. apply body_rel_eq. cbn [f_ins f_outs f_nodes] in *.
  destruct B as (r' & A & Bi & C & D).
  set (dd := outs_of (dropped k ns)) in *.
  assert (Hdd : forall t, In t dd -> ~ In t (nonempty gi) /\ forall n, In n ns -> k n = true -> ~ In t (f_out n)).
  { unfold defs in ND. cbn [f_ins f_nodes] in ND. rewrite nonempty_app in ND. apply NoDup_app_inv in ND. destruct ND as (_ & N2 & N3).
    intros t Ht. split.
    - intro K. apply (N3 t K). unfold dd in Ht. apply in_outs_of in Ht. destruct Ht as (Ne & n & Hn & Ho). apply filter_In in Hn.
      apply in_nonempty. split; auto. apply in_concat_map. exists n. tauto.
    - intros n Hn Hk Ho. unfold dd in Ht. apply in_outs_of in Ht. destruct Ht as (Ne & m & Hm & Hmo). apply filter_In in Hm.
      destruct Hm as [Hm Km]. clear - N2 Hn Hm Hk Km Ho Hmo Ne. induction ns as [|x ns IH]; [destruct Hn|].
      cbn [map concat] in N2. rewrite nonempty_app in N2. apply NoDup_app_inv in N2. destruct N2 as (_ & B & C).
      destruct Hn as [->|Hn], Hm as [->|Hm]; auto.
      + rewrite Hk in Km. discriminate.
      + apply (C t); apply in_nonempty; split; auto. apply in_concat_map. eauto.
      + apply (C t); apply in_nonempty; split; auto. apply in_concat_map. eauto. }
  exists (fun t => if mem t dd then r t else r' t).
  assert (Fr : forall t, ~ In t dd -> (if mem t dd then r t else r' t) = r' t).
  { intros t Ht. apply mem_false in Ht. now rewrite Ht. }
  split; [|split; [|split]].
  - intros t Ht. destruct (mem t dd) eqn:E; auto. apply mem_false in E. apply A. intro K. apply Ht.
    apply in_defs in K. apply in_defs. cbn [f_ins f_nodes] in *. destruct K as [Ne [K|(n & Hn & K)]]; split; auto. right.
    exists n. split; auto. apply filter_In. split; auto. destruct (k n) eqn:Ek; auto. exfalso. apply E.
    apply in_outs_of. split; auto. exists n. split; auto. apply filter_In. rewrite Ek. auto.
  - rewrite <- Bi. apply map_ext_in. intros t Ht. apply Fr. intro K. destruct (Hdd t K) as [X _]. apply X.
    apply in_nonempty. split; auto. apply in_outs_of in K. tauto.
  - intros n Hn. apply filter_In in Hn. destruct Hn as [Hn Hk]. eapply holds_agree; [exact ext| | |apply C; exact Hn].
    + intros t Ht. symmetry. apply Fr. eapply H1; eauto.
    + intros t Ht Ne. symmetry. apply Fr. intro K. destruct (Hdd t K) as [_ X]. apply (X n); auto.
  - rewrite <- D. apply map_ext_in. intros t Ht. apply Fr. apply H2. exact Ht.
Qed.

(** sorting by a key *)
Fixpoint ins (key : fnode -> nat) (n : fnode) (l : list fnode) : list fnode :=
  match l with [] => [n] | m :: l' => if Nat.leb (key n) (key m) then n :: l else m :: ins key n l' end.
Fixpoint srt (key : fnode -> nat) (l : list fnode) : list fnode :=
  match l with [] => [] | n :: l' => ins key n (srt key l') end.
Lemma ins_perm key n l : Permutation (n :: l) (ins key n l).
Proof.
  induction l as [|m l IH]; cbn; [auto|]. destruct (Nat.leb (key n) (key m)); auto.
  eapply perm_trans; [apply perm_swap|]. now constructor.
Qed.
Lemma srt_perm key l : Permutation l (srt key l).
Proof. induction l as [|n l IH]; cbn; [auto|]. eapply perm_trans; [|apply ins_perm]. now constructor. Qed.
Inductive sorted (key : fnode -> nat) : list fnode -> Prop :=
| s_nil : sorted key []
| s_cons n l : (forall m, In m l -> key n <= key m) -> sorted key l -> sorted key (n :: l).
Lemma ins_sorted key n l : sorted key l -> sorted key (ins key n l).
Proof.
  induction 1 as [|m l H S IH]; cbn.
  - constructor; [intros m []|constructor].
  - destruct (Nat.leb_spec (key n) (key m)).
    + constructor; [|constructor; auto]. intros k [<-|Hk]; auto. specialize (H k Hk). lia.
    + constructor; auto. intros k Hk. apply (Permutation_in _ (Permutation_sym (ins_perm key n l))) in Hk.
      destruct Hk as [<-|Hk]; [lia|auto].
Qed.
Lemma srt_sorted key l : sorted key (srt key l).
Proof. induction l; cbn; [constructor|]. now apply ins_sorted. Qed.

Definition nkey (rk : string -> nat) (n : fnode) : nat := fold_right (fun t m => Nat.max (S (rk t)) m) 0 (fv_node n).
Lemma nkey_ge rk n t : In t (fv_node n) -> rk t < nkey rk n.
Proof. unfold nkey. induction (fv_node n) as [|x l IH]; cbn [fold_right In]; [tauto|]. intros [<-|H]; [lia|]. specialize (IH H). lia. Qed.
Lemma nkey_le rk n b : (forall t, In t (fv_node n) -> rk t < b) -> nkey rk n <= b.
Proof. unfold nkey. induction (fv_node n) as [|x l IH]; cbn [fold_right In]; intro H; [lia|]. assert (rk x < b) by (apply H; auto). specialize (IH (fun t Ht => H t (or_intror Ht))). lia. Qed.

Lemma extend : forall rk l, (forall n, In n l -> delivers op_rel n) ->
  (forall n t o, In n l -> In t (fv_node n) -> In o (f_out n) -> o <> "" -> rk t < rk o) ->
  NoDup (outs_of l) ->
  forall r : env V, exists r', (forall t, ~ In t (outs_of l) -> r' t = r t) /\ all_hold r' l.
Proof.
  intros rk l T Ac ND.
  assert (K : forall l, sorted (nkey rk) l -> (forall n, In n l -> delivers op_rel n) ->
    (forall n t o, In n l -> In t (fv_node n) -> In o (f_out n) -> o <> "" -> rk t < rk o) -> NoDup (outs_of l) ->
    forall r : env V, exists r', (forall t, ~ In t (outs_of l) -> r' t = r t) /\ all_hold r' l).
  { clear l T Ac ND. intros l S. induction S as [|n l Hmin S IH]; intros T Ac ND r.
    - exists r. split; auto. intros n [].
    - rewrite outs_of_cons in ND. apply NoDup_app_inv in ND. destruct ND as (N1 & N2 & N3).
      destruct (T n (or_introl eq_refl) (map r (f_in n)) (map (body_rel r) (f_bodies n))) as (vs & Op & L).
      destruct (IH (fun m Hm => T m (or_intror Hm)) (fun m t o Hm => Ac m t o (or_intror Hm)) N2 (bind V (f_out n) vs r)) as (r' & F & A).
      assert (Fall : forall t, ~ In t (outs_of (n :: l)) -> r' t = r t).
      { intros t Ht. rewrite outs_of_cons, in_app_iff in Ht. rewrite F by tauto. apply bind_frame. tauto. }
      exists r'. split; [exact Fall|].
      intros m [<-|Hm]; [|apply A; auto].
      assert (Free : forall t, In t (fv_node n) -> ~ In t (outs_of (n :: l))).
      { intros t Ht K. apply in_outs_of in K. destruct K as (Ne & m & [<-|Hm] & Ho).
        - assert (rk t < rk t) by (apply (Ac n t t); auto; now left). lia.
        - assert (nkey rk m <= rk t).
          { apply nkey_le. intros u Hu. apply (Ac m u t); auto. now right. }
          assert (rk t < nkey rk n) by (now apply nkey_ge). specialize (Hmin m Hm). lia. }
      apply holds_eq. exists vs. split.
      + replace (map r' (f_in n)) with (map r (f_in n)).
        * eapply ext; [|exact Op]. apply same_beh_map. intros b Hb a s. apply body_agree; auto. intros t Ht.
          symmetry. apply Fall. apply Free. eapply fv_body; eauto.
        * apply map_ext_in. intros t Ht. symmetry. apply Fall. apply Free. now apply fv_in.
      + eapply produces_agree; [|apply bind_produces; [exact N1|exact L]]. intros o Ho Ne. symmetry. apply F.
        apply N3. apply in_nonempty. auto. }
  intro r. assert (P := srt_perm (nkey rk) l).
  assert (Po : Permutation (outs_of l) (outs_of (srt (nkey rk) l))).
  { unfold outs_of. apply nonempty_perm. now apply concat_perm. }
  destruct (K (srt (nkey rk) l) (srt_sorted _ l)) with (r := r) as (r' & F & A).
  - intros n Hn. apply T. exact (Permutation_in _ (Permutation_sym P) Hn).
  - intros n t o Hn. apply Ac. exact (Permutation_in _ (Permutation_sym P) Hn).
  - eapply Permutation_NoDup; eauto.
  - exists r'. split.
    + intros t Ht. apply F. intro Q. apply Ht. exact (Permutation_in _ (Permutation_sym Po) Q).
    + intros n Hn. apply A. exact (Permutation_in _ P Hn).
Qed.

Lemma outs_of_filter_incl k ns t : In t (outs_of (filter k ns)) -> In t (outs_of ns).
Proof. rewrite !in_outs_of. intros (Ne & n & Hn & H). apply filter_In in Hn. split; auto. exists n. tauto. Qed.
Lemma outs_of_filter_NoDup k ns : NoDup (outs_of ns) -> NoDup (outs_of (filter k ns)).
Proof.
  induction ns as [|n ns IH]; cbn [filter]; auto. rewrite outs_of_cons. intro H. apply NoDup_app_inv in H. destruct H as (A & B & C).
  destruct (k n); auto. rewrite outs_of_cons. apply NoDup_app_intro; auto. intros x Hx K. apply (C x Hx). eapply outs_of_filter_incl; eauto.
Qed.
Lemma drop_backward ns gi go k rk : (forall n, In n ns -> delivers op_rel n) ->
  (forall n t, In n ns -> k n = true -> In t (fv_node n) -> ~ In t (outs_of (dropped k ns))) ->
  (forall o, In o go -> ~ In o (outs_of (dropped k ns))) ->
  (forall n t o, In n ns -> In t (fv_node n) -> In o (f_out n) -> o <> "" -> rk t < rk o) ->
  NoDup (defs (FGraph ns gi go)) ->
  forall r args res, body_rel r (FGraph (filter k ns) gi go) args res -> body_rel r (FGraph ns gi go) args res.
Proof.
  intros T H1 H2 Ac ND r args res B. apply body_rel_eq in B. apply body_rel_eq. cbn [f_ins f_outs f_nodes] in *.
  destruct B as (r0 & A & Bi & C & D).
  unfold defs in ND. cbn [f_ins f_nodes] in ND. rewrite nonempty_app in ND. apply NoDup_app_inv in ND. destruct ND as (N1 & N2 & N3).
  destruct (extend rk (dropped k ns)) with (r := r0) as (r' & F & Hd).
  - intros n Hn. apply T. apply filter_In in Hn. tauto.
  - intros n t o Hn. apply Ac. apply filter_In in Hn. tauto.
  - now apply outs_of_filter_NoDup.
  - exists r'. split; [|split; [|split]].
    + intros t Ht. rewrite F.
      * apply A. intro K. apply Ht. apply in_defs in K. apply in_defs. cbn [f_ins f_nodes] in *.
        destruct K as [Ne [K|(n & Hn & K)]]; split; auto. right. exists n. apply filter_In in Hn. tauto.
      * intro K. apply Ht. apply in_defs. cbn [f_ins f_nodes]. apply in_outs_of in K. destruct K as (Ne & n & Hn & K).
        split; auto. right. exists n. apply filter_In in Hn. tauto.
    + rewrite <- Bi. apply map_ext_in. intros t Ht. apply F. intro K. assert (K' := K). apply in_outs_of in K'.
      apply (N3 t); [apply in_nonempty; tauto|]. exact (outs_of_filter_incl _ _ _ K).
    + intros n Hn. destruct (k n) eqn:E.
      * eapply holds_agree; [exact ext| | |apply C; apply filter_In; auto].
        -- intros t Ht. symmetry. apply F. eapply H1; eauto.
        -- intros t Ht Ne. symmetry. apply F. intro K. apply in_outs_of in K. destruct K as (_ & m & Hm & Hmo). apply filter_In in Hm.
           destruct Hm as [Hm Km]. clear - N2 Hn Hm E Km Ht Hmo Ne. induction ns as [|x ns IH]; [destruct Hn|].
           cbn [map concat] in N2. rewrite nonempty_app in N2. apply NoDup_app_inv in N2. destruct N2 as (_ & B & C).
           destruct Hn as [->|Hn], Hm as [->|Hm]; auto.
           ++ rewrite E in Km. discriminate.
           ++ apply (C t); apply in_nonempty; split; auto. apply in_concat_map. eauto.
           ++ apply (C t); apply in_nonempty; split; auto. apply in_concat_map. eauto.
      * apply Hd. apply filter_In. rewrite E. auto.
    + rewrite <- D. apply map_ext_in. intros t Ht. apply F. apply H2. exact Ht.
Qed.
End Drop.

(** ** one level *)
Definition kept (g : fgraph) (n : fnode) : bool := has n (extract_sub_graph_nodes g (f_outs g)).
Definition body_clean (g : fgraph) : list fnode := map clean_node (f_nodes g).
Lemma clean_name n : f_name (clean_node n) = f_name n. Proof. destruct n; reflexivity. Qed.
Lemma clean_out n : f_out (clean_node n) = f_out n. Proof. destruct n; reflexivity. Qed.
Lemma clean_in n : f_in (clean_node n) = f_in n. Proof. destruct n; reflexivity. Qed.
Lemma clean_bodies n : f_bodies (clean_node n) = map delete_unused (f_bodies n). Proof. destruct n; reflexivity. Qed.
Lemma has_name n m l : f_name n = f_name m -> has n l = has m l.
Proof. unfold has. intros ->. reflexivity. Qed.
Lemma kept_clean g n : kept g (clean_node n) = kept g n.
Proof. unfold kept. apply has_name. apply clean_name. Qed.
Lemma delete_eq g : f_outs g <> [] -> delete_unused g = FGraph (filter (kept g) (body_clean g)) (f_ins g) (f_outs g).
Proof. destruct g as [ns gi go]. cbn [f_outs f_ins]. destruct go; [congruence|]. reflexivity. Qed.
Lemma delete_nil g : f_outs g = [] -> delete_unused g = g.
Proof. destruct g as [ns gi go]. cbn [f_outs]. intros ->. reflexivity. Qed.
Lemma in_deleted g n' : In n' (filter (kept g) (body_clean g)) <-> exists n, In n (f_nodes g) /\ kept g n = true /\ n' = clean_node n.
Proof.
  rewrite filter_In. unfold body_clean. rewrite in_map_iff. split.
  - intros [(n & <- & Hn) K]. exists n. rewrite kept_clean in K. auto.
  - intros (n & Hn & K & ->). rewrite kept_clean. split; [eauto|auto].
Qed.

Lemma out_uniq rk g n m t : good rk g -> In n (f_nodes g) -> In m (f_nodes g) -> t <> "" -> In t (f_out n) -> In t (f_out m) -> n = m.
Proof.
  intros [_ ND _ _ _ _] Hn Hm Ne Hnt Hmt. destruct g as [ns gi go]. cbn [alldefs f_nodes] in *.
  apply NoDup_app_inv in ND. destruct ND as (_ & ND & _). induction ns as [|x ns IH]; [destruct Hn|].
  cbn [map concat] in ND. apply NoDup_app_inv in ND. destruct ND as (_ & B & C).
  destruct Hn as [->|Hn], Hm as [->|Hm]; auto; exfalso.
  - apply (C t); [apply alldefs_in_node; auto|]. apply in_concat_map. exists m. split; auto. apply alldefs_in_node; auto.
  - apply (C t); [apply alldefs_in_node; auto|]. apply in_concat_map. exists n. split; auto. apply alldefs_in_node; auto.
Qed.
Lemma producer_some rk g m t : good rk g -> In m (f_nodes g) -> t <> "" -> In t (f_out m) -> producer g t = Some m.
Proof.
  intros G Hm Ne Ht. destruct (producer g t) as [k|] eqn:E.
  - destruct (producer_in _ _ _ E) as [Hk Hkt]. f_equal. eapply out_uniq; eauto.
  - unfold producer in E. apply find_none with (x := m) in E; auto. apply mem_false in E. contradiction.
Qed.
Lemma producer_none_or g t : (exists n, producer g t = Some n) \/ forall m, In m (f_nodes g) -> ~ In t (f_out m).
Proof.
  destruct (producer g t) as [k|] eqn:E; [eauto|]. right. intros m Hm Ht. unfold producer in E.
  apply find_none with (x := m) in E; auto. apply mem_false in E. contradiction.
Qed.

Section Level.
Variables (rk : string -> nat) (g : fgraph).
Hypothesis W : forall h, within g h -> good rk h.
Let G : good rk g := W g (within_refl g).
Let U : uniq_names g := g_names _ _ G.

Lemma kept_in n : In n (f_nodes g) -> (kept g n = true <-> In n (extract_sub_graph_nodes g (f_outs g))).
Proof. intro Hn. unfold kept. apply (has_in g); auto. apply (extract_outs_spec g U). Qed.
Lemma kept_closed n t m : In n (f_nodes g) -> kept g n = true -> In t (fv_node n) -> t <> "" ->
  In m (f_nodes g) -> In t (f_out m) -> kept g m = true.
Proof.
  intros Hn K Ht Ne Hm Hmt. apply kept_in; auto. apply kept_in in K; auto.
  destruct (extract_outs_spec g U (f_outs g)) as (_ & _ & C & _). apply (C n t m); auto.
  - eapply implicit_complete; eauto.
  - eapply producer_some; eauto.
Qed.
Lemma kept_outs o m : In o (f_outs g) -> o <> "" -> In m (f_nodes g) -> In o (f_out m) -> kept g m = true.
Proof.
  intros Ho Ne Hm Hmt. apply kept_in; auto.
  destruct (extract_outs_spec g U (f_outs g)) as (_ & C & _ & _). apply (C o); auto. eapply producer_some; eauto.
Qed.
Lemma kept_needed n : In n (f_nodes g) -> (forall m, In m (f_nodes g) -> ~ In "" (f_out m)) ->
  (kept g n = true <-> needed g n).
Proof.
  intros Hn NO. split.
  - intro K. apply kept_in in K; auto. destruct (extract_outs_spec g U (f_outs g)) as (_ & _ & _ & R). specialize (R n K).
    clear K Hn. assert (H : forall k, reach g (fun n => exists o, In o (f_outs g) /\ producer g o = Some n) k -> In k (f_nodes g) /\ needed g k).
    { induction 1 as [k (o & Ho & E)|k m t Hr [Hm IH] Ht E].
      - destruct (producer_in _ _ _ E) as [Hk Hkt]. split; auto. eapply needed_out; eauto.
      - destruct (producer_in _ _ _ E) as [Hk Hkt]. split; auto. eapply needed_in; [exact Hk|exact IH| |exact Hkt].
        eapply implicit_sound; eauto. intros ->. apply (NO k); auto. }
    apply H; auto.
  - intro N. clear Hn. induction N as [n o Hn Ho Hno|n m t Hn Nm IH Ht Hnt].
    + eapply kept_outs; eauto. intros ->. apply (NO n); auto.
    + assert (Hm : In m (f_nodes g)) by (destruct Nm; auto).
      eapply kept_closed; [exact Hm|exact IH|exact Ht| |exact Hn|exact Hnt]. intros ->. apply (NO n); auto.
Qed.
Lemma defs_deleted t : In t (defs (FGraph (filter (kept g) (body_clean g)) (f_ins g) (f_outs g))) -> In t (defs g).
Proof.
  rewrite !in_defs. cbn [f_ins f_nodes]. intros [Ne [H|(n' & Hn' & H)]]; split; auto. right.
  apply in_deleted in Hn'. destruct Hn' as (n & Hn & _ & ->). rewrite clean_out in H. eauto.
Qed.
End Level.

Lemma W_body rk g n b : (forall h, within g h -> good rk h) -> In n (f_nodes g) -> In b (f_bodies n) ->
  forall h, within b h -> good rk h.
Proof. intros W Hn Hb h Hh. apply W. eapply within_body; eauto. Qed.

Lemma fv_delete rk :
  (forall n, (forall b h, In b (f_bodies n) -> within b h -> good rk h) -> incl (fv_node (clean_node n)) (fv_node n)) /\
  (forall g, (forall h, within g h -> good rk h) -> incl (fv_graph (delete_unused g)) (fv_graph g)).
Proof.
  apply fnode_fgraph_ind.
  - intros nm op dom at_ ins outs bodies IH L x Hx. rewrite fv_node_eq in *. cbn [f_bodies] in L. cbn [clean_node f_in f_bodies] in *.
    rewrite in_app_iff, in_concat_map in *. destruct Hx as [Hx|(b' & Hb' & Hx)]; auto. right.
    apply in_map_iff in Hb'. destruct Hb' as (b & <- & Hb). exists b. split; auto. apply IH; auto. intros h. apply L; auto.
  - intros ns gi go IH L x Hx. set (g := FGraph ns gi go) in *.
    destruct (list_eq_dec string_dec (f_outs g) []) as [E|E]; [now rewrite delete_nil in Hx|].
    rewrite delete_eq in Hx by auto. apply in_fv_graph in Hx. cbn [f_ins f_outs f_nodes] in Hx. apply in_fv_graph.
    assert (G : good rk g) by (apply L; constructor).
    destruct Hx as [Nd Hx].
    assert (Hx' : In x (f_ins g) \/ In x (f_outs g) \/ exists n, In n (f_nodes g) /\ kept g n = true /\ In x (fv_node n)).
    { destruct Hx as [Hx|[Hx|(n' & Hn' & Hx)]]; auto. right; right. apply in_deleted in Hn'. destruct Hn' as (n & Hn & K & ->).
      exists n. split; auto. split; auto. apply (IH n); auto. intros b h Hb Hh. apply L. eapply within_body; eauto. }
    split.
    + intro D. apply Nd. apply in_defs in D. destruct D as [Ne D]. apply in_defs. cbn [f_ins f_nodes]. split; auto.
      destruct D as [D|(m & Hm & Hmx)]; auto. right. exists (clean_node m). rewrite clean_out. split; auto.
      apply in_deleted. exists m. split; auto. split; auto.
      destruct Hx' as [Hx'|[Hx'|(n & Hn & K & Hx')]].
      * exfalso. apply Nd. apply in_defs. cbn [f_ins f_nodes]. auto.
      * eapply kept_outs; eauto.
      * exact (kept_closed rk g L n x m Hn K Hx' Ne Hm Hmx).
    + destruct Hx' as [Hx'|[Hx'|(n & Hn & K & Hx')]]; eauto.
Qed.

Lemma alldefs_delete :
  (forall n, incl (alldefs_node (clean_node n)) (alldefs_node n) /\ (NoDup (alldefs_node n) -> NoDup (alldefs_node (clean_node n)))) /\
  (forall g, incl (alldefs (delete_unused g)) (alldefs g) /\ (NoDup (alldefs g) -> NoDup (alldefs (delete_unused g)))).
Proof.
  apply fnode_fgraph_ind.
  - intros nm op dom at_ ins outs bodies IH. cbn [clean_node alldefs_node]. rewrite map_map.
    assert (I : incl (concat (map (fun x => alldefs (delete_unused x)) bodies)) (concat (map alldefs bodies))).
    { intros x Hx. apply in_concat_map in Hx. destruct Hx as (b & Hb & Hx). apply in_concat_map. exists b. split; auto. now apply IH. }
    split.
    + intros x Hx. rewrite in_app_iff in *. destruct Hx; auto.
    + intro ND. apply NoDup_app_inv in ND. destruct ND as (A & B & C). apply NoDup_app_intro; auto.
      * clear - IH B. induction bodies as [|b l IHl]; [constructor|]. cbn [map concat] in *. apply NoDup_app_inv in B. destruct B as (B1 & B2 & B3).
        apply NoDup_app_intro.
        -- apply IH; [now left|auto].
        -- apply IHl; auto. intros c Hc. apply IH. now right.
        -- intros x Hx Hx'. apply (B3 x).
           ++ apply (IH b); [now left|auto].
           ++ apply in_concat_map in Hx'. destruct Hx' as (c & Hc & Hx'). apply in_concat_map. exists c. split; auto. apply (IH c); [now right|auto].
      * intros x Hx Hx'. apply (C x Hx). apply I. exact Hx'.
  - intros ns gi go IH. set (g := FGraph ns gi go) in *.
    destruct (list_eq_dec string_dec (f_outs g) []) as [E|E].
    { rewrite delete_nil by auto. split; [apply incl_refl|auto]. }
    rewrite delete_eq by auto. cbn [alldefs]. unfold body_clean, g. cbn [f_ins f_nodes alldefs]. fold g.
    assert (I : incl (concat (map alldefs_node (filter (kept g) (map clean_node ns)))) (concat (map alldefs_node ns))).
    { intros x Hx. apply in_concat_map in Hx. destruct Hx as (n' & Hn' & Hx). apply filter_In in Hn'. destruct Hn' as [Hn' _].
      apply in_map_iff in Hn'. destruct Hn' as (n & <- & Hn). apply in_concat_map. exists n. split; auto. apply (IH n); auto. }
    split.
    + intros x Hx. rewrite in_app_iff in *. destruct Hx; auto.
    + intro ND. apply NoDup_app_inv in ND. destruct ND as (A & B & C). apply NoDup_app_intro; auto.
      * clear - IH B. generalize (kept g) as k. intro k. induction ns as [|b l IHl]; [constructor|].
        cbn [map concat] in B. apply NoDup_app_inv in B. destruct B as (B1 & B2 & B3).
        assert (IHl' : NoDup (concat (map alldefs_node (filter k (map clean_node l))))).
        { apply IHl; auto. intros c Hc. apply IH. now right. }
        cbn [map filter]. destruct (k (clean_node b)); auto. cbn [map concat].
        apply NoDup_app_intro; auto.
        -- apply IH; [now left|auto].
        -- intros x Hx Hx'. apply (B3 x).
           ++ apply (IH b); [now left|auto].
           ++ apply in_concat_map in Hx'. destruct Hx' as (c' & Hc & Hx'). apply filter_In in Hc. destruct Hc as [Hc _].
              apply in_map_iff in Hc. destruct Hc as (c & <- & Hc). apply in_concat_map. exists c. split; auto. apply (IH c); [now right|auto].
      * intros x Hx Hx'. apply (C x Hx). apply I. exact Hx'.
Qed.

Lemma within_delete g' h' : within g' h' -> forall g, g' = delete_unused g -> exists h, within g h /\ (h' = h \/ h' = delete_unused h).
Proof.
  induction 1 as [g0|g0 n b h Hn Hb H IH]; intros g ->.
  - exists g. split; [constructor|auto].
  - destruct (list_eq_dec string_dec (f_outs g) []) as [E|E].
    + rewrite delete_nil in Hn by auto. exists h. split; [eapply within_body; eauto|auto].
    + rewrite delete_eq in Hn by auto. cbn [f_nodes] in Hn. apply in_deleted in Hn. destruct Hn as (m & Hm & _ & ->).
      rewrite clean_bodies in Hb. apply in_map_iff in Hb. destruct Hb as (c & <- & Hc).
      destruct (IH c eq_refl) as (k & Hk & R). exists k. split; auto. eapply within_body; eauto.
Qed.

Lemma good_delete rk g : (forall h, within g h -> good rk h) -> good rk (delete_unused g).
Proof.
  intro L. assert (G : good rk g) by (apply L; constructor).
  destruct (list_eq_dec string_dec (f_outs g) []) as [E|E]; [now rewrite delete_nil by auto|].
  assert (Fv := proj2 (fv_delete rk) g L). destruct (proj2 alldefs_delete g) as [Ai An].
  rewrite delete_eq in * by auto. constructor; cbn [f_ins f_outs f_nodes].
  - intros o Ho. assert (D := g_outs _ _ G o Ho). apply in_defs in D. apply in_defs. cbn [f_ins f_nodes]. destruct D as [Ne [D|(m & Hm & D)]]; split; auto.
    right. exists (clean_node m). rewrite clean_out. split; auto. apply in_deleted. exists m. split; auto. split; auto.
    eapply kept_outs; eauto.
  - apply An. apply (g_ssa _ _ G).
  - intros t Ht K. apply (g_scope _ _ G t); auto.
  - assert (N := g_names _ _ G). unfold body_clean. revert N. generalize (f_nodes g) as l, (kept g) as k. clear. intros l k.
    induction l as [|n l IH]; cbn [map filter]; [auto|]. intro N. inversion N as [|? ? Hni N']; subst.
    destruct (k (clean_node n)); auto. cbn [map]. constructor; auto. rewrite clean_name. intro K. apply Hni.
    apply in_map_iff in K. destruct K as (m' & E & K). apply filter_In in K. destruct K as [K _]. apply in_map_iff in K.
    destruct K as (m & <- & K). rewrite clean_name in E. rewrite <- E. now apply in_map.
  - intros n' t o Hn' Ht Ho Ne. apply in_deleted in Hn'. destruct Hn' as (n & Hn & _ & ->). rewrite clean_out in Ho.
    apply (g_acyclic _ _ G n t o); auto. refine (proj1 (fv_delete rk) n _ t Ht). intros b h Hb Hh. apply L. exact (within_body g n b h Hn Hb Hh).
  - apply (g_noself _ _ G).
Qed.
Lemma valid_delete rk g : (forall h, within g h -> good rk h) -> forall h, within (delete_unused g) h -> good rk h.
Proof.
  intros L h' H. destruct (within_delete _ _ H g eq_refl) as (h & Hh & [->| ->]); auto.
  apply good_delete. intros k Hk. apply L. eapply within_trans; eauto.
Qed.

Section Main.
Variable V : Type.
Variable op_rel : string -> string -> list (string * attr) -> nat -> list V ->
                  list (list V -> list V -> Prop) -> list V -> Prop.
Hypothesis ext : op_ext op_rel.
Lemma dropped_out g t : In t (outs_of (dropped (kept g) (body_clean g))) ->
  t <> "" /\ exists m, In m (f_nodes g) /\ kept g m = false /\ In t (f_out m).
Proof.
  intro H. apply in_outs_of in H. destruct H as (Ne & m' & Hm & Ht). split; auto. apply filter_In in Hm. destruct Hm as [Hm K].
  unfold body_clean in Hm. apply in_map_iff in Hm. destruct Hm as (m & <- & Hm). rewrite kept_clean in K. rewrite clean_out in Ht.
  exists m. split; auto. split; auto. now apply negb_true_iff.
Qed.
Lemma delete_equiv rk :
  (forall n, (forall b h, In b (f_bodies n) -> within b h -> good rk h) -> (forall b, In b (f_bodies n) -> all_deliver op_rel b) ->
     forall r, holds op_rel r n <-> holds op_rel r (clean_node n)) /\
  (forall g, (forall h, within g h -> good rk h) -> all_deliver op_rel g -> equiv op_rel g (delete_unused g)).
Proof.
  apply fnode_fgraph_ind.
  - intros nm op dom at_ ins outs bodies IH L T r. cbn [clean_node]. apply (holds_bodies V op_rel ext).
    intros b Hb. apply IH; auto. intros h. apply L; auto.
  - intros ns gi go IH L T. set (g := FGraph ns gi go) in *.
    destruct (list_eq_dec string_dec (f_outs g) []) as [E|E].
    { rewrite delete_nil by auto. apply equiv_refl. }
    rewrite delete_eq by auto.
    assert (G : good rk g) by (apply L; constructor).
    assert (HB : forall n, In n ns -> forall r, holds op_rel r n <-> holds op_rel r (clean_node n)).
    { intros n Hn. apply IH; auto.
      - intros b h Hb Hh. apply L. exact (within_body g n b h Hn Hb Hh).
      - intros b Hb h m Hh Hm. apply (T h m); auto. exact (within_body g n b h Hn Hb Hh). }
    assert (D1 : defs (FGraph (body_clean g) (f_ins g) (f_outs g)) = defs g).
    { unfold defs, body_clean, g. cbn [f_ins f_nodes]. rewrite map_map. do 3 f_equal. apply map_ext. apply clean_out. }
    assert (E1 : equiv op_rel g (FGraph (body_clean g) (f_ins g) (f_outs g))).
    { intros r a s. rewrite !body_rel_eq. rewrite D1. cbn [f_ins f_nodes f_outs].
      assert (K : forall r', all_hold op_rel r' (f_nodes g) <-> all_hold op_rel r' (body_clean g)).
      { intro r'. unfold body_clean, g. cbn [f_nodes]. split; intros C m Hm.
        - apply in_map_iff in Hm. destruct Hm as (n & <- & Hn). apply (proj1 (HB n Hn r')). auto.
        - apply (proj2 (HB m Hm r')). apply C. now apply in_map. }
      split; intros (r' & A & B & C & D); exists r'; (split; [exact A|split; [exact B|split; [apply K; exact C|exact D]]]). }
    eapply equiv_trans; [exact E1|].
    assert (H1 : forall n t, In n (body_clean g) -> kept g n = true -> In t (fv_node n) -> ~ In t (outs_of (dropped (kept g) (body_clean g)))).
    { intros n' t Hn' K Ht Hd. apply dropped_out in Hd. destruct Hd as (Ne & m & Hm & Km & Hmt).
      unfold body_clean in Hn'. apply in_map_iff in Hn'. destruct Hn' as (n & <- & Hn). rewrite kept_clean in K.
      assert (Hf : In t (fv_node n)). { refine (proj1 (fv_delete rk) n _ t Ht). intros b h Hb Hh. apply L. exact (within_body g n b h Hn Hb Hh). }
      rewrite (kept_closed rk g L n t m Hn K Hf Ne Hm Hmt) in Km. discriminate. }
    assert (H2 : forall o, In o (f_outs g) -> ~ In o (outs_of (dropped (kept g) (body_clean g)))).
    { intros o Ho Hd. apply dropped_out in Hd. destruct Hd as (Ne & m & Hm & Km & Hmt).
      rewrite (kept_outs rk g L o m Ho Ne Hm Hmt) in Km. discriminate. }
    assert (ND : NoDup (defs (FGraph (body_clean g) (f_ins g) (f_outs g)))) by (rewrite D1; eapply defs_NoDup; eauto).
    assert (Ac : forall n t o, In n (body_clean g) -> In t (fv_node n) -> In o (f_out n) -> o <> "" -> rk t < rk o).
    { intros n' t o Hn' Ht Ho Ne. unfold body_clean in Hn'. apply in_map_iff in Hn'. destruct Hn' as (n & <- & Hn). rewrite clean_out in Ho.
      apply (g_acyclic _ _ G n t o); auto. refine (proj1 (fv_delete rk) n _ t Ht). intros b h Hb Hh. apply L. exact (within_body g n b h Hn Hb Hh). }
    intros r a s. split.
    + apply (drop_forward V op_rel ext); auto.
    + eapply (drop_backward V op_rel ext); eauto. intros n' Hn'. unfold body_clean in Hn'. apply in_map_iff in Hn'.
      destruct Hn' as (n & <- & Hn). assert (X := T g n (within_refl g) Hn). destruct n as [n1 n2 n3 n4 n5 n6 n7]. exact X.
Qed.
End Main.

(** ** flat graphs *)
Lemma clean_flat n : f_bodies n = [] -> clean_node n = n.
Proof. destruct n as [n1 n2 n3 n4 n5 n6 n7]. cbn. intros ->. reflexivity. Qed.
Lemma body_clean_flat g : flat g -> body_clean g = f_nodes g.
Proof. intro F. unfold body_clean. rewrite <- (map_id (f_nodes g)) at 2. apply map_ext_in. intros n Hn. apply clean_flat. now apply F. Qed.
Lemma needed_sub rk g : (forall h, within g h -> good rk h) -> named_outputs g -> flat g -> f_outs g <> [] ->
  forall n, needed g n -> needed (delete_unused g) n.
Proof.
  intros L NO F E n N. rewrite delete_eq by auto. rewrite body_clean_flat by auto.
  assert (NO' : forall m, In m (f_nodes g) -> ~ In "" (f_out m)) by (intros m Hm; apply (NO g m (within_refl g) Hm)).
  assert (K : forall n, needed g n -> In n (filter (kept g) (f_nodes g))).
  { intros m Hm. apply filter_In. assert (In m (f_nodes g)) by (destruct Hm; auto). split; auto. eapply kept_needed; eauto. }
  induction N as [n o Hn Ho Hno|n m t Hn Nm IH Ht Hnt].
  - eapply needed_out; cbn [f_nodes f_outs]; eauto. apply K. eapply needed_out; eauto.
  - eapply needed_in; cbn [f_nodes f_outs]; [|exact IH|exact Ht|exact Hnt]. apply K. eapply needed_in; eauto.
Qed.
Lemma filter_all {A} (f : A -> bool) l : (forall x, In x l -> f x = true) -> filter f l = l.
Proof. induction l as [|x l IH]; cbn; intro H; [auto|]. rewrite H by auto. f_equal. apply IH. auto. Qed.
Lemma delete_idem_flat rk g : (forall h, within g h -> good rk h) -> named_outputs g -> flat g ->
  delete_unused (delete_unused g) = delete_unused g.
Proof.
  intros L NO F. destruct (list_eq_dec string_dec (f_outs g) []) as [E|E].
  { now rewrite !(delete_nil g E). }
  assert (L' := valid_delete rk g L).
  assert (Fo : f_outs (delete_unused g) = f_outs g) by (now rewrite delete_eq by auto).
  assert (Nd : f_nodes (delete_unused g) = filter (kept g) (f_nodes g)) by (rewrite delete_eq, body_clean_flat; auto).
  assert (Ei : f_ins (delete_unused g) = f_ins g) by (now rewrite delete_eq by auto).
  assert (F' : flat (delete_unused g)). { intros n Hn. rewrite Nd in Hn. apply filter_In in Hn. apply F. tauto. }
  assert (NO' : forall m, In m (f_nodes g) -> ~ In "" (f_out m)) by (intros m Hm; apply (NO g m (within_refl g) Hm)).
  rewrite (delete_eq (delete_unused g)) by congruence. rewrite body_clean_flat by auto.
  rewrite filter_all.
  - destruct (delete_unused g) as [a b c] eqn:Q. reflexivity.
  - intros n Hn. assert (Hn' := Hn). rewrite Nd in Hn'. apply filter_In in Hn'. destruct Hn' as [Hg K].
    apply (kept_needed rk (delete_unused g) L'); auto.
    + intros m Hm. rewrite Nd in Hm. apply filter_In in Hm. apply NO'. tauto.
    + apply (needed_sub rk); auto. eapply kept_needed; eauto.
Qed.
