From Coq Require Import String List Bool Arith Lia.
From Verif Require Import Util GraphModel GraphSpec GraphProofs NestedModel NestedSpec.
Import ListNotations.
Local Open Scope list_scope.

Lemma wset_same i x w : wset i x w i = Some x.
Proof. unfold wset. now rewrite Nat.eqb_refl. Qed.
Lemma wset_other i j x w : j <> i -> wset i x w j = w j.
Proof. unfold wset. intro H. destruct (Nat.eqb_spec j i); congruence. Qed.
Lemma memb_in x l : memb x l = true <-> In x l.
Proof.
  unfold memb. rewrite existsb_exists. split.
  - intros (y & H & E). apply Nat.eqb_eq in E. now subst.
  - intro H. exists x. split; auto. apply Nat.eqb_refl.
Qed.
Lemma nadd_in x y l : In y (nadd x l) <-> y = x \/ In y l.
Proof.
  unfold nadd. destruct (memb x l) eqn:E; simpl.
  - apply memb_in in E. split; auto. intros [->|H]; auto.
  - split; intros [H|H]; auto.
Qed.

Section Nested.
Context (F : nat) (rank : nat -> nat).

Definition used (x : wgraph) (t : string) : Prop := exists i n, node_at (wg x) i n /\ In t (n_in n).

(** ranks and back pointers *)
Record tree (w : world) : Prop := {
  t_rank : forall d x p, w d = Some x -> parent x = Some p -> rank p < rank d /\ exists xp, w p = Some xp;
  t_bound : forall d x, w d = Some x -> rank d < F;
  t_child : forall p xp t s, w p = Some xp -> In s (in2g_get xp t) -> exists xs, w s = Some xs /\ parent xs = Some p;
  t_ok : forall d x, w d = Some x -> wf (wg x) /\ cmpl (wg x) }.

Definition indexedX (X : nat -> string -> Prop) (w : world) : Prop :=
  forall d x p t, w d = Some x -> parent x = Some p -> used x t \/ in2g_get x t <> [] -> ~ X d t ->
    exists xp, w p = Some xp /\ In d (in2g_get xp t).

(** same graphs and parents, larger index *)
Definition grown (t : string) (w w' : world) : Prop :=
  forall d, match w d with
            | None => w' d = None
            | Some x => exists x', w' d = Some x' /\ wg x' = wg x /\ parent x' = parent x /\
                          (forall t' s, In s (in2g_get x t') -> In s (in2g_get x' t')) /\
                          (forall t', t' <> t -> in2g_get x' t' = in2g_get x t')
            end.
Lemma grown_refl t w : grown t w w.
Proof. intro d. destruct (w d) as [x|]; auto. exists x. repeat split; auto. Qed.
Lemma grown_trans t w w1 w2 : grown t w w1 -> grown t w1 w2 -> grown t w w2.
Proof.
  intros A B d. specialize (A d). specialize (B d). destruct (w d) as [x|].
  - destruct A as (x1 & E1 & A1 & A2 & A3 & A4). rewrite E1 in B.
    destruct B as (x2 & E2 & B1 & B2 & B3 & B4). exists x2. split; auto. split; [congruence|].
    split; [congruence|]. split; auto. intros t' N. rewrite B4, A4; auto.
  - rewrite A in B. exact B.
Qed.

Lemma reg_up_spec fuel : forall w gid t X, tree w ->
  (forall x, w gid = Some x -> rank gid < fuel) ->
  indexedX (fun d t' => X d t' \/ (d = gid /\ t' = t)) w ->
  let w' := reg_up fuel w gid t in tree w' /\ indexedX X w' /\ grown t w w'.
Proof.
  induction fuel as [|fuel IH]; intros w gid t X T Hr I; cbn [reg_up].
  - assert (N : w gid = None) by (destruct (w gid); auto; specialize (Hr _ eq_refl); lia).
    split; auto. split; [|apply grown_refl]. intros d x p t' E P U NX. apply (I d x p t' E P U).
    intros [K|[-> _]]; auto. congruence.
  - destruct (w gid) as [x|] eqn:E.
    2:{ split; auto. split; [|apply grown_refl]. intros d x p t' Ed P U NX. apply (I d x p t' Ed P U).
        intros [K|[-> _]]; auto. congruence. }
    destruct (parent x) as [p|] eqn:Ep.
    2:{ split; auto. split; [|apply grown_refl]. intros d y q t' Ed P U NX. apply (I d y q t' Ed P U).
        intros [K|[-> _]]; auto. congruence. }
    destruct (t_rank _ T _ _ _ E Ep) as (Rk & xp & Exp). rewrite Exp.
    set (xp' := mkW (wg xp) (parent xp) (mset t (nadd gid (in2g_get xp t)) (in2g xp))).
    set (w1 := wset p xp' w).
    assert (G2 : forall t', in2g_get xp' t' = if String.eqb t' t then nadd gid (in2g_get xp t) else in2g_get xp t').
    { intro t'. unfold in2g_get, xp'. cbn [in2g]. unfold mset. destruct (String.eqb t' t); reflexivity. }
    assert (Gr : grown t w w1).
    { intro d. unfold w1, wset. destruct (Nat.eqb_spec d p) as [->|N].
      - rewrite Exp. exists xp'. split; auto. split; auto. split; auto. split.
        + intros t' s Hs. rewrite G2. destruct (String.eqb_spec t' t) as [->|]; auto. apply nadd_in. auto.
        + intros t' N. rewrite G2. destruct (String.eqb_spec t' t); congruence.
      - destruct (w d) as [y|]; auto. exists y. repeat split; auto. }
    assert (T1 : tree w1).
    { destruct T as [T1 T2 T3 T4]. constructor.
      - intros d y q Ed Pq. unfold w1, wset in Ed. destruct (Nat.eqb_spec d p) as [->|N].
        + inversion Ed; subst y. cbn [parent xp'] in Pq. destruct (T1 _ _ _ Exp Pq) as (R & z & Z).
          split; auto. specialize (Gr q). rewrite Z in Gr. destruct Gr as (z' & Z' & _). eauto.
        + destruct (T1 _ _ _ Ed Pq) as (R & z & Z). split; auto. specialize (Gr q). rewrite Z in Gr.
          destruct Gr as (z' & Z' & _). eauto.
      - intros d y Ed. unfold w1, wset in Ed. destruct (Nat.eqb_spec d p) as [->|N]; eauto.
      - intros q yq t' s Eq Hs. assert (K : exists ys, w s = Some ys /\ parent ys = Some q).
        { unfold w1, wset in Eq. destruct (Nat.eqb_spec q p) as [->|N]; [|eauto].
          inversion Eq; subst yq. rewrite G2 in Hs. destruct (String.eqb_spec t' t) as [->|]; [|eauto].
          apply nadd_in in Hs. destruct Hs as [->|Hs]; eauto. }
        destruct K as (ys & Es & Ps). specialize (Gr s). rewrite Es in Gr. destruct Gr as (y' & Y1 & _ & Y2 & _).
        exists y'. split; auto. congruence.
      - intros d y Ed. unfold w1, wset in Ed. destruct (Nat.eqb_spec d p) as [->|N]; [|eauto].
        inversion Ed; subst. cbn [wg xp']. eauto. }
    assert (I1 : indexedX (fun d t' => X d t' \/ (d = p /\ t' = t)) w1).
    { intros d y q t' Ed Pq U NX.
      assert (W0 : exists y0, w d = Some y0 /\ wg y = wg y0 /\ parent y = parent y0 /\
                 (d <> p \/ t' <> t -> in2g_get y t' = in2g_get y0 t')).
      { unfold w1, wset in Ed. destruct (Nat.eqb_spec d p) as [->|N].
        - inversion Ed; subst y. exists xp. repeat split; auto. intros [?|N]; [congruence|]. rewrite G2.
          destruct (String.eqb_spec t' t); congruence.
        - exists y. repeat split; auto. }
      destruct W0 as (y0 & E0 & B1 & B2 & B3).
      assert (NP : d <> p \/ t' <> t).
      { destruct (Nat.eq_dec d p) as [->|]; auto. destruct (string_dec t' t) as [->|]; auto. exfalso. auto. }
      assert (Q : forall z, w q = Some z -> In d (in2g_get z t') -> exists z', w1 q = Some z' /\ In d (in2g_get z' t')).
      { intros z Z Hz. specialize (Gr q). rewrite Z in Gr. destruct Gr as (z' & Z1 & _ & _ & Z2 & _). eauto. }
      destruct (Nat.eq_dec d gid) as [->|Ng].
      - destruct (string_dec t' t) as [->|Nt].
        + assert (q = p) by congruence. subst q. exists xp'. split; [apply wset_same|]. rewrite G2, String.eqb_refl.
          apply nadd_in. auto.
        + destruct (I gid y0 q t' E0) as (z & Z1 & Z2); try congruence.
          * unfold used in *. rewrite <- B1, <- B3; auto.
          * intros [K|[_ K]]; auto.
          * eauto.
      - destruct (I d y0 q t' E0) as (z & Z1 & Z2); try congruence.
        + unfold used in *. rewrite <- B1, <- B3; auto.
        + intros [K|[K _]]; auto.
        + eauto. }
    specialize (Hr x eq_refl).
    destruct (IH w1 p t X T1 ltac:(intros; lia) I1) as (A & B & C). split; auto. split; auto.
    eapply grown_trans; eauto.
Qed.

Lemma reg_up_all_spec ts : forall w gid X, tree w ->
  indexedX (fun d t' => X d t' \/ (d = gid /\ In t' ts)) w ->
  let w' := reg_up_all F w gid ts in tree w' /\ indexedX X w' /\
    (forall d x, w d = Some x -> exists x', w' d = Some x' /\ wg x' = wg x /\ parent x' = parent x).
Proof.
  induction ts as [|t ts IH]; intros w gid X T I.
  - split; auto. split; [|eauto]. intros d x p t E P U N. apply (I d x p t E P U). intros [K|[_ []]]; auto.
  - cbn [reg_up_all fold_left].
    destruct (reg_up_spec F w gid t (fun d t' => X d t' \/ (d = gid /\ In t' ts)) T) as (A & B & C).
    + intros x E. eapply t_bound; eauto.
    + intros d x p t' E P U N. apply (I d x p t' E P U). intros [K|[-> [<-|K]]]; auto.
    + destruct (IH _ gid X A B) as (A1 & B1 & C1). split; auto. split; auto.
      intros d x E. specialize (C d). rewrite E in C. destruct C as (x1 & E1 & G1 & P1 & _).
      destruct (C1 d x1 E1) as (x2 & E2 & G2 & P2). exists x2. split; auto. split; congruence.
Qed.

Definition winv (w : world) : Prop := tree w /\ indexedX (fun _ _ => False) w.

(** new inputs of an edit are registered ones or old ones *)
Lemma apply_edit_uses g e g' i n t : wf g -> named e -> no_removal e -> apply_edit g e = Some g' ->
  node_at g' i n -> In t (n_in n) -> In t (registers g e) \/ exists j m, node_at g j m /\ In t (n_in m).
Proof.
  intros W N R H A Ht. destruct e; cbn [apply_edit named no_removal registers] in *.
  - destruct (make_node g name op payload ins outs) as [[g1 k]|] eqn:E; [|discriminate].
    inversion H; subst. cbn [fst] in *. destruct (make_node_spec _ _ _ _ _ _ _ _ W N E) as (W' & Ei & Nd & Hp & Ci).
    destruct A as [A B]. rewrite Nd in A. rewrite Hp in B. unfold hset in B.
    destruct (Nat.eqb_spec i k) as [->|Nj].
    + inversion B; subst n. auto.
    + right. exists i, n. split; auto. split; auto. apply in_app_or in A. destruct A as [A|[A|[]]]; auto. congruence.
  - contradiction.
  - destruct (live g i0) eqn:L; [|discriminate].
    destruct (replace_input_spec _ _ _ _ _ _ H) as (m & ins & E & -> & Hi).
    destruct (fin_op_spec g i0 m old new ins) as [S _].
    apply (in_changed_node _ _ _ _ _ E S) in A. destruct A as [(-> & Hl & ->)|[Nj A]]; [|right; eauto].
    cbn [with_in n_in] in Ht.
    assert (K : t = new \/ In t (n_in m)).
    { destruct idx as [k|].
      - destruct Hi as [_ ->]. now apply in_list_set in Ht.
      - subst ins. apply subst_in_in in Ht. tauto. }
    destruct K as [->|K]; [left; left; auto|]. right. exists i0, m. split; [split; auto|auto].
  - destruct (live g i0) eqn:L; [|discriminate].
    destruct (replace_inputs_spec _ _ _ _ H) as (m & E & S & _).
    apply (in_changed_node _ _ _ _ _ E S) in A. destruct A as [(-> & Hl & ->)|[Nj A]]; [|right; eauto].
    left. exact Ht.
  - contradiction.
  - destruct (live g i0) eqn:L; [|discriminate]. right.
    destruct (remove_input_spec _ _ _ _ _ H) as (m & E & [->|(k & Et & S & _)]); [eauto|].
    apply (in_changed_node _ _ _ _ _ E S) in A. destruct A as [(-> & Hl & ->)|[Nj A]]; [|eauto].
    exists i0, m. split; [split; auto|]. cbn [with_in n_in] in Ht. eapply in_remove_nth; eauto.
  - right. destruct (set_output_wf _ _ _ _ W H) as (W' & Ec & m & B & NA). apply NA in A.
    destruct A as [[-> ->]|[Nj A]]; [|eauto]. exists i0, m. auto.
  - left. destruct (forallb (live g) ops && nodupb ops) eqn:L; [|discriminate]. apply andb_prop in L. destruct L as [L1 L2].
    assert (Hs : forall i, In i ops -> In i (nodes g)).
    { intros k Hk. rewrite forallb_forall in L1. apply live_in. auto. }
    destruct (reset_nodes_spec g ops g' W Hs (nodupb_NoDup _ L2) H) as (_ & _ & Rn & Rh).
    destruct A as [A B]. rewrite Rn in A. rewrite Rh in B. apply in_concat. exists (n_in n). split; auto.
    apply in_map_iff. exists i. rewrite B. auto.
  - destruct (live g i0); [|discriminate]. inversion H; subst. right. exists i, n. auto.
  - destruct (out2node g o); [|discriminate]. destruct (smem o (g_outputs g)); [discriminate|].
    inversion H; subst. right. exists i, n. auto.
Qed.

(** replacing the flat graph of gid *)
Lemma tree_wset w gid x g' : tree w -> w gid = Some x -> wf g' -> cmpl g' ->
  tree (wset gid (mkW g' (parent x) (in2g x)) w).
Proof.
  intros [T1 T2 T3 T4] E W C.
  assert (Ex : forall q y, w q = Some y -> exists y', wset gid (mkW g' (parent x) (in2g x)) w q = Some y' /\ parent y' = parent y).
  { intros q y Eq. unfold wset. destruct (Nat.eqb_spec q gid) as [->|]; [|eauto].
    exists (mkW g' (parent x) (in2g x)). split; auto. cbn. congruence. }
  constructor.
  - intros d y p Ed P. assert (K : exists y0, w d = Some y0 /\ parent y0 = Some p).
    { unfold wset in Ed. destruct (Nat.eqb_spec d gid) as [->|]; [|eauto]. inversion Ed; subst. eauto. }
    destruct K as (y0 & E0 & P0). destruct (T1 _ _ _ E0 P0) as (R & z & Z). split; auto.
    destruct (Ex _ _ Z) as (z' & Z' & _). eauto.
  - intros d y Ed. unfold wset in Ed. destruct (Nat.eqb_spec d gid) as [->|]; eauto.
  - intros p y t s Ep Hs. assert (K : exists y0, w p = Some y0 /\ in2g_get y0 t = in2g_get y t).
    { unfold wset in Ep. destruct (Nat.eqb_spec p gid) as [->|]; [|eauto]. inversion Ep; subst. exists x. auto. }
    destruct K as (y0 & E0 & K). rewrite <- K in Hs. destruct (T3 _ _ _ _ E0 Hs) as (ys & A & B).
    destruct (Ex _ _ A) as (z' & Z' & P'). exists z'. split; auto. congruence.
  - intros d y Ed. unfold wset in Ed. destruct (Nat.eqb_spec d gid) as [->|]; [|eauto]. inversion Ed; subst. auto.
Qed.
Lemma indexed_wset w gid x g' ts : indexedX (fun _ _ => False) w -> w gid = Some x ->
  (forall t, (exists i n, node_at g' i n /\ In t (n_in n)) -> In t ts \/ used x t) ->
  indexedX (fun d t => False \/ (d = gid /\ In t ts)) (wset gid (mkW g' (parent x) (in2g x)) w).
Proof.
  intros I E U d y p t Ed P Ud NX.
  assert (K : exists y0, w d = Some y0 /\ parent y0 = Some p /\ (used y0 t \/ in2g_get y0 t <> [])).
  { unfold wset in Ed. destruct (Nat.eqb_spec d gid) as [->|]; [|eauto]. inversion Ed; subst y. exists x.
    split; auto. split; auto. destruct Ud as [Ud|Ud]; auto. destruct (U t Ud) as [K|K]; auto. exfalso. auto. }
  destruct K as (y0 & E0 & P0 & U0). destruct (I _ _ _ _ E0 P0 U0 ltac:(auto)) as (z & Z & Hz).
  unfold wset. destruct (Nat.eqb_spec p gid) as [->|]; [|eauto].
  exists (mkW g' (parent x) (in2g x)). split; auto. rewrite E in Z. inversion Z; subst. exact Hz.
Qed.

Lemma w_edit_inv w gid x e w' : winv w -> w gid = Some x -> named e -> no_removal e -> clean (wg x) e ->
  w_edit F w gid e = Some w' -> winv w'.
Proof.
  intros [T I] E N R K H. unfold w_edit in H. rewrite E in H.
  destruct (apply_edit (wg x) e) as [g'|] eqn:A; [|discriminate].
  destruct (t_ok _ T _ _ E) as [W C].
  assert (W' := apply_edit_wf _ _ _ W N A). assert (C' := apply_edit_cmpl _ _ _ W C N K A).
  assert (Un : unregisters (wg x) e = []) by (destruct e as [| | | | |? ? [?|]| | | |]; auto; contradiction).
  rewrite Un in H. cbn [fold_left] in H. inversion H; subst w'; clear H.
  assert (T1 := tree_wset _ _ _ _ T E W' C').
  assert (I1 : indexedX (fun d t => False \/ (d = gid /\ In t (registers (wg x) e)))
                 (wset gid (mkW g' (parent x) (in2g x)) w)).
  { apply indexed_wset; auto. intros t (i & n & An & Ht).
    destruct (apply_edit_uses _ _ _ _ _ _ W N R A An Ht) as [?|?]; auto. }
  destruct (reg_up_all_spec _ _ gid (fun _ _ => False) T1 I1) as (A1 & B1 & _). split; auto.
Qed.

(** effect of a global replacement on the whole world *)
Definition rel (old new : string) (w w' : world) : Prop :=
  forall d, match w d with
            | None => w' d = None
            | Some x => exists x', w' d = Some x' /\ parent x' = parent x /\
                          (forall t, t <> new -> in2g_get x' t = in2g_get x t) /\
                          exists l, rewired old new l (wg x) (wg x')
            end.
Lemma rewired_trans old new l1 l2 g g1 g2 :
  rewired old new l1 g g1 -> rewired old new l2 g1 g2 -> rewired old new (l1 ++ l2) g g2.
Proof.
  intros (A1 & A2 & A3 & A4 & A5 & A6 & A7) (B1 & B2 & B3 & B4 & B5 & B6 & B7).
  unfold rewired. repeat (split; [congruence|]). intro j. specialize (A7 j). specialize (B7 j).
  rewrite existsb_app. destruct (heap g j) as [n|].
  - rewrite A7 in B7. rewrite B7. cbn [with_in n_in n_name n_op n_payload n_out].
    destruct (existsb (Nat.eqb j) l1), (existsb (Nat.eqb j) l2); cbn [orb]; try rewrite subst_in_idem; reflexivity.
  - rewrite A7 in B7. exact B7.
Qed.
Lemma rel_refl old new w : rel old new w w.
Proof.
  intro d. destruct (w d) as [x|]; auto. exists x. repeat split; auto. exists []. apply rewired_refl.
Qed.
Lemma rel_trans old new w w1 w2 : rel old new w w1 -> rel old new w1 w2 -> rel old new w w2.
Proof.
  intros A B d. specialize (A d). specialize (B d). destruct (w d) as [x|].
  - destruct A as (x1 & E1 & A1 & A2 & l1 & A3). rewrite E1 in B.
    destruct B as (x2 & E2 & B1 & B2 & l2 & B3). exists x2. split; auto. split; [congruence|].
    split; [intros t N; rewrite B2, A2; auto|]. exists (l1 ++ l2). eapply rewired_trans; eauto.
  - rewrite A in B. exact B.
Qed.
Lemma grown_rel old new w w' : grown new w w' -> rel old new w w'.
Proof.
  intros G d. specialize (G d). destruct (w d) as [x|]; auto.
  destruct G as (x' & E & A & B & C & D). exists x'. split; auto. split; auto. split; auto.
  exists []. rewrite A. apply rewired_refl.
Qed.

Definition noold (old : string) (w : world) (d : nat) : Prop := forall i, ~ uses_at w d i old.
Lemma noold_rel old new w w' d : old <> new -> rel old new w w' -> noold old w d -> noold old w' d.
Proof.
  intros Ne R N i (x' & n' & E' & A & H). specialize (R d). destruct (w d) as [x|] eqn:E; [|congruence].
  destruct R as (x1 & E1 & _ & _ & l & R). assert (x1 = x') by congruence. subst x1.
  destruct R as (A1 & A2 & A3 & A4 & A5 & A6 & A7). destruct A as [A B]. specialize (A7 i).
  destruct (heap (wg x) i) as [n|] eqn:Eh; [|congruence]. rewrite B in A7. inversion A7; subst n'.
  apply (N i). exists x, n. split; auto. split; [split; congruence|]. cbn [with_in n_in] in H.
  destruct (existsb (Nat.eqb i) l); auto. apply subst_in_in in H. tauto.
Qed.

(** reachability through the index *)
Inductive chain_idx (w : world) (t : string) (root : nat) : nat -> Prop :=
| ci_refl : chain_idx w t root root
| ci_step x s d : w root = Some x -> In s (in2g_get x t) -> chain_idx w t s d -> chain_idx w t root d.
Lemma chain_idx_rel old new w w' r d : old <> new -> rel old new w w' -> chain_idx w old r d -> chain_idx w' old r d.
Proof.
  intros Ne R C. induction C as [r|r x s d E Hs C IH]; [constructor|].
  assert (Rr := R r). rewrite E in Rr. destruct Rr as (x' & E' & _ & G & _).
  eapply ci_step; eauto. rewrite G by auto. auto.
Qed.

Lemma w_replace_all_inv old new (Hne : old <> new) fuel : forall w gid w', winv w ->
  w_replace_all F fuel w gid old new = Some w' ->
  winv w' /\ rel old new w w' /\ (forall d, chain_idx w old gid d -> noold old w' d).
Proof.
  induction fuel as [|fuel IH]; intros w gid w' [T I] H; cbn [w_replace_all] in H; [discriminate|].
  destruct (w gid) as [x|] eqn:E; [|discriminate].
  destruct (String.eqb_spec old new) as [|_]; [congruence|].
  destruct (replace_all_inputs (wg x) old new None) as [g'|] eqn:Er; [|discriminate].
  destruct (t_ok _ T _ _ E) as [W C].
  destruct (replace_all_inputs_spec (wg x) old new None g' W Logic.I Er) as [[? _]|(_ & l & R & Cc & El & Hl)]; [congruence|].
  assert (W' := wf_rewired _ _ _ _ _ W R). specialize (Cc C).
  set (w1 := wset gid (mkW g' (parent x) (in2g x)) w) in *.
  assert (T1 : tree w1) by (apply tree_wset; auto).
  assert (R1 : rel old new w w1).
  { intro d. unfold w1, wset. destruct (Nat.eqb_spec d gid) as [->|].
    - rewrite E. eexists. split; [reflexivity|]. cbn. split; auto. split; auto. exists l. exact R.
    - destruct (w d) as [y|]; auto. exists y. repeat split; auto. exists []. apply rewired_refl. }
  set (targets := match consumers (wg x) old with
                  | Some names => found_nodes (wg x) names | None => [] end) in *.
  assert (Et : l = targets) by exact El.
  assert (U1 : forall t, (exists i n, node_at g' i n /\ In t (n_in n)) ->
               In t (match targets with [] => [] | _ => [new] end) \/ used x t).
  { intros t (i & n' & [A B] & Ht). destruct R as (A1 & A2 & A3 & A4 & A5 & A6 & A7). specialize (A7 i).
    destruct (heap (wg x) i) as [n|] eqn:Eh; [|congruence]. rewrite B in A7. inversion A7; subst n'.
    cbn [with_in n_in] in Ht. destruct (existsb (Nat.eqb i) l) eqn:Ex.
    - apply subst_in_in in Ht. destruct Ht as [[-> _]|[_ Ht]].
      + left. rewrite <- Et. destruct l; [discriminate|]. left. auto.
      + right. exists i, n. split; [split; congruence|auto].
    - right. exists i, n. split; [split; congruence|auto]. }
  assert (I1 := indexed_wset _ _ _ _ _ I E U1). fold w1 in I1.
  set (w2 := if match targets with [] => true | _ => false end then w1 else reg_up F w1 gid new) in *.
  assert (S2 : winv w2 /\ rel old new w1 w2).
  { unfold w2. destruct targets as [|a targets'].
    - split; [|apply rel_refl]. split; auto. intros d y p t Ed P Ud _. apply (I1 d y p t Ed P Ud).
      intros [[]|[_ []]].
    - destruct (reg_up_spec F w1 gid new (fun _ _ => False) T1) as (A & B & D).
      + intros y Ey. eapply t_bound; eauto.
      + intros d y p t Ed P Ud NX. apply (I1 d y p t Ed P Ud). intros [[]|[-> [<-|[]]]]. auto.
      + split; [split; auto|]. now apply grown_rel. }
  destruct S2 as [I2 R2].
  assert (R02 : rel old new w w2) by (eapply rel_trans; eauto).
  assert (Ng : noold old w1 gid).
  { intros i (y & n' & Ey & [A B] & Ht). unfold w1 in Ey. rewrite wset_same in Ey. inversion Ey; subst y.
    cbn [wg] in *. assert (R' := R). destruct R' as (A1 & A2 & A3 & A4 & A5 & A6 & A7). specialize (A7 i).
    destruct (heap (wg x) i) as [n|] eqn:Eh; [|congruence]. rewrite B in A7. inversion A7; subst n'.
    cbn [with_in n_in] in Ht.
    assert (An : node_at (wg x) i n) by (split; congruence).
    destruct (existsb (Nat.eqb i) l) eqn:Ex.
    - apply subst_in_in in Ht. destruct Ht as [[? _]|[? _]]; congruence.
    - assert (Hi : In i l) by (eapply Hl; eauto).
      assert (Tx : existsb (Nat.eqb i) l = true) by (apply existsb_exists; exists i; split; auto; apply Nat.eqb_refl).
      congruence. }
  (* the loop over the sub graphs *)
  assert (G : forall subs wa wb, winv wa -> rel old new w wa ->
     (fix go (subs : list nat) (w : world) : option world :=
        match subs with
        | [] => Some w
        | s :: subs' => match w_replace_all F fuel w s old new with
                        | None => None
                        | Some w' => go subs' w'
                        end
        end) subs wa = Some wb ->
     winv wb /\ rel old new wa wb /\ forall s d, In s subs -> chain_idx w old s d -> noold old wb d).
  { induction subs as [|s subs IHs]; intros wa wb Ia Ra Hg.
    - inversion Hg; subst. split; auto. split; [apply rel_refl|]. intros s d [].
    - destruct (w_replace_all F fuel wa s old new) as [wm|] eqn:Em; [|discriminate].
      destruct (IH wa s wm Ia Em) as (J1 & J2 & J3).
      destruct (IHs wm wb J1 (rel_trans _ _ _ _ _ Ra J2) Hg) as (K1 & K2 & K3).
      split; auto. split; [eapply rel_trans; eauto|]. intros s' d [<-|Hs] Ci; [|eauto].
      eapply noold_rel; eauto. apply J3. eapply chain_idx_rel; eauto. }
  destruct (G _ _ _ I2 R02 H) as (K1 & K2 & K3).
  split; auto. split; [eapply rel_trans; eauto|].
  intros d Ci. inversion Ci as [|x' s d' E' Hs Ci']; subst.
  - eapply noold_rel; [exact Hne| |exact Ng]. eapply rel_trans; eauto.
  - eapply K3; eauto. congruence.
Qed.

(** a used tensor is reachable through the index *)
Lemma chain_idx_snoc w t r p x d : chain_idx w t r p -> w p = Some x -> In d (in2g_get x t) -> chain_idx w t r d.
Proof.
  intro C. induction C as [r|r y s p E Hs C IH]; intros E2 H.
  - eapply ci_step; eauto. constructor.
  - eapply ci_step; eauto.
Qed.
Lemma below_chain w t root d : winv w -> below w root d ->
  forall x, w d = Some x -> used x t \/ in2g_get x t <> [] -> chain_idx w t root d.
Proof.
  intros [T I] B. induction B as [x0 E0|d x p E P B IH]; intros y Ey U; [constructor|].
  assert (y = x) by congruence. subst y.
  destruct (I d x p t E P U) as (xp & Exp & Hd); auto.
  eapply chain_idx_snoc; [apply (IH xp Exp)| |]; eauto. right. intro K. rewrite K in Hd. destruct Hd.
Qed.

Lemma below_rel old new w w' root d : rel old new w w' -> below w' root d -> below w root d.
Proof.
  intros R B. induction B as [x E|d x p E P B IH].
  - specialize (R root). destruct (w root) as [y|] eqn:Ey; [|congruence]. econstructor; eauto.
  - assert (Rd := R d). destruct (w d) as [y|] eqn:Ey; [|congruence].
    destruct Rd as (x' & E' & P' & _). assert (x' = x) by congruence. subst.
    eapply below_step; eauto. congruence.
Qed.

Lemma w_replace_all_complete old new fuel w gid w' : old <> new -> winv w ->
  w_replace_all F fuel w gid old new = Some w' ->
  (forall d i, below w' gid d -> ~ uses_at w' d i old) /\ winv w' /\ rel old new w w'.
Proof.
  intros Ne Iw H. destruct (w_replace_all_inv old new Ne fuel w gid w' Iw H) as (A & B & C).
  split; [|auto]. intros d i Bd U. assert (Bd' := below_rel _ _ _ _ _ _ B Bd).
  assert (U0 := U). destruct U as (x' & n' & E' & An & Ht).
  destruct (w d) as [x|] eqn:E.
  2:{ specialize (B d). rewrite E in B. congruence. }
  (* if d did not use old before, it does not now; otherwise it is reachable *)
  assert (Dec : used x old \/ ~ used x old).
  { assert (Rd := B d). rewrite E in Rd. destruct Rd as (x1 & E1 & _ & _ & l & R).
    assert (x1 = x') by congruence. subst. destruct R as (A1 & A2 & A3 & A4 & A5 & A6 & A7).
    destruct An as [An1 An2]. specialize (A7 i). destruct (heap (wg x) i) as [n|] eqn:Eh; [|congruence].
    rewrite An2 in A7. inversion A7; subst n'. cbn [with_in n_in] in Ht. left. exists i, n.
    split; [split; congruence|]. destruct (existsb (Nat.eqb i) l); auto. apply subst_in_in in Ht.
    destruct Ht as [[? _]|[? _]]; congruence. }
  destruct Dec as [Ud|Nd].
  - apply (C d) in U0; auto. eapply below_chain; eauto.
  - apply Nd. assert (Rd := B d). rewrite E in Rd. destruct Rd as (x1 & E1 & _ & _ & l & R).
    assert (x1 = x') by congruence. subst. destruct R as (A1 & A2 & A3 & A4 & A5 & A6 & A7).
    destruct An as [An1 An2]. specialize (A7 i). destruct (heap (wg x) i) as [n|] eqn:Eh; [|congruence].
    rewrite An2 in A7. inversion A7; subst n'. cbn [with_in n_in] in Ht. exists i, n.
    split; [split; congruence|]. destruct (existsb (Nat.eqb i) l); auto. apply subst_in_in in Ht.
    destruct Ht as [[? _]|[? _]]; congruence.
Qed.

(** find_output_consumers over the tree *)
Lemma below_trans_step w s root d x : w root <> None -> w s = Some x -> parent x = Some root -> below w s d -> below w root d.
Proof.
  intros Hr E P B. induction B as [y Ey|d y p Ey Py B IH].
  - destruct (w root) as [z|] eqn:Ez; [|congruence]. apply (below_step _ _ _ x root); auto. econstructor; eauto.
  - eapply below_step; eauto.
Qed.
Lemma w_find_spec t fuel : forall w gid, winv w -> (forall x, w gid = Some x -> F <= rank gid + fuel) ->
  forall d i, In (d, i) (w_find_consumers fuel w gid t) <-> (chain_idx w t gid d /\ uses_at w d i t).
Proof.
  induction fuel as [|fuel IH]; intros w gid [T I] Hf d i; cbn [w_find_consumers].
  - split; [intros []|]. intros [C (x & n & E & A & Ht)].
    assert (exists y, w gid = Some y).
    { inversion C; subst; eauto. }
    destruct H as (y & Ey). specialize (Hf y Ey). assert (K := t_bound _ T _ _ Ey). lia.
  - destruct (w gid) as [x|] eqn:E.
    2:{ split; [intros []|]. intros [C (x & n & Ex & _)]. inversion C; subst; congruence. }
    destruct (t_ok _ T _ _ E) as [W Cm]. rewrite in_app_iff. split.
    + intros [H|H].
      * apply in_map_iff in H. destruct H as (j & Ej & H). inversion Ej; subst.
        apply (find_consumers_in _ _ _ W) in H. destruct H as (n & A & _ & Ht). split; [constructor|].
        exists x, n. auto.
      * apply in_concat in H. destruct H as (l & Hl & H). apply in_map_iff in Hl. destruct Hl as (s & <- & Hs).
        destruct (t_child _ T _ _ _ _ E Hs) as (xs & Es & Ps). destruct (t_rank _ T _ _ _ Es Ps) as [Rk _].
        apply IH in H; [|split; auto|intros; specialize (Hf x eq_refl); lia]. destruct H as [C U].
        split; auto. eapply ci_step; eauto.
    + intros [C U]. inversion C as [|x' s d' E' Hs C']; subst.
      * left. destruct U as (y & n & Ey & A & Ht). assert (y = x) by congruence. subst y.
        apply in_map_iff. exists i. split; auto. apply (find_consumers_in _ _ _ W). exists n.
        split; auto. split; auto. eapply Cm; eauto.
      * right. assert (x' = x) by congruence. subst x'. apply in_concat.
        exists (w_find_consumers fuel w s t). split; [apply in_map_iff; eauto|].
        destruct (t_child _ T _ _ _ _ E Hs) as (xs & Es & Ps). destruct (t_rank _ T _ _ _ Es Ps) as [Rk _].
        apply IH; [split; auto|intros; specialize (Hf x eq_refl); lia|auto].
Qed.
Lemma chain_below w t root d : winv w -> w root <> None -> chain_idx w t root d -> below w root d.
Proof.
  intros [T I] Hr C. induction C as [r|r x s d E Hs C IH].
  - destruct (w r) as [x|] eqn:E; [|congruence]. econstructor; eauto.
  - destruct (t_child _ T _ _ _ _ E Hs) as (xs & Es & Ps).
    eapply below_trans_step; eauto. apply IH. congruence.
Qed.
End Nested.

Lemma fresh_winv F w : fresh_world F w -> exists rank, winv F rank w.
Proof.
  intros (Hf & rank & H1 & H2). exists rank. split.
  - constructor; [exact H1|exact H2| |].
    + intros p xp t s E Hs. destruct (Hf _ _ E) as [_ K]. unfold in2g_get in Hs. rewrite K in Hs. destruct Hs.
    + intros d x E. destruct (Hf _ _ E) as [K _]. rewrite K. split; [apply wf_empty|apply cmpl_empty].
  - intros d x p t E P [(i & n & [A _] & _)|U] _.
    + destruct (Hf _ _ E) as [K _]. rewrite K in A. destruct A.
    + destruct (Hf _ _ E) as [_ K]. unfold in2g_get in U. rewrite K in U. exfalso. apply U. reflexivity.
Qed.
Lemma history_winv F rank w w' : winv F rank w -> w_history F w w' -> winv F rank w'.
Proof.
  intros I H. induction H as [w|w1 w2 w3 gid x e H IH E N R C Hw|w1 w2 w3 gid old new H IH Hw]; auto; specialize (IH I).
  - exact (w_edit_inv _ _ _ _ _ _ _ IH E N R C Hw).
  - destruct (string_dec old new) as [->|Ne].
    + destruct F as [|F']; [discriminate|]. cbn [w_replace_all] in Hw. destruct (w2 gid); [|discriminate].
      rewrite String.eqb_refl in Hw. inversion Hw; subst. auto.
    + eapply w_replace_all_complete; eauto.
Qed.

Lemma nested_replace_complete F w0 w gid old new w' :
  fresh_world F w0 -> w_history F w0 w -> old <> new -> w_replace_all F F w gid old new = Some w' ->
  (forall d i, below w' gid d -> ~ uses_at w' d i old) /\
  (forall d x, w d = Some x -> exists x', w' d = Some x' /\ parent x' = parent x /\ same_except_inputs (wg x) (wg x') /\
     forall i n, node_at (wg x) i n -> exists n', node_at (wg x') i n' /\
        (n_in n' = n_in n \/ n_in n' = subst_in old new (n_in n))).
Proof.
  intros Hf Hh Ne H. destruct (fresh_winv _ _ Hf) as (rank & I). assert (I2 := history_winv _ _ _ _ I Hh).
  destruct (w_replace_all_complete F rank old new F w gid w' Ne I2 H) as (A & _ & R). split; auto.
  intros d x E. specialize (R d). rewrite E in R. destruct R as (x' & E' & P & _ & l & R).
  destruct (rewired_effect _ _ _ _ _ R) as [S1 S2].
  exists x'. split; auto. split; auto. split; auto. intros i n An. destruct (S2 i n An) as (n' & A' & E2).
  exists n'. split; auto. destruct (existsb _ _); auto.
Qed.
Lemma nested_find_complete F w0 w gid t : fresh_world F w0 -> w_history F w0 w -> w gid <> None ->
  forall d i, In (d, i) (w_find_consumers F w gid t) <-> (below w gid d /\ uses_at w d i t).
Proof.
  intros Hf Hh Hg d i. destruct (fresh_winv _ _ Hf) as (rank & I). assert (I2 := history_winv _ _ _ _ I Hh).
  rewrite (w_find_spec F rank t F w gid I2) by (intros; lia). split.
  - intros [C U]. split; auto. eapply chain_below; eauto.
  - intros [B U]. split; auto. destruct U as (x & n & E & A & Ht). eapply below_chain; eauto. left. exists i, n. auto.
Qed.
