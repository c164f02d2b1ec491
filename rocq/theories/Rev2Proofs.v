(** ReverseV2: the chain of Transpose and ReverseSequence computes tf.reverse. *)
From Coq Require Import List Arith ZArith Bool Lia Permutation Sorted.
From Verif Require Import Tensor FoldModel OnnxSpec TensorProofs TOps TOpsProofs TOpsProofs2 SpaceModel SpaceProofs2 PushProofs RollModel Rev2Model Rev2Spec.
Import ListNotations.
Local Open Scope list_scope.

(** ** sorted *)
Lemma insert_perm a l : Permutation (insert_sorted a l) (a :: l).
Proof. induction l as [|b l IH]; cbn; auto. destruct (Nat.leb a b); auto. rewrite IH. apply perm_swap. Qed.
Lemma sorted_perm l : Permutation (sorted l) l.
Proof. induction l as [|a l IH]; cbn; auto. rewrite insert_perm. now constructor. Qed.
Lemma insert_strong a l : StronglySorted lt l -> ~ In a l -> StronglySorted lt (insert_sorted a l).
Proof.
  induction l as [|b l IH]; intros H N; cbn; [repeat constructor|]. inversion H as [|? ? H1 H2]; subst. destruct (Nat.leb_spec a b).
  - constructor; auto. assert (a <> b) by (intro; subst; apply N; now left). constructor; [lia|]. eapply Forall_impl; [|exact H2]. intros; lia.
  - constructor; [apply IH; auto; intro; apply N; now right|]. rewrite insert_perm. constructor; auto.
Qed.
Lemma sorted_strong l : NoDup l -> StronglySorted lt (sorted l).
Proof.
  induction 1 as [|a l N _ IH]; cbn; [constructor|]. apply insert_strong; auto. intro H. apply N. now rewrite <- (sorted_perm l).
Qed.

(** ** exchanging entry 0 *)
Lemma swap0_len a p : length (swap0 a p) = length p.
Proof. unfold swap0. now rewrite !upd_len. Qed.
Lemma swap0_nth a p k : a < length p -> k < length p -> nth k (swap0 a p) 0 = if Nat.eqb k a then nth 0 p 0 else if Nat.eqb k 0 then nth a p 0 else nth k p 0.
Proof.
  intros Ha Hk. unfold swap0. rewrite !upd_nth, upd_len. rewrite (proj2 (Nat.ltb_lt a _) Ha). rewrite (proj2 (Nat.ltb_lt 0 _)) by lia. reflexivity.
Qed.
Lemma swap0_tau r a : a < r -> forall p, length p = r -> pick (swap0 a (seq 0 r)) p = swap0 a p.
Proof.
  intros Ha p L. apply list_nth_ext; [now rewrite pick_length, !swap0_len, seq_length|]. rewrite pick_length, swap0_len, seq_length. intros k Hk.
  rewrite pick_nth by (now rewrite swap0_len, seq_length). rewrite !swap0_nth by (rewrite ?seq_length; lia). rewrite !seq_nth by lia. cbn [Nat.add].
  destruct (Nat.eqb k a); auto. destruct (Nat.eqb_spec k 0); subst; auto.
Qed.
Lemma swap0_twice a p : a < length p -> swap0 a (swap0 a p) = p.
Proof.
  intro Ha. apply list_nth_ext; [now rewrite !swap0_len|]. rewrite !swap0_len. intros k Hk. rewrite swap0_nth by (rewrite ?swap0_len; auto).
  destruct (Nat.eqb_spec k a) as [->|Nk].
  - rewrite swap0_nth by lia. destruct (Nat.eqb_spec 0 a) as [<-|]; reflexivity.
  - destruct (Nat.eqb_spec k 0) as [->|N0].
    + rewrite swap0_nth by lia. now rewrite Nat.eqb_refl.
    + rewrite swap0_nth by lia. now rewrite (proj2 (Nat.eqb_neq k a) Nk), (proj2 (Nat.eqb_neq k 0) N0).
Qed.
Lemma tau_perm r a : a < r -> is_perm (swap0 a (seq 0 r)) r.
Proof.
  intro Ha. apply incl_perm; [now rewrite swap0_len, seq_length|]. intros k Hk.
  assert (Q : forall j, j < r -> nth j (swap0 a (seq 0 r)) 0 = k -> In k (swap0 a (seq 0 r))).
  { intros j Hj <-. apply nth_In. now rewrite swap0_len, seq_length. }
  assert (N : forall j, j < r -> nth j (swap0 a (seq 0 r)) 0 = if Nat.eqb j a then 0 else if Nat.eqb j 0 then a else j).
  { intros j Hj. rewrite swap0_nth by (rewrite seq_length; lia). now rewrite !seq_nth by lia. }
  destruct (Nat.eq_dec k 0) as [->|N0]; [apply (Q a); auto; rewrite N by auto; now rewrite Nat.eqb_refl|].
  destruct (Nat.eq_dec k a) as [->|Na]; [apply (Q 0); [lia|]; rewrite N by lia; destruct (Nat.eqb_spec 0 a); [lia|]; reflexivity|].
  apply (Q k); auto. rewrite N by auto. rewrite (proj2 (Nat.eqb_neq k a)), (proj2 (Nat.eqb_neq k 0)); auto.
Qed.
Lemma swap0_perm r a p : a < r -> is_perm p r -> is_perm (swap0 a p) r.
Proof. intros Ha P. rewrite <- (swap0_tau r a Ha p) by (now apply is_perm_length). apply pick_perm; auto. now apply tau_perm. Qed.
Lemma swap0_pick r a p l : a < r -> length p = r -> pick (swap0 a p) l = swap0 a (pick p l).
Proof.
  intros Ha L. rewrite <- (swap0_tau r a Ha p) by auto. rewrite <- (swap0_tau r a Ha (pick p l)) by (now rewrite pick_length).
  symmetry. apply pick_pick. intros k Hk. apply (is_perm_in _ _ (tau_perm r a Ha)) in Hk. lia.
Qed.

(** ** one round *)
Lemma expand_1 (v : Z) b : f_expand [Z.of_nat b] (tvec [v]) = Some (tvec (repeat v b)).
Proof.
  unfold f_expand. cbn [forallb]. rewrite (proj2 (Z.leb_le 0 (Z.of_nat b))) by lia. cbn [andb map]. rewrite Nat2Z.id. unfold tvec at 1 2 3 4. cbn [shape length].
  change (Nat.max 1 1) with 1. unfold pad_ones. cbn [length Nat.sub repeat app bcast_dims].
  replace (if Nat.eqb 1 b then Some [1] else if Nat.eqb 1 1 then Some [b] else if Nat.eqb b 1 then Some [1] else None) with (Some [b]) by (destruct (Nat.eqb_spec 1 b); subst; reflexivity).
  apply build_vec; [apply repeat_length|]. intros i Hi.
  rewrite (nth_error_nth' _ v) by (now rewrite repeat_length). rewrite nth_repeat. reflexivity.
Qed.
Lemma gather_1 (l : list nat) k : k < length l -> f_gather 0 (tvec (map Z.of_nat l)) (tvec [Z.of_nat k]) = Some (tvec [Z.of_nat (nth k l 0)]).
Proof.
  intro H. change (tvec [Z.of_nat k]) with (zvec (map Z.of_nat [k])). rewrite (gather_vec 0%Z) by (constructor; auto; now rewrite map_length). cbn [map].
  do 3 f_equal. change 0%Z with (Z.of_nat 0). now rewrite map_nth.
Qed.
Lemma set_dim_inb k v ix sh : inb ix sh -> v < nth k sh 0 -> inb (set_dim k v ix) sh.
Proof.
  revert ix sh. induction k as [|k IH]; intros [|i ix] [|d sh] H K; cbn in *; try tauto. split; [tauto|]. apply IH; tauto.
Qed.
Lemma reverse_full {T} (t : tensor T) : wf t -> 2 <= length (shape t) ->
  exists z, f_reverse_sequence 0 1 (repeat (Z.of_nat (nth 0 (shape t) 0)) (nth 1 (shape t) 0)) t = Some z /\ wf z /\ shape z = shape t /\
    forall ix, inb ix (shape t) -> get z ix = get t (set_dim 0 (nth 0 (shape t) 0 - 1 - nth 0 ix 0) ix).
Proof.
  intros W R. unfold f_reverse_sequence. cbv zeta. set (n := nth 0 (shape t) 0). set (b := nth 1 (shape t) 0).
  replace (_ && _) with true.
  2:{ symmetry. rewrite !andb_true_iff. repeat split; auto; [now apply Nat.leb_le|now rewrite repeat_length, Nat.eqb_refl|].
      apply forallb_forall. intros z Hz. apply repeat_spec in Hz. subst. apply andb_true_iff. split; apply Z.leb_le; lia. }
  assert (Q : forall ix, inb ix (shape t) ->
     get t (if Nat.ltb (nth 0 ix 0) (Z.to_nat (nth (nth 1 ix 0) (repeat (Z.of_nat n) b) 0%Z)) then set_dim 0 (Z.to_nat (nth (nth 1 ix 0) (repeat (Z.of_nat n) b) 0%Z) - 1 - nth 0 ix 0) ix else ix)
     = get t (set_dim 0 (n - 1 - nth 0 ix 0) ix)).
  { intros ix H. apply inb_nth in H. destruct H as [L H]. assert (H0 := H 0 ltac:(lia)). assert (H1 := H 1 ltac:(lia)). fold n in H0. fold b in H1.
    rewrite (nth_indep _ 0%Z (Z.of_nat n)) by (now rewrite repeat_length). rewrite nth_repeat, Nat2Z.id. now rewrite (proj2 (Nat.ltb_lt _ _) H0). }
  match goal with |- exists z, build ?sh ?f = Some z /\ _ => destruct (build_ex sh f) as (z & B & S1 & W1 & G1) end.
  - intros ix H. cbv zeta. rewrite Q by auto. apply get_some; auto. apply set_dim_inb; auto. apply inb_nth in H. destruct H as [L H].
    assert (H0 := H 0 ltac:(lia)). fold n in H0 |- *. lia.
  - exists z. split; auto. split; auto. split; auto. intros ix H. rewrite G1 by auto. cbv zeta. now apply Q.
Qed.

(** ** mirrored indices *)
Lemma mirrored_length ax sh ix : length ix = length sh -> length (mirrored ax sh ix) = length sh.
Proof. intro H. unfold mirrored. rewrite map_length, !combine_length, seq_length. lia. Qed.
Lemma mirrored_nth ax sh ix k : length ix = length sh -> k < length sh ->
  nth k (mirrored ax sh ix) 0 = if existsb (Nat.eqb k) ax then nth k sh 0 - 1 - nth k ix 0 else nth k ix 0.
Proof.
  intros L H. unfold mirrored.
  set (f := fun '(k, (d, i)) => if existsb (Nat.eqb k) ax then d - 1 - i else i).
  rewrite (nth_indep _ 0 (f (0, (0, 0)))) by (rewrite map_length, !combine_length, seq_length; lia). rewrite map_nth.
  rewrite combine_nth by (rewrite seq_length, combine_length; lia). rewrite combine_nth by auto. rewrite seq_nth by auto. reflexivity.
Qed.
Lemma mirrored_inb ax sh ix : inb ix sh -> inb (mirrored ax sh ix) sh.
Proof.
  intro H. apply inb_nth in H. destruct H as [L H]. apply inb_nth. split; [now apply mirrored_length|]. intros k Hk. rewrite mirrored_nth by auto.
  specialize (H k Hk). destruct (existsb (Nat.eqb k) ax); lia.
Qed.
Lemma mirrored_nil sh ix : length ix = length sh -> mirrored [] sh ix = ix.
Proof. intro L. apply list_nth_ext; [now rewrite mirrored_length|]. rewrite mirrored_length by auto. intros k Hk. now rewrite mirrored_nth. Qed.
Lemma mirrored_cons a ax sh ix : a < length sh -> length ix = length sh -> ~ In a ax ->
  mirrored (a :: ax) sh ix = set_dim a (nth a sh 0 - 1 - nth a (mirrored ax sh ix) 0) (mirrored ax sh ix).
Proof.
  intros Ha L N. apply list_nth_ext; [now rewrite set_dim_len, !mirrored_length|]. rewrite mirrored_length by auto. intros k Hk.
  rewrite set_dim_nth by (rewrite mirrored_length; auto). rewrite !mirrored_nth by auto. cbn [existsb].
  assert (E : existsb (Nat.eqb a) ax = false). { apply not_true_iff_false. rewrite existsb_exists. intros (j & Hj & E). apply Nat.eqb_eq in E. now subst. }
  destruct (Nat.eqb_spec k a) as [-> | K]; cbn [orb]; auto. now rewrite E.
Qed.
Section Loop.
Context {A : Type} (zero : A) (opset : nat) (env : list (value A)) (base : expr A) (x : tensor A) (r : nat).
Hypothesis Op10 : 10 <= opset.
Hypothesis Wx : wf x.
Hypothesis Rx : length (shape x) = r.
Hypothesis R2 : 2 <= r.
Notation ev := (eval zero opset env).
Hypothesis Eb : ev base = Some (D x).
Lemma step_ok L t a dat : is_perm L r -> wf t -> shape t = pick L (shape x) -> a < r -> nth a L 0 = a -> ev dat = Some (D t) ->
  exists z, ev (reverse_step r base dat a) = Some (D z) /\ wf z /\ shape z = pick (swap0 a L) (shape x) /\
    forall jx, inb jx (shape x) -> get z (pick (swap0 a L) jx) = get t (pick L (set_dim a (nth a (shape x) 0 - 1 - nth a jx 0) jx)).
Proof.
  intros P Wt St Ha Fix Ed. unfold reverse_step. cbv zeta.
  assert (LL : length L = r) by (now apply is_perm_length).
  assert (Lt : length (shape t) = r) by (rewrite St, pick_length; auto).
  assert (PL' : is_perm (swap0 a L) r) by (now apply swap0_perm).
  assert (X : exists u, ev (if negb (Nat.eqb a 0) then Op (Transpose (Some (swap0 a (orig_perm r)))) [dat] else dat) = Some (D u) /\
     wf u /\ shape u = pick (swap0 a L) (shape x) /\ forall jx, inb jx (shape x) -> get u (pick (swap0 a L) jx) = get t (pick L jx)).
  { destruct (Nat.eqb_spec a 0) as [-> | N]; cbn [negb].
    - exists t. assert (E : swap0 0 L = L). { apply list_nth_ext; [apply swap0_len|]. rewrite swap0_len. intros k Hk. rewrite swap0_nth by lia. destruct (Nat.eqb_spec k 0); subst; auto. }
      rewrite E. auto.
    - destruct (transpose_spec (swap0 a (orig_perm r)) t Wt) as (u & D1 & S1 & W1 & G1); [rewrite Lt; now apply tau_perm|].
      exists u. split; [rewrite (ev1 _ _ _ _ _ _ Ed); cbn [apply lift]; now rewrite D1|]. split; auto. unfold orig_perm in *.
      split; [rewrite S1, St, swap0_tau by (rewrite ?pick_length; auto); symmetry; eapply swap0_pick; eauto|].
      intros jx Hj. rewrite (swap0_pick r) by auto. rewrite <- (swap0_tau r a Ha (pick L jx)) by (now rewrite pick_length).
      apply G1. rewrite St. eapply pick_inb; eauto. }
  destruct X as (u & Eu & Wu & Su & Gu). set (inp := if negb (Nat.eqb a 0) then _ else dat) in *.
  assert (Lu : length (shape u) = r) by (rewrite Su, pick_length, swap0_len; auto).
  assert (E0 : nth 0 (swap0 a L) 0 = a). { rewrite swap0_nth by lia. destruct (Nat.eqb_spec 0 a); subst; auto. }
  assert (N0 : nth 0 (shape u) 0 = nth a (shape x) 0) by (rewrite Su, pick_nth, E0; auto; rewrite swap0_len; lia).
  assert (Es : ev (Op Shape [inp]) = Some (I (tvec (map Z.of_nat (shape u))))) by (rewrite (ev1 _ _ _ _ _ _ Eu); reflexivity).
  assert (Eb' : ev (Op Shape [base]) = Some (I (tvec (map Z.of_nat (shape x))))) by (rewrite (ev1 _ _ _ _ _ _ Eb); reflexivity).
  assert (Eg : ev (Op (Gather 0) [Op Shape [inp]; vec [1%Z]]) = Some (I (tvec [Z.of_nat (nth 1 (shape u) 0)]))).
  { rewrite (ev2 _ _ _ _ _ _ _ _ Es (ev_vec _ _ _ _)). cbn [apply lift]. change 1%Z with (Z.of_nat 1). rewrite gather_1 by lia. reflexivity. }
  assert (Ea : ev (Op (Gather 0) [Op Shape [base]; vec [Z.of_nat a]]) = Some (I (tvec [Z.of_nat (nth a (shape x) 0)]))).
  { rewrite (ev2 _ _ _ _ _ _ _ _ Eb' (ev_vec _ _ _ _)). cbn [apply lift]. rewrite gather_1 by lia. reflexivity. }
  assert (Ex : ev (Op Expand [Op (Gather 0) [Op Shape [base]; vec [Z.of_nat a]]; Op (Gather 0) [Op Shape [inp]; vec [1%Z]]]) = Some (I (tvec (repeat (Z.of_nat (nth 0 (shape u) 0)) (nth 1 (shape u) 0))))).
  { rewrite (ev2 _ _ _ _ _ _ _ _ Ea Eg). cbn [apply ints obind lift]. rewrite as_vec_tvec. cbn [obind]. rewrite expand_1, N0. reflexivity. }
  destruct (reverse_full u Wu ltac:(lia)) as (z & Dz & Wz & Sz & Gz).
  exists z. split; [|split; auto; split; [congruence|]].
  - rewrite (ev2 _ _ _ _ _ _ _ _ Eu Ex). cbn [apply]. rewrite (proj2 (Nat.ltb_ge opset 10) Op10). cbn [ints obind lift]. rewrite as_vec_tvec. cbn [obind lift]. now rewrite Dz.
  - intros jx Hj. assert (Lj := inb_length _ _ Hj). rewrite Gz by (rewrite Su; eapply pick_inb; eauto). rewrite N0. rewrite pick_nth by (rewrite swap0_len; lia). rewrite E0.
    assert (PS := pick_set_dim (swap0 a L) r 0 (nth a (shape x) 0 - 1 - nth a jx 0) jx PL' ltac:(lia) ltac:(lia)). rewrite E0 in PS. rewrite <- PS.
    apply Gu. apply set_dim_inb; auto. apply inb_nth in Hj. destruct Hj as [_ Hj]. specialize (Hj a ltac:(lia)). lia.
Qed.

Lemma loop_ok : forall axs L t dat, StronglySorted lt axs -> (forall a, In a axs -> a < r /\ nth a L 0 = a) -> is_perm L r ->
  wf t -> shape t = pick L (shape x) -> ev dat = Some (D t) ->
  let Lf := fold_left (fun p a => swap0 a p) axs L in
  exists z, ev (fold_left (reverse_step r base) axs dat) = Some (D z) /\ wf z /\ shape z = pick Lf (shape x) /\ is_perm Lf r /\
    pick (fold_right swap0 (seq 0 r) axs) Lf = L /\
    forall jx, inb jx (shape x) -> get z (pick Lf jx) = get t (pick L (mirrored axs (shape x) jx)).
Proof.
  induction axs as [|a axs IH]; intros L t dat Hs Hf P Wt St Ed; cbv zeta.
  - exists t. cbn [fold_left fold_right]. split; auto. split; auto. split; auto. split; auto. split; [rewrite <- (is_perm_length _ _ P); apply pick_seq|].
    intros jx Hj. rewrite mirrored_nil; auto. now apply inb_length.
  - apply StronglySorted_inv in Hs. destruct Hs as [Hs' Hlt]. rewrite Forall_forall in Hlt. destruct (Hf a (or_introl eq_refl)) as [Ha Fa].
    destruct (step_ok L t a dat P Wt St Ha Fa Ed) as (t1 & E1 & W1 & S1 & G1).
    assert (LL : length L = r) by (now apply is_perm_length).
    destruct (IH (swap0 a L) t1 (reverse_step r base dat a) Hs') as (z & Ez & Wz & Sz & Pz & Qz & Gz); auto.
    + intros a' Ha'. destruct (Hf a' (or_intror Ha')) as [H1 H2]. split; auto. specialize (Hlt _ Ha'). rewrite swap0_nth by lia.
      rewrite (proj2 (Nat.eqb_neq a' a)), (proj2 (Nat.eqb_neq a' 0)) by lia. auto.
    + now apply swap0_perm.
    + exists z. cbn [fold_left fold_right]. split; auto. split; auto. split; auto. split; auto. split.
      * rewrite (swap0_pick r); [rewrite Qz; apply swap0_twice; lia|auto|].
        clear. induction axs as [|b axs IH]; cbn; [apply seq_length|now rewrite swap0_len].
      * intros jx Hj. rewrite Gz by auto. rewrite G1 by (now apply mirrored_inb). rewrite mirrored_cons; auto; [lia|now apply inb_length|].
        intro H. apply Hlt in H. lia.
Qed.
Lemma restore_is axs : axs <> [] -> restore_perm r axs = fold_right swap0 (seq 0 r) axs.
Proof.
  intro N. unfold restore_perm, orig_perm. destruct (exists_last N) as (l & a & ->). rewrite rev_app_distr. cbn [rev app tl]. rewrite last_last.
  rewrite fold_right_app. cbn [fold_right]. rewrite <- fold_left_rev_right, rev_involutive. reflexivity.
Qed.
Lemma reverse_axes_ok axs : axs <> [] -> StronglySorted lt axs -> (forall a, In a axs -> a < r) ->
  exists y, ev (reverse_axes r base axs) = Some (D y) /\ wf y /\ shape y = shape x /\
    forall jx, inb jx (shape x) -> get y jx = get x (mirrored axs (shape x) jx).
Proof.
  intros N Hs Hl.
  destruct (loop_ok axs (seq 0 r) x base Hs) as (z & Ez & Wz & Sz & Pz & Qz & Gz); auto.
  - intros a Ha. split; auto. rewrite seq_nth; auto.
  - apply Permutation_refl.
  - rewrite <- Rx. symmetry. apply pick_seq.
  - set (Lf := fold_left (fun p a => swap0 a p) axs (seq 0 r)) in *. unfold reverse_axes. cbv zeta.
    assert (PL : length Lf = r) by (now apply is_perm_length).
    assert (Q0 : forall axs, (forall a, In a axs -> a < r) -> is_perm (fold_right swap0 (seq 0 r) axs) r).
    { clear -R2. induction axs as [|a axs IH]; intro H; cbn [fold_right]; [apply Permutation_refl|]. apply swap0_perm; [apply H; now left|apply IH; intros; apply H; now right]. }
    unfold list_eqb. destruct list_eq_dec as [E|NE].
    + (* only axis 0 *)
      assert (La : last axs 0 = 0).
      { destruct (Nat.eq_dec (last axs 0) 0) as [|K]; auto. exfalso. assert (Hin : In (last axs 0) axs) by (destruct (exists_last N) as (l & a & ->); rewrite last_last; apply in_or_app; cbn; auto).
        apply Hl in Hin. assert (X : nth 0 (swap0 (last axs 0) (orig_perm r)) 0 = last axs 0).
        { unfold orig_perm. rewrite swap0_nth by (rewrite seq_length; lia). destruct (Nat.eqb_spec 0 (last axs 0)); [lia|]. cbn [Nat.eqb]. rewrite seq_nth; auto. }
        rewrite E in X. unfold orig_perm in X. rewrite seq_nth in X by lia. lia. }
      assert (axs = [0]).
      { destruct (exists_last N) as (l & a & ->). rewrite last_last in La. subst a. destruct l as [|b l]; auto. cbn in Hs. inversion Hs as [|? ? _ F]; subst. rewrite Forall_forall in F.
        assert (b < 0) by (apply F; apply in_or_app; cbn; auto). lia. }
      subst axs. unfold Lf in *. cbn [fold_left] in *.
      assert (E2 : swap0 0 (seq 0 r) = seq 0 r) by exact E. rewrite E2 in *. rewrite <- Rx in Sz, Gz. rewrite pick_seq in Sz.
      exists z. split; auto. split; auto. split; auto. intros jx Hj. specialize (Gz jx Hj). assert (Lj := inb_length _ _ Hj).
      rewrite <- Lj in Gz at 1. rewrite pick_seq in Gz. rewrite Gz. f_equal. rewrite <- (mirrored_length [0] (shape x) jx Lj). apply pick_seq.
    + rewrite restore_is by auto. set (Q := fold_right swap0 (seq 0 r) axs) in *. assert (PQ : is_perm Q r) by (now apply Q0).
      assert (Lz : length (shape z) = r) by (rewrite Sz, pick_length; auto).
      destruct (transpose_spec Q z Wz) as (y & Dy & Sy & Wy & Gy); [now rewrite Lz|].
      assert (QL : forall l, length l = r -> pick Q (pick Lf l) = l).
      { intros l Hl'. rewrite pick_pick by (intros k Hk; apply (is_perm_in _ _ PQ) in Hk; lia). rewrite Qz. rewrite <- Hl'. apply pick_seq. }
      exists y. split; [rewrite (ev1 _ _ _ _ _ _ Ez); cbn [apply lift]; now rewrite Dy|]. split; auto. split; [rewrite Sy, Sz; now apply QL|].
      intros jx Hj. assert (Lj := inb_length _ _ Hj). rewrite <- (QL jx) at 1 by lia. rewrite Gy by (rewrite Sz; eapply pick_inb; eauto).
      rewrite Gz by auto. f_equal. rewrite <- Rx, <- (mirrored_length axs (shape x) jx Lj). apply pick_seq.
Qed.
End Loop.

Lemma mirrored_perm ax ax' sh ix : Permutation ax ax' -> mirrored ax sh ix = mirrored ax' sh ix.
Proof.
  intro P. unfold mirrored. apply map_ext. intros [k [d i]]. replace (existsb (Nat.eqb k) ax) with (existsb (Nat.eqb k) ax'); auto.
  apply eq_true_iff_eq. rewrite !existsb_exists. split; intros (j & Hj & E); exists j; split; auto; (eapply Permutation_in; [|exact Hj]); auto using Permutation_sym.
Qed.
Lemma distinct_NoDup l : distinct l = true <-> NoDup l.
Proof. exact (nodupb_spec l). Qed.
Lemma norm_all_ok r axes ax : norm_axes r axes = Some ax -> norm_all r axes = Some ax /\ Forall (fun a => a < r) ax.
Proof.
  revert ax. unfold norm_all. induction axes as [|a l IH]; intros ax H; cbn [norm_axes] in H; [injection H as <-; split; [reflexivity|constructor]|].
  destruct (norm_axis r a) as [n|] eqn:E; [|discriminate]. destruct (norm_axes r l) as [ns|] eqn:E'; [|discriminate]. injection H as <-.
  destruct (IH _ eq_refl) as [E1 E2]. cbn [map FoldModel.sequence]. rewrite E1. unfold norm_axis in E.
  destruct (Z.leb_spec 0 a).
  - destruct (Z.ltb_spec a (Z.of_nat r)); [|discriminate]. injection E as <-. rewrite (proj2 (Z.ltb_ge a 0)) by lia. rewrite (proj2 (Z.leb_le 0 a)), (proj2 (Z.ltb_lt a _)) by lia. split; auto. constructor; auto. lia.
  - destruct (Z.leb_spec (- Z.of_nat r) a); [|discriminate]. injection E as <-. rewrite (proj2 (Z.ltb_lt a 0)) by lia. rewrite (proj2 (Z.leb_le 0 _)), (proj2 (Z.ltb_lt _ (Z.of_nat r))) by lia. split; auto. constructor; auto. lia.
Qed.
