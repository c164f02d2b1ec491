(** Proofs about the transpose optimizer, continued: the attribute computations that change the rank. *)
From Coq Require Import List Arith ZArith Bool Lia Permutation Sorted.
From Verif Require Import Util Tensor TensorProofs OnnxSpec FoldModel FoldProofs B2BProofs NNSpec NNModel PushSpec PushModel PushProofs.
Import ListNotations.
Local Open Scope list_scope.
Local Open Scope nat_scope.

Lemma insert_by_perm {A} le (a : A) l : Permutation (a :: l) (insert_by le a l).
Proof. induction l as [|b l IH]; cbn; auto. destruct (le a b); auto. rewrite perm_swap. now constructor. Qed.
Lemma sorted_by_perm {A} le (l : list A) : Permutation l (sorted_by le l).
Proof. induction l as [|a l IH]; cbn; auto. rewrite <- insert_by_perm. now constructor. Qed.

(** ** axes given with the rank added *)
Lemma norm_axis_range n a k : norm_axis n a = Some k -> k < n /\ (a = Z.of_nat k \/ a = (Z.of_nat k - Z.of_nat n)%Z).
Proof.
  unfold norm_axis. destruct (Z.leb_spec 0 a); [destruct (Z.ltb_spec a (Z.of_nat n))|destruct (Z.leb_spec (- Z.of_nat n) a)]; intro H1; inversion H1; subst; lia.
Qed.
Lemma norm_axes_F2 n axes ax : norm_axes n axes = Some ax <-> Forall2 (fun a k => norm_axis n a = Some k) axes ax.
Proof.
  split; revert ax.
  - induction axes as [|a axes IH]; intros ax H; cbn in H; [inversion H; constructor|]. destruct (norm_axis n a) eqn:E; [|discriminate]. destruct (norm_axes n axes) as [l|]; [|discriminate].
    inversion H; subst. constructor; auto.
  - intros ax F. induction F as [|a k axes ax H F IH]; cbn; auto. now rewrite H, IH.
Qed.
Lemma add_rank n axes ax : norm_axes n axes = Some ax -> map (fun i => if (0 <=? i)%Z then i else (i + Z.of_nat n)%Z) axes = map Z.of_nat ax.
Proof.
  intro H. apply norm_axes_F2 in H. induction H as [|a k axes ax H F IH]; cbn; auto. rewrite IH. f_equal. apply norm_axis_range in H.
  destruct (Z.leb_spec 0 a); lia.
Qed.
Lemma add_rank' p n axes ax : length p = n -> norm_axes n axes = Some ax -> map (plus_rank p) axes = map Z.of_nat ax.
Proof.
  intros L H. rewrite <- (add_rank n axes ax H). apply map_ext. intro a. unfold plus_rank. rewrite L. destruct (Z.ltb_spec a 0), (Z.leb_spec 0 a); lia.
Qed.
Lemma traverse_map {A B C} (f : B -> option C) (g : A -> B) l : traverse f (map g l) = traverse (fun a => f (g a)) l.
Proof. induction l as [|a l IH]; cbn; auto. now rewrite IH. Qed.
Lemma moved_nat p n ax : is_perm p n -> (forall a, In a ax -> a < n) -> traverse (py_get p) (map Z.of_nat ax) = Some (pick ax p).
Proof.
  intros P B. apply (moved_axes_spec p n (map Z.of_nat ax) (pick ax p) P). exists ax. split; auto. now apply norm_axes_of_nat.
Qed.

(** ** Squeeze *)
Lemma squeeze_attr p n axes ax : is_perm p n -> norm_axes n axes = Some ax ->
  squeeze_new_attr p axes = Some (after_drop p ax, sorted_by Nat.leb (pick ax p)).
Proof.
  intros P N. assert (L := pn p n P). assert (B := norm_axes_lt _ _ _ N). unfold squeeze_new_attr. rewrite L, (add_rank n axes ax N), (moved_nat p n ax P B).
  f_equal. f_equal. unfold after_drop. rewrite L.
  assert (E : filter (not_in (sorted_by Nat.leb (pick ax p))) (seq 0 n) = filter (not_in (pick ax p)) (seq 0 n)).
  { apply filter_ext. intro a. unfold not_in. f_equal. apply bool_iff. rewrite !existsb_iff. split; apply Permutation_in; [apply Permutation_sym|]; apply sorted_by_perm. }
  rewrite E. f_equal. rewrite (drop_keep ax p), L. unfold pick. f_equal. apply filter_ext. intro a. unfold not_in. f_equal. apply bool_iff. rewrite existsb_iff, existsb_exists. split.
  - intros (z & Hz & E2). apply Z.eqb_eq in E2. apply in_map_iff in Hz. destruct Hz as (b & <- & Hb). apply Nat2Z.inj in E2. now subst.
  - intro H. exists (Z.of_nat a). split; [now apply in_map|apply Z.eqb_refl].
Qed.
Lemma squeeze_moves {A} p n axes ax q new : is_perm p n -> norm_axes n axes = Some ax -> NoDup ax -> squeeze_new_attr p axes = Some (q, new) ->
  moves p (@squeeze_rel A axes) (fun x u => squeeze_rel (map Z.of_nat new) x u /\ length (shape x) = n) q.
Proof.
  intros P N ND E. rewrite (squeeze_attr p n axes ax P N) in E. inversion E; subst. clear E. assert (B := norm_axes_lt _ _ _ N).
  apply (squeeze_moves_gen p n axes ax (sorted_by Nat.leb (pick ax p))); auto using sorted_by_perm.
  apply norm_axes_of_nat. intros k K. apply (pick_axes_lt p n ax P B). eapply Permutation_in; [apply Permutation_sym, sorted_by_perm|exact K].
Qed.

(** ** two operators in sequence *)
Lemma moves_comp {A B C} p q r (F1 : tensor A -> tensor B -> Prop) (G1 : tensor A -> tensor B -> Prop) (F2 G2 : tensor B -> tensor C -> Prop) :
  moves p F1 G1 q -> moves q F2 G2 r -> moves p (fun x y => exists z, F1 x z /\ F2 z y) (fun x y => exists z, G1 x z /\ G2 z y) r.
Proof.
  intros M1 M2 x y. split.
  - intros (t & T & z & H1 & H2). destruct (proj1 (M1 x z)) as (u & Gu & Tu); [eauto|]. destruct (proj1 (M2 u y)) as (v & Gv & Tv); eauto.
  - intros (v & (u & Gu & Gv) & Tv). destruct (proj2 (M2 u y)) as (z & Tz & H2); [eauto|]. destruct (proj2 (M1 x z)) as (t & T & H1); eauto.
Qed.
Lemma moves_ext {A B} p q (F F' G G' : tensor A -> tensor B -> Prop) : (forall x y, F x y <-> F' x y) -> (forall x y, G x y <-> G' x y) -> moves p F G q -> moves p F' G' q.
Proof. intros E1 E2 M x y. setoid_rewrite <- E1. setoid_rewrite <- E2. apply M. Qed.

(** ** reductions *)
Lemma plus_rank_axes p n axes ax : is_perm p n -> norm_axes n axes = Some ax -> moved_reduce_axes p (Some axes) = Some (pick ax p).
Proof.
  intros P N. assert (L := pn p n P). unfold moved_reduce_axes. rewrite <- (traverse_map (py_get p) (plus_rank p)), (add_rank' p n axes ax L N).
  apply moved_nat with (n := n); auto. apply (norm_axes_lt _ _ _ N).
Qed.
Lemma plus_rank_all p n : is_perm p n -> moved_reduce_axes p None = moved_reduce_axes p (Some (map Z.of_nat (seq 0 n))).
Proof. intro P. unfold moved_reduce_axes. now rewrite (pn p n P). Qed.
Lemma norm_all n : norm_axes n (map Z.of_nat (seq 0 n)) = Some (seq 0 n).
Proof. apply norm_axes_of_nat. intros k K. apply in_seq in K. lia. Qed.
Lemma remaining_nth axes q : forall m i j, q < m -> nth q (remaining_from axes i j m) None =
  if existsb (Nat.eqb (i + q)) axes then None else Some (j + length (filter (not_in axes) (seq i q))).
Proof.
  induction q as [|q IH]; intros m i j H; (destruct m as [|m]; [lia|]); cbn [remaining_from].
  - rewrite Nat.add_0_r. cbn [seq filter length]. rewrite Nat.add_0_r. now destruct (existsb (Nat.eqb i) axes).
  - replace (i + S q) with (S i + q) by lia. cbn [seq filter]. unfold not_in at 1. destruct (existsb (Nat.eqb i) axes) eqn:E; cbn [nth negb]; rewrite IH by lia; [reflexivity|].
    cbn [length]. destruct (existsb (Nat.eqb (S i + q)) axes); auto. f_equal. lia.
Qed.
Lemma index_filter axes v : forall m i, i <= v < i + m -> not_in axes v = true -> index_of v (filter (not_in axes) (seq i m)) = length (filter (not_in axes) (seq i (v - i))).
Proof.
  induction m as [|m IH]; intros i H E; [lia|]. cbn [seq filter]. destruct (Nat.eq_dec v i) as [->|Ne].
  - rewrite E, Nat.sub_diag. cbn. now rewrite Nat.eqb_refl.
  - replace (v - i) with (S (v - S i)) by lia. cbn [seq filter]. assert (K := IH (S i) ltac:(lia) E). destruct (not_in axes i) eqn:Ei; cbn [length]; [|exact K].
    cbn [index_of]. destruct (Nat.eqb i v) eqn:Eq; [apply Nat.eqb_eq in Eq; congruence|]. now rewrite K.
Qed.
Lemma reduce_perm p n ax : is_perm p n -> (forall a, In a ax -> a < n) -> reduce_new_perm p (pick ax p) = after_drop p ax.
Proof.
  intros P B. assert (L := pn p n P). unfold reduce_new_perm, after_drop. rewrite L.
  assert (E : forall q, q < n -> nth q (remaining_from (pick ax p) 0 0 n) None = if existsb (Nat.eqb q) (pick ax p) then None else Some (index_of q (filter (not_in (pick ax p)) (seq 0 n)))).
  { intros q Hq. rewrite remaining_nth by auto. cbn [Nat.add]. destruct (existsb (Nat.eqb q) (pick ax p)) eqn:E; auto. f_equal. symmetry. rewrite index_filter; [now rewrite Nat.sub_0_r|lia|unfold not_in; now rewrite E]. }
  set (h := fun v => index_of v (filter (not_in (pick ax p)) (seq 0 n))) in *. set (rem := remaining_from (pick ax p) 0 0 n) in *.
  assert (D : forall k, k < n -> existsb (Nat.eqb (nth k p 0)) (pick ax p) = existsb (Nat.eqb k) ax) by (intros; now apply (existsb_pick p n)).
  assert (Q : forall k, k < n -> nth k p 0 < n) by (apply p_lt; auto).
  assert (Gn : forall l s, s + length l = n -> (forall k, k < length l -> nth k l 0 = nth (s + k) p 0) ->
    flat_map (fun q => match nth q rem None with Some v => [v] | None => [] end) l = map h (drop_from s ax l)).
  { induction l as [|a l IH]; intros s Hs K; cbn; auto. cbn [length] in *. assert (Ea : a = nth s p 0) by (rewrite <- (Nat.add_0_r s); apply (K 0); lia).
    rewrite (IH (S s)); [|lia|]. 2: { intros k Hk. replace (S s + k) with (s + S k) by lia. rewrite <- K by lia. reflexivity. }
    rewrite Ea at 1. rewrite E by (apply Q; lia). rewrite D by lia. destruct (existsb (Nat.eqb s) ax); auto. cbn. now rewrite Ea. }
  rewrite (Gn p 0); auto.
Qed.
Lemma reduce_moves {A} (agg : list A -> A) p n axes ax keepdims new : order_free agg -> is_perm p n -> norm_axes n axes = Some ax -> NoDup ax -> moved_reduce_axes p (Some axes) = Some new ->
  moves p (reduce_rel agg axes keepdims) (fun x u => reduce_rel agg (map Z.of_nat new) keepdims x u /\ length (shape x) = n) (if keepdims then p else reduce_new_perm p new).
Proof.
  intros Of P N ND M. assert (B := norm_axes_lt _ _ _ N). rewrite (plus_rank_axes p n axes ax P N) in M. inversion M; subst new. clear M.
  assert (M1 : moves p (reduce_rel agg axes true) (fun x u => reduce_rel agg (map Z.of_nat (pick ax p)) true x u /\ length (shape x) = n) p).
  { apply reduce_keep_moves; auto. apply (moved_axes_spec p n _ _ P). eauto. }
  destruct keepdims; [exact M1|]. rewrite (reduce_perm p n ax P B).
  assert (Nn : norm_axes n (map Z.of_nat (pick ax p)) = Some (pick ax p)) by (apply norm_axes_of_nat; apply (pick_axes_lt p n ax P B)).
  assert (M2 := squeeze_moves_gen (A := A) p n axes ax (pick ax p) (map Z.of_nat (pick ax p)) P N ND Nn (Permutation_refl _)).
  eapply moves_ext; [| |exact (moves_comp _ _ _ _ _ _ _ M1 M2)].
  - intros x y. unfold reduce_rel. split.
    + intros (z & (ax' & z' & H1 & H2 & H3 & <-) & S). exists ax', z. auto.
    + intros (ax' & z & H1 & H2 & H3 & S). exists z. split; auto. exists ax', z. auto.
  - intros x y. unfold reduce_rel. split.
    + intros (z & ((ax' & z' & H1 & H2 & H3 & <-) & L) & S & _). split; auto. exists ax', z. auto.
    + intros ((ax' & z & H1 & H2 & H3 & S) & L). exists z. split; [split; auto; exists ax', z; auto|]. split; auto. destruct H3 as (_ & _ & Lz & _). congruence.
Qed.
Lemma arg_moves {A B} (g : list A -> B) p n axis ax keepdims new : is_perm p n -> norm_axis n axis = Some ax -> moved_reduce_axes p (Some [axis]) = Some [new] ->
  moves p (arg_rel g axis keepdims) (fun x u => arg_rel g (Z.of_nat new) keepdims x u /\ length (shape x) = n) (if keepdims then p else reduce_new_perm p [new]).
Proof.
  intros P N M. assert (Nx : norm_axes n [axis] = Some [ax]) by (cbn; now rewrite N). assert (Bx := norm_axes_lt _ _ _ Nx).
  rewrite (plus_rank_axes p n [axis] [ax] P Nx) in M. cbn in M. inversion M; subst new. clear M.
  assert (M1 : moves p (arg_rel g axis true) (fun x u => arg_rel g (Z.of_nat (nth ax p 0)) true x u /\ length (shape x) = n) p).
  { apply arg_keep_moves; auto. apply (py_get_spec p n _ P). eauto. }
  destruct keepdims; [exact M1|]. change [nth ax p 0] with (pick [ax] p). rewrite (reduce_perm p n [ax] P Bx).
  assert (Nn : norm_axes n [Z.of_nat (nth ax p 0)] = Some (pick [ax] p)) by (apply (norm_axes_of_nat n [nth ax p 0]); apply (pick_axes_lt p n [ax] P Bx)).
  assert (ND : NoDup [ax]) by (constructor; [intros []|constructor]).
  assert (M2 := squeeze_moves_gen (A := B) p n [axis] [ax] (pick [ax] p) [Z.of_nat (nth ax p 0)] P Nx ND Nn (Permutation_refl _)).
  eapply moves_ext; [| |exact (moves_comp _ _ _ _ _ _ _ M1 M2)].
  - intros x y. unfold arg_rel. split.
    + intros (z & (z' & H1 & <-) & S). exists z. auto.
    + intros (z & H1 & S). exists z. split; auto. exists z. auto.
  - intros x y. unfold arg_rel. split.
    + intros (z & ((z' & H1 & <-) & L) & S & _). split; auto. exists z. auto.
    + intros ((z & H1 & S) & L). exists z. split; [split; auto; exists z; auto|]. split; auto. destruct H1 as (_ & _ & ax' & _ & Es & _). rewrite Es, set_dim_len. auto.
Qed.
(** Softmax from opset 13 *)
Lemma plus_rank_axis p n axis ax : is_perm p n -> norm_axis n axis = Some ax -> moved_softmax_axis p (Some axis) = Some (nth ax p 0).
Proof.
  intros P N. unfold moved_softmax_axis. assert (L := pn p n P). assert (H := norm_axis_range _ _ _ N). apply (py_get_spec p n _ P). exists ax. split; auto.
  unfold plus_rank. rewrite L. replace (if (axis <? 0)%Z then _ else axis) with (Z.of_nat ax); [apply norm_of_nat; tauto|]. destruct (Z.ltb_spec axis 0); lia.
Qed.

(** ** Unsqueeze *)
Lemma upf_len axes sm : forall n i new perm, length (unsqueeze_perm_from axes sm i n new perm) = n.
Proof. induction n as [|n IH]; intros; cbn; auto. destruct (existsb (Nat.eqb i) axes); cbn; now rewrite IH. Qed.
Lemma upf_drop axes sm : forall n i new perm, length perm = length (filter (not_in axes) (seq i n)) ->
  drop_from i axes (unsqueeze_perm_from axes sm i n new perm) = pick perm sm.
Proof.
  induction n as [|n IH]; intros i new perm H; cbn in *; [destruct perm; [auto|discriminate]|].
  unfold not_in in H at 1. destruct (existsb (Nat.eqb i) axes) eqn:E; cbn in *; rewrite E.
  - apply IH; auto.
  - destruct perm as [|a perm]; [discriminate|]. cbn in *. rewrite IH by lia. reflexivity.
Qed.
Lemma upf_take axes sm : forall n i new perm, length new = length (filter (fun k => existsb (Nat.eqb k) axes) (seq i n)) ->
  map (fun k => nth (k - i) (unsqueeze_perm_from axes sm i n new perm) 0) (filter (fun k => existsb (Nat.eqb k) axes) (seq i n)) = new.
Proof.
  induction n as [|n IH]; intros i new perm H; cbn in *; [destruct new; [auto|discriminate]|].
  destruct (existsb (Nat.eqb i) axes) eqn:E.
  - destruct new as [|a new]; [discriminate|]. cbn in H. cbn [map hd tl]. rewrite Nat.sub_diag. cbn [nth]. f_equal. etransitivity; [|apply (IH (S i) new perm); lia].
    apply map_ext_in. intros k Hk. apply filter_In in Hk. destruct Hk as [Hk _]. apply in_seq in Hk. replace (k - i) with (S (k - S i)) by lia. reflexivity.
  - etransitivity; [|apply (IH (S i) new (tl perm)); auto]. apply map_ext_in. intros k Hk. apply filter_In in Hk. destruct Hk as [Hk _]. apply in_seq in Hk.
    replace (k - i) with (S (k - S i)) by lia. reflexivity.
Qed.
Lemma count_in n ax : NoDup ax -> (forall a, In a ax -> a < n) -> length (filter (fun k => existsb (Nat.eqb k) ax) (seq 0 n)) = length ax /\ length (filter (not_in ax) (seq 0 n)) + length ax = n.
Proof.
  intros N B. split.
  - apply Permutation_length. apply NoDup_Permutation; auto; [apply NoDup_filter, seq_NoDup|]. intro a. rewrite filter_In, in_seq, existsb_iff. split; [tauto|]. intro H. specialize (B a H). split; auto. lia.
  - rewrite <- drop_seq. assert (K := drop_len ax (seq 0 n) N). rewrite seq_length in K. apply K, B.
Qed.
Section Unsqueeze.
Variables (p : list nat) (n m : nat) (ax new : list nat).
Hypothesis P : is_perm p n.
Hypothesis Lax : length ax = m.
Hypothesis Nax : NoDup ax.
Hypothesis Bax : forall a, In a ax -> a < n + m.
Hypothesis Lnew : length new = m.
Hypothesis Nnew : NoDup new.
Hypothesis Bnew : forall a, In a new -> a < n + m.
Let sm := filter (not_in new) (seq 0 (n + m)).
Let np := unsqueeze_perm_from ax sm 0 (n + m) new p.
Lemma us_sm : length sm = n.
Proof. assert (K := proj2 (count_in (n + m) new Nnew Bnew)). fold sm in K. lia. Qed.
Lemma us_drop : drop_axes ax np = pick p sm.
Proof. apply upf_drop. assert (K := proj2 (count_in (n + m) ax Nax Bax)). rewrite (pn p n P). lia. Qed.
Lemma us_take : map (fun k => nth k np 0) (filter (fun k => existsb (Nat.eqb k) ax) (seq 0 (n + m))) = new.
Proof.
  unfold np. etransitivity; [|apply (upf_take ax sm (n + m) 0 new p); destruct (count_in (n + m) ax Nax Bax); lia]. apply map_ext. intro k. now rewrite Nat.sub_0_r.
Qed.
Lemma us_perm : is_perm np (n + m).
Proof.
  apply incl_perm; [apply upf_len|]. intros k K. destruct (existsb (Nat.eqb k) new) eqn:E.
  - apply existsb_iff in E. rewrite <- us_take in E. apply in_map_iff in E. destruct E as (a & <- & Ha). apply filter_In in Ha. apply nth_In. unfold np. rewrite upf_len. destruct Ha as [Ha _]. apply in_seq in Ha. lia.
  - assert (I : In k sm) by (apply filter_In; split; [apply in_seq; lia|unfold not_in; now rewrite E]). destruct (In_nth _ _ 0 I) as (j & Hj & <-). rewrite us_sm in Hj.
    assert (J : In (nth j sm 0) (drop_axes ax np)). { rewrite us_drop. unfold pick. apply in_map_iff. exists j. split; auto. now apply (is_perm_in p n P). }
    unfold drop_axes in J. apply in_drop in J. destruct J as (i & Hi & _ & <-). now apply nth_In.
Qed.
Lemma us_comm l : length l = n + m -> drop_axes ax (pick np l) = pick p (drop_axes new l).
Proof.
  intro L. rewrite drop_pick, us_drop, (drop_keep new l), L. fold sm. symmetry. apply pick_pick. intros k Hk. rewrite us_sm. now apply (is_perm_in p n P).
Qed.
Lemma us_axes (Q : nat -> Prop) : (forall a, In a ax -> Q (nth a np 0)) <-> (forall a, In a new -> Q a).
Proof.
  split; intros H a Ha.
  - rewrite <- us_take in Ha. apply in_map_iff in Ha. destruct Ha as (k & <- & Hk). apply filter_In in Hk. apply H. apply existsb_iff, Hk.
  - apply H. rewrite <- us_take. apply in_map_iff. exists a. split; auto. apply filter_In. split; [apply in_seq; specialize (Bax a Ha); lia|now apply existsb_iff].
Qed.
Lemma unsqueeze_moves_gen {A} axes ax0 axes' new' : norm_axes (n + m) axes = Some ax0 -> length axes = m -> Permutation ax0 ax -> norm_axes (n + m) axes' = Some new' -> Permutation new new' ->
  moves p (@unsqueeze_rel A axes) (fun x u => unsqueeze_rel axes' x u /\ length (shape x) = n) np.
Proof.
  intros N0 L0 P0 N1 P1. assert (L1 : length axes' = m) by (apply norm_axes_F2 in N1; apply F2_len in N1; rewrite N1, <- (Permutation_length P1); exact Lnew).
  assert (M0 : forall a, In a ax0 <-> In a ax) by (intro a; split; intro H; [eapply Permutation_in; eauto|eapply Permutation_in; [apply Permutation_sym; eauto|auto]]).
  assert (M1 : forall a, In a new' <-> In a new) by (intro a; split; intro H; [eapply Permutation_in; [apply Permutation_sym; eauto|auto]|eapply Permutation_in; eauto]).
  assert (D0 : forall l, drop_axes ax0 l = drop_axes ax l) by (intro l; unfold drop_axes; now apply drop_same).
  assert (D1 : forall l, drop_axes new' l = drop_axes new l) by (intro l; unfold drop_axes; now apply drop_same).
  assert (ND0 : NoDup ax0) by (eapply Permutation_NoDup; [apply Permutation_sym; exact P0|auto]).
  assert (ND1 : NoDup new') by (eapply Permutation_NoDup; eauto).
  assert (Ll : forall l, length l = n + m -> length (drop_axes new l) = n).
  { intros l L. assert (K := drop_len new l Nnew). rewrite L in K. specialize (K Bnew). lia. }
  apply (moves_intro p np n (n + m)); auto using us_perm.
  - intros x t u y T U. destruct (tr_facts p n P x t T) as (Lx & Lt & Wx & Wt & S & G). destruct (tr_facts np _ us_perm u y U) as (Lu & Ly & Wu & Wy & Sy & Gy).
    assert (D := drop_tr np p (n + m) n ax new us_perm P us_comm Ll u y x t U T).
    assert (One : (forall a, In a ax0 -> nth a (shape y) 0 = 1) <-> (forall a, In a new' -> nth a (shape u) 0 = 1)).
    { setoid_rewrite M0. setoid_rewrite M1. rewrite <- (us_axes (fun a => nth a (shape u) 0 = 1)). split; intros H a Ha; specialize (H a Ha); rewrite Sy, (pick_at np _ us_perm) in * by auto; exact H. }
    unfold unsqueeze_rel. rewrite Lx, Lt, Ly, Lu, N0, N1, L0, L1. split.
    + intros (_ & _ & _ & a' & Ea & _ & H1 & H2 & H3). inversion Ea; subst a'. split; [|reflexivity]. do 3 (split; [auto; fail|]). exists new'. split; auto. split; auto. split; [now apply One|].
      rewrite D1. destruct (proj1 D) as [E1 E2]; [split; [now rewrite <- D0|intros ix I; rewrite <- D0; symmetry; auto]|]. split; auto. intros ix I. rewrite D1. symmetry. auto.
    + intros ((_ & _ & _ & a' & Ea & _ & H1 & H2 & H3) & _). inversion Ea; subst a'. do 3 (split; [auto; fail|]). exists ax0. split; auto. split; auto. split; [now apply One|].
      rewrite D0. destruct (proj2 D) as [E1 E2]; [split; [now rewrite <- D1|intros ix I; rewrite <- D1; symmetry; auto]|]. split; auto. intros ix I. rewrite D0. symmetry. auto.
  - intros t y L (_ & W & Ly & _). split; auto. rewrite Ly, L, L0. reflexivity.
  - intros x u ((Wx & Wu & Lu & _) & L). repeat split; auto. rewrite Lu, L, L1. reflexivity.
Qed.
End Unsqueeze.

Lemma insert_by_sorted {A} (le : A -> A -> bool) (R : A -> A -> Prop) : (forall a b, le a b = true -> R a b) -> (forall a b, le a b = false -> R b a) -> (forall a b c, R a b -> R b c -> R a c) ->
  forall l a, StronglySorted R l -> StronglySorted R (insert_by le a l).
Proof.
  intros H1 H2 Tr. induction l as [|b l IH]; intros a S; cbn; [repeat constructor|]. inversion S; subst. destruct (le a b) eqn:E.
  - constructor; auto. constructor; auto. rewrite Forall_forall in *. intros c Hc. eapply Tr; [apply H1; exact E|auto].
  - constructor; auto. rewrite Forall_forall in *. intros c Hc. apply (Permutation_in _ (Permutation_sym (insert_by_perm le a l))) in Hc. destruct Hc as [->|Hc]; auto.
Qed.
Lemma sorted_by_sorted {A} (le : A -> A -> bool) (R : A -> A -> Prop) : (forall a b, le a b = true -> R a b) -> (forall a b, le a b = false -> R b a) -> (forall a b c, R a b -> R b c -> R a c) ->
  forall l, StronglySorted R (sorted_by le l).
Proof. intros H1 H2 Tr. induction l as [|a l IH]; cbn; [constructor|]. now apply insert_by_sorted. Qed.
Lemma pair_eq_iff a b : pair_eq a b = true <-> a = b.
Proof. unfold pair_eq. destruct a, b. cbn. rewrite andb_true_iff, !Nat.eqb_eq. split; [intros []; congruence|intro E; inversion E; auto]. Qed.
Lemma position_at (l : list (nat * nat)) d : NoDup l -> forall k, k < length l -> position pair_eq (nth k l d) l = k.
Proof.
  induction 1 as [|a l Ha N IH]; intros k H; cbn in *; [lia|]. destruct k as [|k].
  - now rewrite (proj2 (pair_eq_iff a a) eq_refl).
  - destruct (pair_eq a (nth k l d)) eqn:E; [apply pair_eq_iff in E; exfalso; apply Ha; rewrite E; apply nth_In; lia|]. rewrite IH; lia.
Qed.
Lemma sorted_nth {A} (R : A -> A -> Prop) l d : StronglySorted R l -> forall i j, i < j < length l -> R (nth i l d) (nth j l d).
Proof.
  induction 1 as [|a l S IH F]; intros i j H; cbn in *; [lia|]. destruct j as [|j]; [lia|]. destruct i as [|i]; [|apply IH; lia]. rewrite Forall_forall in F. apply F. apply nth_In. lia.
Qed.
Lemma enumerate_nth {A} (l : list A) d k : k < length l -> nth k (enumerate l) (0, d) = (k, nth k l d).
Proof. intro H. unfold enumerate. rewrite combine_nth by apply seq_length. now rewrite seq_nth. Qed.
Lemma enumerate_len {A} (l : list A) : length (enumerate l) = length l.
Proof. unfold enumerate. rewrite combine_length, seq_length. lia. Qed.
Lemma enumerate_NoDup {A} (l : list A) : NoDup (enumerate l).
Proof.
  assert (K : map fst (enumerate l) = seq 0 (length l)). { unfold enumerate. generalize 0. induction l as [|a l IH]; intro s; cbn; auto. now rewrite IH. }
  apply (NoDup_map_inv fst). rewrite K. apply seq_NoDup.
Qed.
Lemma new_axes_spec p n ax : is_perm p n -> length (unsqueeze_new_axes p ax) = length ax /\ NoDup (unsqueeze_new_axes p ax) /\ forall a, In a (unsqueeze_new_axes p ax) -> a < n + length ax.
Proof.
  intro P. assert (L := pn p n P). unfold unsqueeze_new_axes. set (partner := map _ (enumerate ax)). set (pre := map _ partner). set (pairs := map _ (enumerate pre)). set (srt := sorted_by pair_le pairs).
  assert (Lp : length pre = length ax) by (unfold pre, partner; rewrite !map_length; apply enumerate_len).
  assert (Lq : length pairs = length ax) by (unfold pairs; now rewrite map_length, enumerate_len).
  assert (Bp : forall v, In v pre -> v <= n).
  { intros v Hv. unfold pre in Hv. apply in_map_iff in Hv. destruct Hv as (a & <- & _). rewrite L. destruct (Nat.ltb_spec a n); [|auto]. assert (K := p_lt p n P a H). lia. }
  assert (Bq : forall ai, In ai pairs -> fst ai <= n).
  { intros ai H. unfold pairs in H. apply in_map_iff in H. destruct H as ([i v] & <- & H). cbn. apply Bp. unfold enumerate in H. eapply in_combine_r; eauto. }
  assert (Nq : NoDup pairs). { unfold pairs. apply FinFun.Injective_map_NoDup; [|apply enumerate_NoDup]. intros [a b] [c d] E. cbn in E. congruence. }
  assert (Ps : Permutation pairs srt) by apply sorted_by_perm.
  assert (Ns : NoDup srt) by (eapply Permutation_NoDup; eauto).
  assert (Ls : length srt = length ax) by (rewrite <- (Permutation_length Ps); exact Lq).
  assert (So : StronglySorted (fun a b : nat * nat => fst a <= fst b) srt).
  { apply sorted_by_sorted; unfold pair_le.
    - intros a b H. apply orb_true_iff in H. destruct H as [H|H]; [apply Nat.ltb_lt in H; lia|]. apply andb_true_iff in H. destruct H as [H _]. apply Nat.eqb_eq in H. lia.
    - intros a b H. apply orb_false_iff in H. destruct H as [H _]. apply Nat.ltb_ge in H. lia.
    - intros; lia. }
  set (h := fun ai => fst ai + position pair_eq ai srt).
  assert (Hat : forall k, k < length ax -> nth k (map h srt) 0 = fst (nth k srt (0, 0)) + k).
  { intros k K. rewrite (nth_indep _ 0 (h (0, 0))) by (rewrite map_length; lia). rewrite map_nth. unfold h at 1. rewrite position_at; auto. lia. }
  assert (Pm : Permutation (map h pairs) (map h srt)) by (now apply Permutation_map).
  split; [rewrite map_length; exact Lq|]. split.
  - eapply Permutation_NoDup; [apply Permutation_sym; exact Pm|]. apply (proj2 (NoDup_nth (map h srt) 0)). rewrite map_length, Ls. intros i j Hi Hj E. rewrite !Hat in E by auto.
    destruct (lt_eq_lt_dec i j) as [[H|H]|H]; auto; [assert (K := sorted_nth _ srt (0,0) So i j)|assert (K := sorted_nth _ srt (0,0) So j i)]; rewrite Ls in K; specialize (K ltac:(lia)); cbn in K; lia.
  - intros a Ha. apply (Permutation_in _ Pm) in Ha. destruct (In_nth _ _ 0 Ha) as (k & Hk & <-). rewrite map_length, Ls in Hk. rewrite Hat by auto.
    assert (K : fst (nth k srt (0, 0)) <= n). { apply Bq. eapply Permutation_in; [apply Permutation_sym; exact Ps|]. apply nth_In. lia. } lia.
Qed.
Lemma mod_axes N axes ax : norm_axes N axes = Some ax -> map (fun a => Z.to_nat (a mod Z.of_nat N)%Z) axes = ax.
Proof.
  intro H. apply norm_axes_F2 in H. induction H as [|a k axes ax H F IH]; cbn; auto. rewrite IH. f_equal. apply norm_axis_range in H. destruct H as [H [-> | ->]].
  - rewrite Z.mod_small by lia. apply Nat2Z.id.
  - replace (Z.of_nat k - Z.of_nat N)%Z with (Z.of_nat k + (-1) * Z.of_nat N)%Z by lia. rewrite Z_mod_plus_full, Z.mod_small by lia. apply Nat2Z.id.
Qed.
Lemma unsqueeze_moves {A} p n axes ax q new : is_perm p n -> norm_axes (n + length axes) axes = Some ax -> NoDup ax -> unsqueeze_new_attr p axes = (q, new) ->
  is_perm q (n + length axes) /\ moves p (@unsqueeze_rel A axes) (fun x u => unsqueeze_rel (map Z.of_nat new) x u /\ length (shape x) = n) q.
Proof.
  intros P N ND E. assert (L := pn p n P). unfold unsqueeze_new_attr, unsqueeze_sorted_axes in E. rewrite L, (mod_axes _ _ _ N) in E. inversion E; subst q new. clear E.
  assert (La : length axes = length ax) by (apply norm_axes_F2 in N; now apply F2_len in N). rewrite La in *.
  set (sa := sorted_by Nat.leb ax). assert (Pa : Permutation ax sa) by apply sorted_by_perm. assert (Ls : length sa = length ax) by (symmetry; now apply Permutation_length).
  destruct (new_axes_spec p n sa P) as (L1 & N1 & B1). rewrite Ls in *.
  assert (Ns : NoDup sa) by (eapply Permutation_NoDup; eauto).
  assert (Bs : forall a, In a sa -> a < n + length ax) by (intros a Ha; apply (norm_axes_lt _ _ _ N); eapply Permutation_in; [apply Permutation_sym; exact Pa|auto]).
  split; [apply (us_perm p n (length ax) sa); auto|].
  apply (unsqueeze_moves_gen p n (length ax) sa (unsqueeze_new_axes p sa)) with (ax0 := ax) (new' := sorted_by Nat.leb (unsqueeze_new_axes p sa)); auto using sorted_by_perm.
  apply norm_axes_of_nat. intros k K. apply B1. eapply Permutation_in; [apply Permutation_sym, sorted_by_perm|exact K].
Qed.
