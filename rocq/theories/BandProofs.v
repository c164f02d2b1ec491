(** What the masks of BandModel are. *)
From Coq Require Import List Arith ZArith Bool Lia.
From Verif Require Import Tensor FoldModel OnnxSpec FoldProofs TensorProofs TOps TOpsProofs TOpsProofs2 RewValues MatProofs CumProofs BandSpec BandModel.
Import ListNotations.
Local Open Scope list_scope.

(** a matrix with the entries f *)
Definition M {T} (r c : nat) (t : tensor T) (f : nat -> nat -> T) : Prop :=
  wf t /\ shape t = [r; c] /\ forall i j, i < r -> j < c -> get t [i; j] = Some (f i j).
Lemma inb_2 ix r c : inb ix [r; c] -> exists i j, ix = [i; j] /\ i < r /\ j < c.
Proof. destruct ix as [|i [|j [|? ?]]]; cbn; try tauto. intros (H & K & _). eauto. Qed.
Lemma M_ext {T} r c (t : tensor T) f g : M r c t f -> (forall i j, i < r -> j < c -> f i j = g i j) -> M r c t g.
Proof. intros (W & Sh & G) H. split; auto. split; auto. intros i j Hi Hj. rewrite G by auto. f_equal. auto. Qed.
Lemma M_build {T} r c (f : nat -> nat -> T) F : (forall i j, i < r -> j < c -> F [i; j] = Some (f i j)) ->
  exists t, build [r; c] F = Some t /\ M r c t f.
Proof.
  intro H. destruct (build_ex [r; c] F) as (t & E & Sh & W & G).
  - intros ix I. apply inb_2 in I. destruct I as (i & j & -> & Hi & Hj). rewrite H by auto. discriminate.
  - exists t. split; auto. split; auto. split; auto. intros i j Hi Hj. rewrite G by (cbn; auto). auto.
Qed.
(** a single number against a matrix *)
Lemma M_one_r {X Y W} (f : X -> Y -> W) r c t g u v : M r c t g -> (u = Tensor [] [v] \/ u = Tensor [1] [v]) ->
  exists y, f_binary f t u = Some y /\ M r c y (fun i j => f (g i j) v).
Proof.
  intros (Wt & Sh & G) U. unfold f_binary. cbv zeta. rewrite Sh.
  assert (B : bcast_dims (pad_ones (Nat.max (length [r; c]) (length (shape u))) [r; c]) (pad_ones (Nat.max (length [r; c]) (length (shape u))) (shape u)) = Some [r; c]).
  { destruct U as [-> | ->]; unfold pad_ones; cbn [shape length Nat.max Nat.sub repeat app bcast_dims]; destruct r as [|[|r]], c as [|[|c]]; reflexivity. }
  rewrite B. apply M_build. intros i j Hi Hj.
  assert (R : Nat.max (length [r; c]) (length (shape u)) = 2) by (destruct U as [-> | ->]; reflexivity). rewrite R.
  change 2 with (length [r; c]) at 1. rewrite bcast_self by (cbn; auto). rewrite G by auto.
  destruct U as [-> | ->]; reflexivity.
Qed.
Lemma M_one_l {X Y W} (f : X -> Y -> W) r c t g u v : M r c t g -> u = Tensor [] [v] ->
  exists y, f_binary f u t = Some y /\ M r c y (fun i j => f v (g i j)).
Proof.
  intros (Wt & Sh & G) ->. unfold f_binary. cbv zeta. rewrite Sh. cbn [shape length Nat.max]. unfold pad_ones. cbn [length Nat.sub repeat app].
  assert (B : bcast_dims [1; 1] [r; c] = Some [r; c]) by (cbn [bcast_dims]; destruct r as [|[|r]], c as [|[|c]]; reflexivity).
  rewrite B. apply M_build. intros i j Hi Hj. replace (bcast_ix 2 [r; c] [i; j]) with [i; j] by (symmetry; apply (bcast_self [r; c]); cbn; auto). rewrite G by auto. reflexivity.
Qed.
Lemma M_both {X Y W} (f : X -> Y -> W) r c t g u h : M r c t g -> M r c u h -> exists y, f_binary f t u = Some y /\ M r c y (fun i j => f (g i j) (h i j)).
Proof.
  intros (Wt & Sh & G) (Wu & Su & H). unfold f_binary. cbv zeta. rewrite Sh, Su. change (Nat.max _ _) with (length [r; c]). unfold pad_ones. rewrite Nat.sub_diag. cbn [repeat app]. rewrite bcast_same.
  apply M_build. intros i j Hi Hj. rewrite bcast_self by (cbn; auto). rewrite G, H by auto. reflexivity.
Qed.
Lemma M_unary {X Y} (f : X -> Y) r c t g : M r c t g -> M r c (f_unary f t) (fun i j => f (g i j)).
Proof.
  intros (W & Sh & G). split; [|split].
  - unfold wf, f_unary. cbn [shape data]. rewrite map_length. exact W.
  - exact Sh.
  - intros i j Hi Hj. specialize (G i j Hi Hj). unfold get, f_unary in *. cbn [shape data]. rewrite nth_error_map, G. reflexivity.
Qed.
(** all entries defined *)
Lemma sequence_ex {T} (l : list (option T)) : Forall (fun o => o <> None) l -> exists d, sequence l = Some d /\ length d = length l /\ forall k, nth_error l k = option_map Some (nth_error d k).
Proof.
  induction l as [|o l IH]; intro H.
  - exists []. split; [reflexivity|]. split; [reflexivity|]. intros [|k]; reflexivity.
  - apply Forall_cons_iff in H. destruct H as [N H]. destruct (IH H) as (d & E & L & K). destruct o as [v|]; [|congruence]. exists (v :: d). cbn [sequence]. rewrite E. split; [reflexivity|]. split; [cbn; auto|]. intros [|k]; [reflexivity|apply K].
Qed.
Lemma M_whole {T} r c (t : tensor (option T)) f g : M r c t f -> (forall i j, i < r -> j < c -> f i j = Some (g i j)) -> exists y, whole t = Some y /\ M r c y g.
Proof.
  intros (W & Sh & G) H. unfold whole.
  assert (F : Forall (fun o => o <> None) (data t)).
  { apply Forall_forall. intros o I. apply In_nth_error in I. destruct I as [k K].
    assert (L : k < size [r; c]). { rewrite <- Sh. unfold wf in W. rewrite <- W. apply nth_error_Some. congruence. }
    assert (I := unravel_inb [r; c] k L). destruct (inb_2 _ _ _ I) as (i & j & E & Hi & Hj). specialize (G i j Hi Hj). unfold get in G. rewrite Sh, <- E, ravel_unravel in G by exact L. rewrite K in G. injection G as ->. rewrite H by auto. discriminate. }
  destruct (sequence_ex _ F) as (d & E & L & K). rewrite E. exists (Tensor (shape t) d). split; [reflexivity|]. split; [|split].
  - unfold wf in *. cbn [shape data]. congruence.
  - exact Sh.
  - intros i j Hi Hj. specialize (G i j Hi Hj). rewrite H in G by auto. unfold get in *. cbn [shape data]. rewrite K in G. destruct (nth_error d _); [|discriminate]. cbn in G. congruence.
Qed.
Lemma M_reshape {T} r c (d : T) (l : list T) : length l = r * c -> c <> 0 -> exists y, f_reshape [Z.of_nat r; Z.of_nat c] (tvec l) = Some y /\ M r c y (fun i j => nth (i * c + j) l d).
Proof.
  intros L C. exists (Tensor [r; c] l). split; [|split; [|split]].
  - unfold f_reshape. cbn [shape tvec copy_dims tl]. rewrite (proj2 (Z.eqb_neq (Z.of_nat c) 0)) by lia. rewrite (proj2 (Z.ltb_ge (Z.of_nat c) (-1))) by lia.
    assert (E : (if Z.eqb (Z.of_nat r) 0 then Some [Z.of_nat (length l); Z.of_nat c] else if (Z.of_nat r <? -1)%Z then None else Some [Z.of_nat r; Z.of_nat c]) = Some (map Z.of_nat [r; c])).
    { destruct (Z.eqb_spec (Z.of_nat r) 0) as [E|E]; [|rewrite (proj2 (Z.ltb_ge _ _)) by lia; reflexivity]. assert (length l = 0) by (assert (r = 0) by lia; subst; auto). cbn [map]. do 2 f_equal. lia. }
    rewrite E. rewrite filter_nat_neg, filter_nat_pos, zsize_nat. cbn [length].
    replace (Z.of_nat (size [length l])) with (Z.of_nat (size [r; c])) by (cbn; lia). rewrite Z.eqb_refl. cbn [map data]. now rewrite !Nat2Z.id.
  - unfold wf. cbn. lia.
  - reflexivity.
  - intros i j Hi Hj. unfold get. cbn [shape data ravel size fold_right]. assert (i * c + j < length l) by (rewrite L; nia).
    rewrite (nth_error_nth' l d) by (replace (i * (c * 1) + (j * 1 + 0)) with (i * c + j) by lia; auto). f_equal. f_equal. lia.
Qed.
Lemma sum_ones : forall k n, k <= n -> fold_right Z.add 0%Z (firstn k (repeat 1%Z n)) = Z.of_nat k.
Proof. induction k as [|k IH]; intros [|n] H; try lia; [reflexivity..|]. cbn [repeat firstn fold_right]. rewrite IH by lia. lia. Qed.
Lemma expand_one n : f_expand [Z.of_nat n] (Tensor [] [1%Z]) = Some (tvec (repeat 1%Z n)).
Proof.
  unfold f_expand. cbn [forallb map]. rewrite (proj2 (Z.leb_le _ _)) by lia. cbn [andb length shape Nat.max]. rewrite Nat2Z.id. unfold pad_ones. cbn [length Nat.sub repeat app].
  assert (B : bcast_dims [1] [n] = Some [n]) by (destruct n as [|[|n]]; reflexivity). rewrite B. apply build_vec; [apply repeat_length|].
  intros i Hi. rewrite nth_error_repeat by auto. reflexivity.
Qed.

Section Masked.
Context {A : Type}.
Variable mul : A -> A -> A.
Variables zero one : A.
Variable x : tensor A.
Variables (sh : list nat) (r c : nat).
Hypothesis Wx : wf x.
Hypothesis Sx : shape x = sh ++ [r; c].
(** ** the masked data *)
Hypothesis mul_one : forall v, mul one v = v.
Hypothesis mul_zero : forall v, mul zero v = zero.
Lemma bcast_under : forall l s, bcast_dims (repeat 1 (length l) ++ s) (l ++ s) = Some (l ++ s).
Proof.
  induction l as [|d l IH]; intro s; cbn [length repeat app].
  - apply bcast_same.
  - cbn [bcast_dims]. rewrite IH. destruct (Nat.eqb_spec 1 d); subst; reflexivity.
Qed.
Lemma masked_ok m f : M r c m f -> exists y, masked mul zero one x m = Some y /\ wf y /\ shape y = shape x /\
  forall ix i j, inb ix sh -> i < r -> j < c -> get y (ix ++ [i; j]) = if f i j then get x (ix ++ [i; j]) else Some zero.
Proof.
  intros Mm. unfold masked, f_binary. cbv zeta. apply (M_unary (cast zero one)) in Mm. destruct Mm as (W & Sm & G). rewrite Sm.
  assert (R : Nat.max (length [r; c]) (length (shape x)) = length (shape x)) by (rewrite Sx, app_length; cbn [length]; lia). rewrite R.
  assert (B : bcast_dims (pad_ones (length (shape x)) [r; c]) (pad_ones (length (shape x)) (shape x)) = Some (sh ++ [r; c])).
  { unfold pad_ones. rewrite Nat.sub_diag, Sx, app_length. cbn [length repeat app]. rewrite Nat.add_sub. apply bcast_under. }
  rewrite B.
  assert (Gx : forall ix i j, inb ix sh -> i < r -> j < c -> (match get (f_unary (cast zero one) m) (bcast_ix (length (shape x)) [r; c] (ix ++ [i; j])), get x (bcast_ix (length (shape x)) (shape x) (ix ++ [i; j])) with Some a, Some b => Some (mul a b) | _, _ => None end) = if f i j then get x (ix ++ [i; j]) else Some zero).
  { intros ix i j Ii Hi Hj.
    assert (Ib : inb (ix ++ [i; j]) (shape x)) by (rewrite Sx; apply inb_app; [now apply inb_length|cbn; auto]).
    rewrite bcast_self by exact Ib.
    assert (Bi : bcast_ix (length (shape x)) [r; c] (ix ++ [i; j]) = [i; j]).
    { unfold bcast_ix. rewrite Sx, app_length. cbn [length]. rewrite Nat.add_sub, <- (inb_length _ _ Ii), skipn_app, skipn_all, Nat.sub_diag. cbn [skipn app combine map].
      f_equal; [destruct (Nat.eqb_spec r 1); lia|]. f_equal. destruct (Nat.eqb_spec c 1); lia. }
    rewrite Bi, G by auto. destruct (get_wf x _ Wx Ib) as [v Ev]. rewrite Ev. unfold cast. destruct (f i j); [now rewrite mul_one|now rewrite mul_zero]. }
  match goal with |- context [build _ ?F] => destruct (build_ex (sh ++ [r; c]) F) as (y & E & Sy & Wy & Gy) end.
  - intros ix I. apply inb_last2 in I. destruct I as (p & i & j & -> & Ip & Hi & Hj). rewrite Gx by auto. destruct (f i j); [|discriminate].
    apply get_some; [exact Wx|]. rewrite Sx. apply inb_app; [now apply inb_length|cbn; auto].
  - exists y. split; [exact E|]. split; [exact Wy|]. split; [congruence|]. intros ix i j Ii Hi Hj. rewrite Gy; [|apply inb_app; [now apply inb_length|cbn; auto]]. apply Gx; auto.
Qed.
End Masked.

Section V11.
Context {A : Type}.
Variable mul : A -> A -> A.
Variables zero one : A.
Variable x : tensor A.
Variables lower upper : Z.
Variables (sh : list nat) (r c : nat).
Hypothesis Wx : wf x.
Hypothesis Sx : shape x = sh ++ [r; c].
Variable rank : option nat.
Hypothesis Rk : rank = None \/ rank = Some (length (shape x)).
Notation iv := (ival x lower upper).
Definition shp : iexpr := if match rank with Some r => Nat.eqb r 2 | None => false end then IShape else ISlice IShape (-2) int64_max.
Lemma shp_ok : length (shape x) < 2 ^ 62 -> iv shp = Some (zvec [Z.of_nat r; Z.of_nat c]).
Proof.
  intro Big. unfold shp.
  destruct (match rank with Some r => Nat.eqb r 2 | None => false end) eqn:E.
  - destruct Rk as [-> | ->]; [discriminate|]. apply Nat.eqb_eq in E. rewrite Sx, app_length in E. cbn in E.
    destruct sh; [|cbn in E; lia]. cbn [ival]. rewrite Sx. reflexivity.
  - cbn [ival obind]. change (f_slice [(-2)%Z] [int64_max] (Some [0%Z]) (zvec (map Z.of_nat (shape x)))) with (f_slice [(-2)%Z] [int64_max] None (tvec (map Z.of_nat (shape x)))).
    rewrite slice_vec, map_length. unfold zvec, tvec.
    assert (C1 : clamp (length (shape x)) (-2) = length sh). { unfold clamp. rewrite Sx, app_length. cbn [length]. change (-2 <? 0)%Z with true. cbv iota. lia. }
    assert (C2 : clamp (length (shape x)) int64_max = length sh + 2).
    { unfold clamp. change (int64_max <? 0)%Z with false. cbv iota. assert (P : (Z.of_nat (length (shape x)) <= int64_max)%Z).
      { apply Nat2Z.inj_lt in Big. rewrite Nat2Z.inj_pow in Big. change (Z.of_nat 2) with 2%Z in Big. change (Z.of_nat 62) with 62%Z in Big. unfold int64_max. assert ((2 ^ 62 < 9223372036854775807)%Z) by reflexivity. lia. }
      rewrite Sx, app_length in P |- *. cbn [length] in *. lia. }
    rewrite C1, C2, Sx, map_app. replace (length sh + 2 - length sh) with 2 by lia. rewrite skipn_app, skipn_all2 by (rewrite map_length; lia). rewrite map_length, Nat.sub_diag. reflexivity.
Qed.
Hypothesis Big : length (shape x) < 2 ^ 62.
Lemma row_ok : iv (ISlice shp 0 1) = Some (zvec [Z.of_nat r]).
Proof. cbn [ival]. rewrite shp_ok by exact Big. reflexivity. Qed.
Lemma col_ok : iv (ISlice shp 1 2) = Some (zvec [Z.of_nat c]).
Proof. cbn [ival]. rewrite shp_ok by exact Big. reflexivity. Qed.
Definition idx_reshape : iexpr := IReshape (ICumSum (IExpand (IConst (Tensor [] [1%Z])) (IMul (ISlice shp 0 1) (ISlice shp 1 2)))) shp.
Lemma idx_ok : c <> 0 -> exists t, iv idx_reshape = Some t /\ M r c t (fun i j => Z.of_nat (i * c + j)).
Proof.
  intro C. assert (E : iv (ICumSum (IExpand (IConst (Tensor [] [1%Z])) (IMul (ISlice shp 0 1) (ISlice shp 1 2)))) = Some (tvec (map Z.of_nat (seq 0 (r * c))))).
  { cbn [ival] in *. rewrite shp_ok by exact Big. change (obind (Some (zvec [Z.of_nat r; Z.of_nat c])) (f_slice [0%Z] [1%Z] (Some [0%Z]))) with (Some (zvec [Z.of_nat r])).
    change (obind (Some (zvec [Z.of_nat r; Z.of_nat c])) (f_slice [1%Z] [2%Z] (Some [0%Z]))) with (Some (zvec [Z.of_nat c])).
    cbv iota. change (f_binary Z.mul (zvec [Z.of_nat r]) (zvec [Z.of_nat c])) with (Some (zvec [(Z.of_nat r * Z.of_nat c)%Z])). cbv iota. unfold obind at 2. cbn [as_vec shape zvec data].
    rewrite <- Nat2Z.inj_mul, expand_one. cbn [obind]. unfold f_cumsum_exclusive. rewrite as_vec_tvec, repeat_length. rewrite zvec_tvec. do 2 f_equal.
    apply map_ext_in. intros k K. apply in_seq in K. apply sum_ones. lia. }
  unfold idx_reshape. cbn [ival] in *. rewrite E, shp_ok by exact Big. cbn [as_vec shape zvec obind data].
  destruct (M_reshape r c 0%Z (map Z.of_nat (seq 0 (r * c)))) as (y & Ey & My); [now rewrite map_length, seq_length|exact C|].
  exists y. split; [exact Ey|]. apply (M_ext _ _ _ _ _ My). intros i j Hi Hj. change 0%Z with (Z.of_nat 0). rewrite map_nth, seq_nth by nia. lia.
Qed.
Definition idx_diff : iexpr := ISub (IMod idx_reshape (ISlice shp 1 2)) (IDiv idx_reshape (ISlice shp 1 2)).
Lemma diff_ok : c <> 0 -> exists t, iv idx_diff = Some t /\ M r c t (fun i j => (Z.of_nat j - Z.of_nat i)%Z).
Proof.
  intro C. destruct (idx_ok C) as (t & E & Mt).
  destruct (M_one_r imod r c t _ (zvec [Z.of_nat c]) (Z.of_nat c) Mt) as (om & Em & Mm); [right; reflexivity|].
  destruct (M_one_r idiv r c t _ (zvec [Z.of_nat c]) (Z.of_nat c) Mt) as (od & Ed & Md); [right; reflexivity|].
  destruct (M_whole r c om _ (fun _ j => Z.of_nat j) Mm) as (m & Em' & Mm').
  { intros i j Hi Hj. unfold imod. rewrite (proj2 (Z.eqb_neq _ _)) by lia. f_equal. rewrite Nat2Z.inj_add, Nat2Z.inj_mul, Z.add_comm, Z.mod_add, Z.mod_small by lia. reflexivity. }
  destruct (M_whole r c od _ (fun i _ => Z.of_nat i) Md) as (d & Ed' & Md').
  { intros i j Hi Hj. unfold idiv. rewrite (proj2 (Z.eqb_neq _ _)) by lia. f_equal. rewrite Z.quot_div_nonneg by lia. rewrite Nat2Z.inj_add, Nat2Z.inj_mul, Z.add_comm, Z.div_add, Z.div_small by lia. reflexivity. }
  destruct (M_both Z.sub r c m _ d _ Mm' Md') as (y & Ey & My). exists y. split; [|exact My].
  unfold idx_diff. cbn [ival] in *. fold (iv idx_reshape). change (ival x lower upper idx_reshape) with (iv idx_reshape). rewrite E.
  pose proof col_ok as Co. cbn [ival] in Co. rewrite Co. cbv iota. rewrite Em, Ed. cbn [obind]. rewrite Em', Ed'. exact Ey.
Qed.
Lemma upper_ok : c <> 0 -> exists t, mval zero x lower upper (MNot (MGreater idx_diff IUpper)) = Some t /\ M r c t (fun i j => (Z.of_nat j - Z.of_nat i <=? upper)%Z).
Proof.
  intro C. destruct (diff_ok C) as (t & E & Mt). destruct (M_one_r Z.gtb r c t _ _ upper Mt (or_introl eq_refl)) as (y & Ey & My).
  exists (f_unary negb y). split.
  - cbn [mval]. rewrite E. cbn [ival]. rewrite Ey. reflexivity.
  - apply (M_unary negb) in My. apply (M_ext _ _ _ _ _ My). intros i j _ _. rewrite Z.gtb_ltb, Z.leb_antisym. reflexivity.
Qed.
Lemma lower_ok : c <> 0 -> exists t, mval zero x lower upper (MNot (MGreater (INeg ILower) idx_diff)) = Some t /\ M r c t (fun i j => (Z.of_nat i - Z.of_nat j <=? lower)%Z).
Proof.
  intro C. destruct (diff_ok C) as (t & E & Mt). destruct (M_one_l Z.gtb r c t _ _ (- lower)%Z Mt eq_refl) as (y & Ey & My).
  exists (f_unary negb y). split.
  - cbn [mval]. rewrite E. cbn [ival option_map]. unfold f_unary at 2. cbn [shape data map]. rewrite Ey. reflexivity.
  - apply (M_unary negb) in My. apply (M_ext _ _ _ _ _ My). intros i j _ _. rewrite Z.gtb_ltb, Z.ltb_antisym, negb_involutive. destruct (Z.leb_spec (- lower) (Z.of_nat j - Z.of_nat i)), (Z.leb_spec (Z.of_nat i - Z.of_nat j) lower); try reflexivity; lia.
Qed.

Hypothesis mul_one : forall v, mul one v = v.
Hypothesis mul_zero : forall v, mul zero v = zero.
Lemma eye_ok : forall T (t : tensor T), shape t = [r; c] -> exists y, f_eye_like t = Some y /\ M r c y Nat.eqb.
Proof. intros T t St. unfold f_eye_like. rewrite St. apply M_build. reflexivity. Qed.

(** ** the whole of version 11 *)
Variables lower_const upper_const : option Z.
Hypothesis Lc : forall v, lower_const = Some v -> lower = v.
Hypothesis Uc : forall v, upper_const = Some v -> upper = v.
(** a bound that is not constant is not negative *)
Hypothesis Ld : lower_const = None -> (0 <= lower)%Z.
Hypothesis Ud : upper_const = None -> (0 <= upper)%Z.
Definition eye_case := is_zero lower_const && is_zero upper_const.
Definition none_case := negb (checked lower_const) && negb (checked upper_const).
Lemma zero_const o v : is_zero o = true -> (forall w, o = Some w -> v = w) -> v = 0%Z.
Proof. destruct o as [w|]; cbn; [|discriminate]. intros H E. apply Z.eqb_eq in H. rewrite (E w eq_refl). exact H. Qed.
Lemma band11_ok : eye_case || none_case = true \/ c <> 0 -> exists e y, band11 rank lower_const upper_const = Some e /\ rval mul zero one x lower upper e = Some y /\ tf_band_part zero lower upper x y.
Proof.
  intro C. unfold band11. fold shp.
  assert (Fin : forall m f, mval zero x lower upper m = Some f -> M r c f (in_band lower upper) -> exists y, rval mul zero one x lower upper (RMasked m) = Some y /\ tf_band_part zero lower upper x y).
  { intros m f E Mf. destruct (masked_ok mul zero one x sh r c Wx Sx mul_one mul_zero _ _ Mf) as (y & Ey & Wy & Sy & Gy). exists y. split; [cbn [rval]; rewrite E; exact Ey|]. split; [exact Wy|]. split; [exact Sy|]. exists sh, r, c. auto. }
  fold eye_case. destruct eye_case eqn:Eye.
  - unfold eye_case in Eye. apply andb_true_iff in Eye. destruct Eye as [El Eu].
    assert (L0 := zero_const _ _ El Lc). assert (U0 := zero_const _ _ Eu Uc).
    assert (Eb : forall i j, Nat.eqb i j = in_band lower upper i j).
    { intros i j. unfold in_band. rewrite L0, U0. cbn. destruct (Nat.eqb_spec i j), (Z.leb_spec (Z.of_nat i - Z.of_nat j) 0), (Z.leb_spec (Z.of_nat j - Z.of_nat i) 0); try reflexivity; lia. }
    eexists. match goal with |- context [RMasked ?m] => assert (Em : exists f, mval zero x lower upper m = Some f /\ M r c f Nat.eqb) end.
    { unfold shp. destruct (match rank with Some r => Nat.eqb r 2 | None => false end) eqn:R2.
      - cbn [mval]. apply eye_ok. destruct Rk as [-> | ->]; [discriminate|]. apply Nat.eqb_eq in R2. rewrite Sx, app_length in R2. cbn in R2. destruct sh; [exact Sx|cbn in R2; lia].
      - pose proof (shp_ok Big) as K. unfold shp in K. rewrite R2 in K. cbn [mval]. rewrite K. cbn [obind as_vec shape zvec data]. unfold f_constant_of_shape. cbn [forallb map].
        rewrite !(proj2 (Z.leb_le _ _)) by lia. cbn [andb obind]. rewrite !Nat2Z.id. apply eye_ok. reflexivity. }
    destruct Em as (f & Ef & Mf). destruct (Fin _ f Ef) as (y & Ey & Ty); [apply (M_ext _ _ _ _ _ Mf); auto|]. exists y. split; [reflexivity|]. split; [exact Ey|exact Ty].
  - fold idx_reshape. change (ISub (IMod idx_reshape (ISlice shp 1 2)) (IDiv idx_reshape (ISlice shp 1 2))) with idx_diff.
    assert (Hl : checked lower_const = negb (lower <? 0)%Z). { unfold checked. destruct lower_const as [v|]; [rewrite (Lc v eq_refl); now rewrite Z.leb_antisym|]. rewrite (proj2 (Z.ltb_ge _ _)) by auto. reflexivity. }
    assert (Hu : checked upper_const = negb (upper <? 0)%Z). { unfold checked. destruct upper_const as [v|]; [rewrite (Uc v eq_refl); now rewrite Z.leb_antisym|]. rewrite (proj2 (Z.ltb_ge _ _)) by auto. reflexivity. }
    unfold none_case in C. rewrite Hl, Hu in *. cbn zeta. cbn [orb] in C.
    destruct (upper <? 0)%Z eqn:U, (lower <? 0)%Z eqn:L; cbn [negb app andb] in *.
    + exists RData, x. split; [reflexivity|]. split; [reflexivity|]. split; [exact Wx|]. split; [reflexivity|]. exists sh, r, c. split; [exact Sx|]. intros ix i j _ _ _. unfold in_band. now rewrite U, L.
    + assert (C' : c <> 0) by (destruct C; [discriminate|assumption]). destruct (lower_ok C') as (f & Ef & Mf). destruct (Fin _ f Ef) as (y & Ey & Ty); [apply (M_ext _ _ _ _ _ Mf); intros; unfold in_band; rewrite U, L; cbn; now rewrite andb_true_r|]. eauto.
    + assert (C' : c <> 0) by (destruct C; [discriminate|assumption]). destruct (upper_ok C') as (f & Ef & Mf). destruct (Fin _ f Ef) as (y & Ey & Ty); [apply (M_ext _ _ _ _ _ Mf); intros; unfold in_band; now rewrite U, L|]. eauto.
    + assert (C' : c <> 0) by (destruct C; [discriminate|assumption]). destruct (upper_ok C') as (f & Ef & Mf). destruct (lower_ok C') as (g & Eg & Mg).
      destruct (M_both andb r c f _ g _ Mf Mg) as (h & Eh & Mh). destruct (Fin (MAnd (MNot (MGreater idx_diff IUpper)) (MNot (MGreater (INeg ILower) idx_diff))) h) as (y & Ey & Ty).
      { cbn [mval] in *. rewrite Ef, Eg. exact Eh. }
      { apply (M_ext _ _ _ _ _ Mh). intros. unfold in_band. rewrite U, L. cbn [orb]. apply andb_comm. }
      eauto.
Qed.
End V11.
