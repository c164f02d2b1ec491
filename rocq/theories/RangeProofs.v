(** Proofs about RangeModel. *)
From Coq Require Import ZArith Reals List Bool String Lia Lra Psatz.
From Flocq Require Import Core BinarySingleNaN Relative.
From Verif Require Import ElemSpec ElemModel ElemFloat RangeSpec RangeModel.
Import ListNotations.
Local Open Scope list_scope.
Local Open Scope Z_scope.
Local Notation round := Generic_fmt.round.

Lemma ceil_div_pos a b : 0 <= a -> 0 < b -> forall n, n = ceil_div a b -> a <= n * b /\ (n - 1) * b < a.
Proof.
  intros Ha Hb n ->. unfold ceil_div. pose proof (Z.div_mod (- a) b ltac:(lia)). pose proof (Z.mod_pos_bound (- a) b Hb). nia.
Qed.
Lemma ceil_div_opp a b : b <> 0 -> ceil_div (- a) (- b) = ceil_div a b.
Proof. intro H. unfold ceil_div. f_equal. apply (Z.div_opp_opp (- a) b H). Qed.

(** of_Z rounds *)
Lemma of_Z_round f z : f <> F16 -> Z.abs z <= 2 ^ 64 ->
  B2R (of_Z f z) = round radix2 (fexpo f) ZnearestE (IZR z) /\ is_finite (of_Z f z) = true /\ (Rabs (B2R (of_Z f z)) <= bpow radix2 64)%R.
Proof.
  intros Nf H. unfold of_Z, round_to. assert (C := binary_normalize_correct (prec f) (emax f) _ _ mode_NE z 0 false). cbv zeta in C.
  replace (F2R (Float radix2 z 0)) with (IZR z) in C by (unfold F2R; cbn; lra). change (round_mode mode_NE) with ZnearestE in C. change (SpecFloat.fexp (prec f) (emax f)) with (fexpo f) in C.
  assert (Bd : (Rabs (round radix2 (fexpo f) ZnearestE (IZR z)) <= bpow radix2 64)%R).
  { apply abs_round_le_generic; [typeclasses eauto|typeclasses eauto| |].
    - apply generic_format_bpow. destruct f; [congruence| |]; vm_compute; discriminate.
    - rewrite <- abs_IZR. change (bpow radix2 64) with (IZR (2 ^ 64)). now apply IZR_le. }
  rewrite Rlt_bool_true in C; [destruct C as (C1 & C2 & _); rewrite C1; auto|].
  apply Rle_lt_trans with (1 := Bd). apply bpow_lt. destruct f; [congruence| |]; reflexivity.
Qed.
(** a / b for nonnegative a, positive b *)
Lemma round_quotient f a b : f <> F16 -> 0 < a < 2 ^ prec f -> 0 < b <= 2 ^ prec f ->
  (IZR (ceil_div a b - 1) < round radix2 (fexpo f) ZnearestE (IZR a / IZR b) <= IZR (ceil_div a b))%R.
Proof.
  intros Nf Ha Hb. destruct (ceil_div_pos a b ltac:(lia) ltac:(lia) _ eq_refl) as [C1 C2]. set (n := ceil_div a b) in *.
  assert (Pb : (0 < IZR b)%R) by (apply IZR_lt; lia). assert (Pa : (0 < IZR a)%R) by (apply IZR_lt; lia).
  set (x := (IZR a / IZR b)%R). assert (Px : (0 < x)%R) by (apply Rdiv_lt_0_compat; auto).
  assert (Hx : (IZR a = x * IZR b)%R) by (unfold x; field; lra).
  assert (Nn : 1 <= n) by nia. assert (Na : n <= a) by nia.
  split.
  - apply Rnot_le_lt. intro Hle.
    assert (E := relative_error_N_FLT radix2 (3 - emax f - prec f) (prec f) ltac:(destruct f; reflexivity) (fun z => negb (Z.even z)) x).
    change (FLT_exp (3 - emax f - prec f) (prec f)) with (fexpo f) in E.
    assert (Lx : (bpow radix2 (3 - emax f - prec f + prec f - 1) <= Rabs x)%R).
    { rewrite Rabs_pos_eq by lra. apply Rle_trans with (bpow radix2 (- prec f)).
      - apply bpow_le. destruct f; [congruence| |]; cbn; lia.
      - rewrite bpow_opp. rewrite <- IZR_Zpower by (destruct f; easy). change (radix2 ^ prec f) with (2 ^ prec f). apply Rle_trans with (/ IZR b)%R.
        + apply Rinv_le; auto. now apply IZR_le.
        + unfold x. apply Rle_trans with (1 / IZR b)%R; [lra|]. apply Rmult_le_compat_r; [left; now apply Rinv_0_lt_compat|]. apply IZR_le. lia. }
    specialize (E Lx). rewrite (Rabs_pos_eq x) in E by lra.
    assert (E' : (x - round radix2 (fexpo f) ZnearestE x <= bpow radix2 (- prec f) * x)%R).
    { rewrite Rabs_minus_sym in E. apply Rle_trans with (1 := Rle_abs _). apply Rle_trans with (1 := E). rewrite bpow_plus. change (bpow radix2 1) with 2%R. right. field. }
    assert (D : (1 <= IZR a - IZR (n - 1) * IZR b)%R) by (rewrite <- mult_IZR, <- minus_IZR; apply IZR_le; lia).
    assert (Bp : (bpow radix2 (- prec f) * IZR (2 ^ prec f) = 1)%R).
    { change (2 ^ prec f) with (Zpower radix2 (prec f)). rewrite (IZR_Zpower radix2 (prec f)) by (destruct f; easy). rewrite <- bpow_plus. replace (- prec f + prec f) with 0 by lia. reflexivity. }
    assert (Al : (IZR a < IZR (2 ^ prec f))%R) by (apply IZR_lt; lia). assert (Bpos := bpow_gt_0 radix2 (- prec f)).
    assert (Q1 : (x - IZR (n - 1) <= bpow radix2 (- prec f) * x)%R) by lra.
    assert (Q2 : ((x - IZR (n - 1)) * IZR b <= bpow radix2 (- prec f) * IZR a)%R) by (rewrite Hx; apply Rle_trans with (bpow radix2 (- prec f) * x * IZR b)%R; [apply Rmult_le_compat_r; lra|right; ring]).
    assert (Q3 : (bpow radix2 (- prec f) * IZR a < 1)%R) by (rewrite <- Bp; apply Rmult_lt_compat_l; auto).
    rewrite Rmult_minus_distr_r, <- Hx in Q2. lra.
  - apply round_le_generic; [typeclasses eauto|typeclasses eauto| |].
    + apply format_Z. lia.
    + unfold x. apply Rmult_le_reg_r with (IZR b); auto. unfold Rdiv. rewrite Rmult_assoc, Rinv_l, Rmult_1_r by lra. rewrite <- mult_IZR. now apply IZR_le.
Qed.
(** the number of iterations, and the length in numpy.arange *)
Definition quotient_ceil (f : fty) (a b : Z) : Z := Btrunc (to_int mode_UP (div (of_Z f a) (of_Z f b))).
Lemma quotient_ceil_pos f a b sa sb : f <> F16 -> 0 <= a < 2 ^ prec f -> 0 < b <= 2 ^ 64 -> (sa = a /\ sb = b) \/ (sa = - a /\ sb = - b) ->
  quotient_ceil f sa sb = ceil_div a b /\ is_finite (to_int mode_UP (div (of_Z f sa) (of_Z f sb))) = true.
Proof.
  intros Nf Ha Hb Hs.
  assert (L24 : 2 ^ prec f <= 2 ^ 64) by (destruct f; vm_compute; discriminate).
  assert (As : Z.abs sa = a) by (destruct Hs as [[-> ->]|[-> ->]]; lia). assert (Bs : Z.abs sb = b) by (destruct Hs as [[-> ->]|[-> ->]]; lia).
  destruct (of_Z_exact f sa) as (Ra & Fa); [lia|]. destruct (of_Z_round f sb Nf) as (Rb & Fb & Bb); [lia|].
  set (d := B2R (of_Z f sb)) in *.
  assert (Sd : forall z, Z.abs z <= 2 ^ prec f -> round radix2 (fexpo f) ZnearestE (IZR z) = IZR z) by (intros z Hz; apply round_generic; [typeclasses eauto|now apply format_Z]).
  assert (Dpos : d <> 0%R /\ (b <= 2 ^ prec f -> d = IZR sb) /\ (2 ^ prec f < b -> (IZR (2 ^ prec f) <= Rabs d)%R)).
  { split; [|split].
    - intro E. assert (Q : (IZR 1 <= Rabs d)%R); [|rewrite E, Rabs_R0 in Q; lra]. rewrite Rb. apply abs_round_ge_generic; [typeclasses eauto|typeclasses eauto| |].
      + apply format_Z. destruct f; vm_compute; discriminate.
      + rewrite <- abs_IZR. apply IZR_le. lia.
    - intro Hle. rewrite Rb. apply Sd. lia.
    - intro Hlt. rewrite Rb. apply abs_round_ge_generic; [typeclasses eauto|typeclasses eauto| |].
      + apply format_Z. rewrite Z.abs_eq; [lia|]. apply Z.pow_nonneg. lia.
      + rewrite <- abs_IZR. apply IZR_le. lia. }
  destruct Dpos as (D0 & Dsmall & Dbig).
  assert (C := Bdiv_correct (prec f) (emax f) _ _ mode_NE (of_Z f sa) (of_Z f sb) D0).
  change (SpecFloat.fexp (prec f) (emax f)) with (fexpo f) in C. change (round_mode mode_NE) with ZnearestE in C. change (B2R (of_Z f sb)) with d in C. rewrite Ra in C.
  set (r := round radix2 (fexpo f) ZnearestE (IZR sa / d)) in *.
  assert (Pp : 0 < 2 ^ prec f) by (destruct f; reflexivity).
  assert (Rr : (IZR (ceil_div a b - 1) < r <= IZR (ceil_div a b))%R).
  { destruct (Z.eq_dec a 0) as [E0|E0].
    - assert (Ez : sa = 0) by lia. assert (Er : r = 0%R) by (unfold r; rewrite Ez; unfold Rdiv; rewrite Rmult_0_l; apply round_0; typeclasses eauto).
      assert (Ec : ceil_div a b = 0) by (rewrite E0; unfold ceil_div; cbn [Z.opp]; rewrite Zdiv_0_l; reflexivity). rewrite Er, Ec. cbn [Z.sub Z.add Z.opp]. lra.
    - destruct (Z_le_gt_dec b (2 ^ prec f)) as [Hle|Hgt].
      + assert (Eq : (IZR sa / d = IZR a / IZR b)%R).
        { rewrite (Dsmall Hle). assert (IZR b <> 0)%R by (apply IZR_neq; lia). destruct Hs as [[-> ->]|[-> ->]]; [reflexivity|]. rewrite !opp_IZR. field. auto. }
        unfold r. rewrite Eq. apply round_quotient; auto; lia.
      + assert (Ec : ceil_div a b = 1) by (destruct (ceil_div_pos a b ltac:(lia) ltac:(lia) _ eq_refl); nia). rewrite Ec. cbn [Z.sub Z.add Z.opp Z.pos_sub].
        specialize (Dbig ltac:(lia)).
        assert (Eq : (IZR sa / d = IZR a / Rabs d)%R).
        { assert (Sg : (0 <= IZR sb * d)%R).
          { rewrite Rb. destruct Hs as [[Ea Eb]|[Ea Eb]].
            - apply Rmult_le_pos; [apply IZR_le; lia|]. apply round_ge_generic; [typeclasses eauto|typeclasses eauto|apply generic_format_0|apply IZR_le; lia].
            - replace (IZR sb * round radix2 (fexpo f) ZnearestE (IZR sb))%R with (- IZR sb * - round radix2 (fexpo f) ZnearestE (IZR sb))%R by ring. apply Rmult_le_pos; [rewrite <- opp_IZR; apply IZR_le; lia|].
              assert (round radix2 (fexpo f) ZnearestE (IZR sb) <= 0)%R; [|lra]. apply round_le_generic; [typeclasses eauto|typeclasses eauto|apply generic_format_0|apply IZR_le; lia]. }
          destruct Hs as [[Ea Eb]|[Ea Eb]].
          - assert (0 < IZR sb)%R by (apply IZR_lt; lia). assert (0 <= d)%R by nra. rewrite Rabs_pos_eq by auto. now rewrite Ea.
          - assert (IZR sb < 0)%R by (apply IZR_lt; lia). assert (d <= 0)%R by nra. rewrite Rabs_left1 by auto. rewrite Ea, opp_IZR. field. auto. }
        assert (Ap : (1 <= IZR a)%R) by (apply IZR_le; lia). assert (Al : (IZR a < IZR (2 ^ prec f))%R) by (apply IZR_lt; lia).
        assert (Dp : (0 < Rabs d)%R) by now apply Rabs_pos_lt.
        split.
        * apply Rlt_le_trans with (bpow radix2 (-64)); [apply bpow_gt_0|]. unfold r. rewrite Eq. apply round_ge_generic; [typeclasses eauto|typeclasses eauto| |].
          -- apply generic_format_bpow. destruct f; [congruence| |]; vm_compute; discriminate.
          -- change (-64) with (- (64)). rewrite bpow_opp. apply Rle_trans with (/ Rabs d)%R; [apply Rinv_le; auto|]. apply Rle_trans with (1 / Rabs d)%R; [right; field; lra|]. apply Rmult_le_compat_r; [left; now apply Rinv_0_lt_compat|]; auto.
        * unfold r. rewrite Eq. apply round_le_generic; [typeclasses eauto|typeclasses eauto| |].
          -- apply (format_Z f 1). destruct f; vm_compute; discriminate.
          -- apply Rmult_le_reg_r with (Rabs d); auto. unfold Rdiv. rewrite Rmult_assoc, Rinv_l, Rmult_1_r, Rmult_1_l by lra. lra. }
  assert (Cb : 0 <= ceil_div a b <= 2 ^ prec f) by (destruct (ceil_div_pos a b ltac:(lia) ltac:(lia) _ eq_refl); nia).
  rewrite Rlt_bool_true in C.
  2:{ apply Rle_lt_trans with (IZR (2 ^ prec f)).
      - apply Rabs_le. assert (IZR (-1) <= IZR (ceil_div a b - 1))%R by (apply IZR_le; lia). assert (IZR (ceil_div a b) <= IZR (2 ^ prec f))%R by (apply IZR_le; lia). assert (1 <= IZR (2 ^ prec f))%R by (apply IZR_le; lia). lra.
      - change (2 ^ prec f) with (Zpower radix2 (prec f)). rewrite (IZR_Zpower radix2 (prec f)) by (destruct f; easy). apply bpow_lt. destruct f; reflexivity. }
  destruct C as (C1 & C2 & _). rewrite Fa in C2. unfold quotient_ceil, div, to_int.
  destruct (Bnearbyint_correct (prec f) (emax f) _ mode_UP (Bdiv mode_NE (of_Z f sa) (of_Z f sb))) as (N1 & N2 & _).
  split; [|now rewrite N2].
  apply eq_IZR. rewrite Btrunc_correct by typeclasses eauto. rewrite N1, C1. rewrite !round_FIX_IZR. cbn [round_mode]. rewrite (Zceil_imp (ceil_div a b)) by exact Rr. now rewrite Ztrunc_IZR.
Qed.
Lemma quotient_ceil_ok f a b : f <> F16 -> b <> 0 -> Z.abs b <= 2 ^ 64 -> 0 <= a * b -> Z.abs a < 2 ^ prec f ->
  quotient_ceil f a b = ceil_div a b /\ is_finite (to_int mode_UP (div (of_Z f a) (of_Z f b))) = true.
Proof.
  intros Nf Hb Hb' Hs Ha. destruct (Z_lt_le_dec 0 b).
  - apply (quotient_ceil_pos f a b a b); auto; nia.
  - rewrite <- (ceil_div_opp a b) by auto. apply (quotient_ceil_pos f (- a) (- b) a b); auto; nia.
Qed.
Lemma wrap_id t z : in_range t z -> wrap t z = z.
Proof. unfold in_range, wrap, lo, hi. intro H. rewrite Z.mod_small; [lia|]. destruct t; cbn [signed bits] in *; lia. Qed.
Lemma trip_ints opset t start limit delta p : t = I32 \/ t = I64 -> built (trip_count (INT t)) = Some p ->
  in_range t (limit - start) -> delta <> 0 -> Z.abs delta <= 2 ^ 64 -> 0 <= (limit - start) * delta -> Z.abs (limit - start) < 2 ^ 24 ->
  scalar_result opset p [VI t start; VI t limit; VI t delta] = Some (VI I64 (ceil_div (limit - start) delta)).
Proof.
  intros Ht Hp Hr Hd Hd' Hs Hb. destruct (quotient_ceil_ok F32 (limit - start) delta) as (Q & Fq); auto; [discriminate|]. unfold quotient_ceil in Q.
  assert (Bc : lo I64 <= ceil_div (limit - start) delta <= hi I64).
  { assert (- 2 ^ 24 <= ceil_div (limit - start) delta <= 2 ^ 24); [|unfold lo, hi; cbn [signed bits]; lia].
    destruct (Z_lt_le_dec 0 delta).
    - destruct (ceil_div_pos (limit - start) delta ltac:(nia) ltac:(lia) _ eq_refl). nia.
    - rewrite <- ceil_div_opp by auto. destruct (ceil_div_pos (- (limit - start)) (- delta) ltac:(nia) ltac:(lia) _ eq_refl). nia. }
  assert (E : p = ([Node "Sub" NoAttr [In_ 1; In_ 0]; Node "Cast" (To (FLT F32)) [Tmp 0]; Node "Cast" (To (FLT F32)) [In_ 2]; Node "Div" NoAttr [Tmp 1; Tmp 2]; Node "Ceil" NoAttr [Tmp 3]; Node "Cast" (To (INT I64)) [Tmp 4]]%string, Tmp 5)).
  { destruct Ht as [-> | ->]; cbv in Hp; congruence. }
  subst p. unfold scalar_result, result. cbn [fst snd map].
  assert (W1 : onnx_op opset "Sub" NoAttr [VI t limit; VI t start] = Some (VI t (limit - start))).
  { cbn [onnx_op arith both]. destruct Ht as [-> | ->]; cbn [ity_eqb bit32 orb]; now rewrite wrap_id. }
  assert (W2 : forall z, onnx_op opset "Cast" (To (FLT F32)) [VI t z] = Some (VF F32 (of_Z F32 z))) by reflexivity.
  assert (W3 : onnx_op opset "Div" NoAttr [VF F32 (of_Z F32 (limit - start)); VF F32 (of_Z F32 delta)] = Some (VF F32 (div (of_Z F32 (limit - start)) (of_Z F32 delta)))) by reflexivity.
  assert (W4 : forall x, onnx_op opset "Ceil" NoAttr [VF F32 x] = Some (VF F32 (to_int mode_UP x))) by reflexivity.
  assert (W5 : onnx_op opset "Cast" (To (INT I64)) [VF F32 (to_int mode_UP (div (of_Z F32 (limit - start)) (of_Z F32 delta)))] = Some (VI I64 (ceil_div (limit - start) delta))).
  { cbn [onnx_op cast]. rewrite Q, Fq. destruct (Z.leb_spec (lo I64) (ceil_div (limit - start) delta)); [|lia]. destruct (Z.leb_spec (ceil_div (limit - start) delta) (hi I64)); [|lia]. reflexivity. }
  Opaque onnx_op.
  cbn [run run_step looks look nth_error map scalar lift tshape bcast_all bcast rev app bcast_rev option_map telem all_vals align combine skipn length Nat.sub].
  cbn -[onnx_op of_Z div to_int ceil_div]. rewrite W1. cbn -[onnx_op of_Z div to_int ceil_div]. rewrite !W2. cbn -[onnx_op of_Z div to_int ceil_div]. rewrite W3. cbn -[onnx_op of_Z div to_int ceil_div]. rewrite W4. exact W5.
  Transparent onnx_op.
Qed.
Lemma loop_ints opset t b c delta : t = I32 \/ t = I64 -> built body_current = Some b -> built body_range = Some c ->
  forall n v, (forall i, (i < n)%nat -> in_range t (v + Z.of_nat i * delta)) ->
  loop (fun prev => match scalar_result opset b [prev; VI t delta], scalar_result opset c [prev; VI t delta] with Some v, Some row => Some (v, row) | _, _ => None end) n (VI t v)
  = Some (map (fun i => VI t (v + Z.of_nat i * delta)) (seq 0 n)).
Proof.
  intros Ht Hb Hc. cbv in Hb, Hc. injection Hb as <-. injection Hc as <-.
  induction n as [|n IH]; intros v Hr; [reflexivity|].
  assert (R : forall w, in_range t w -> scalar_result opset ([Node "Add" NoAttr [In_ 0; In_ 1]]%string, Tmp 0%nat) [VI t w; VI t delta] = Some (VI t (wrap t (w + delta)))).
  { intros w _. unfold scalar_result. destruct Ht as [-> | ->]; reflexivity. }
  assert (R2 : scalar_result opset ([Node "Identity" NoAttr [In_ 0]]%string, Tmp 0%nat) [VI t v; VI t delta] = Some (VI t v)) by reflexivity.
  cbn [loop]. assert (V0 := Hr 0%nat ltac:(lia)). cbn [Z.of_nat Z.mul] in V0. rewrite Z.add_0_r in V0. 
  match goal with |- match match ?a with _ => _ end with _ => _ end = _ => replace a with (Some (VI t (wrap t (v + delta)))) by (symmetry; apply R; auto) end. cbv iota beta.
  match goal with |- match match ?a with _ => _ end with _ => _ end = _ => replace a with (Some (VI t v)) by (symmetry; exact R2) end. cbv iota beta.
  cbn [seq map]. rewrite Z.mul_0_l, Z.add_0_r. destruct n as [|n].
  - reflexivity.
  - assert (V1 := Hr 1%nat ltac:(lia)). change (Z.of_nat 1) with 1 in V1. rewrite Z.mul_1_l in V1. rewrite wrap_id by auto. rewrite IH.
    + cbn [option_map]. do 2 f_equal. rewrite <- seq_shift, map_map. apply map_ext. intro i. f_equal. lia.
    + intros i Hi. replace (v + delta + Z.of_nat i * delta) with (v + Z.of_nat (S i) * delta) by lia. apply Hr. lia.
Qed.
(** every number of the progression lies between start and limit *)
Lemma progression_in start limit delta i : delta <> 0 -> 0 <= (limit - start) * delta -> 0 <= i < ceil_div (limit - start) delta ->
  (start <= start + i * delta < limit) \/ (limit < start + i * delta <= start).
Proof.
  intros Hd Hs Hi. destruct (Z_lt_le_dec 0 delta).
  - left. destruct (ceil_div_pos (limit - start) delta ltac:(nia) ltac:(lia) _ eq_refl). nia.
  - right. rewrite <- ceil_div_opp in Hi by auto. destruct (ceil_div_pos (- (limit - start)) (- delta) ltac:(nia) ltac:(lia) _ eq_refl). nia.
Qed.
Lemma tf_ints_inv t start limit delta l : tf_range_ints t start limit delta = Some l ->
  delta <> 0 /\ 0 <= (limit - start) * delta /\ 0 <= ceil_div (limit - start) delta /\ l = progression t start delta (ceil_div (limit - start) delta).
Proof.
  unfold tf_range_ints. destruct (Z.eqb_spec delta 0); [discriminate|]. destruct (Z.ltb_spec 0 delta).
  - destruct (Z.leb_spec start limit); [|discriminate]. intro E. injection E as <-. repeat split; auto; [nia|]. destruct (ceil_div_pos (limit - start) delta ltac:(nia) ltac:(lia) _ eq_refl). nia.
  - destruct (Z.leb_spec limit start); [|discriminate]. intro E. injection E as <-. repeat split; auto; [nia|]. rewrite <- ceil_div_opp by auto. destruct (ceil_div_pos (- (limit - start)) (- delta) ltac:(nia) ltac:(lia) _ eq_refl). nia.
Qed.
(** ** floats *)
Lemma quotient_sign f (start limit delta : fl f) : let q := div (sub limit start) delta in
  is_finite q = true -> Beqb delta fzero = false -> is_nan delta = false -> Bltb fzero delta && Bltb limit start = false -> Bltb delta fzero && Bltb start limit = false ->
  (exists s, q = B754_zero s) \/ Bsign q = false.
Proof.
  intros q Fq D0 Dn Sp Sn. unfold q, div in *. clear q.
  destruct (sub limit start) as [sz|si| |sd md ed Hd] eqn:Es; destruct delta as [tz|ti| |st mt et Ht]; try discriminate; try (left; cbn; eauto; fail).
  right. assert (Fs : is_finite (sub limit start) = true) by now rewrite Es.
  assert (Ff : is_finite limit = true /\ is_finite start = true).
  { unfold sub in Es. destruct limit, start; try (cbn in Es; discriminate); try (split; reflexivity); try (cbn in Es; destruct (Bool.eqb _ _) in Es; discriminate). }
  destruct Ff as [Fl Fr].
  assert (C := Bdiv_correct (prec f) (emax f) _ _ mode_NE (B754_finite sd md ed Hd) (B754_finite st mt et Ht) ltac:(cbn; now apply F2R_neq_0; destruct st)).
  destruct (Rlt_bool _ _).
  2:{ exfalso. destruct (Bdiv mode_NE (B754_finite sd md ed Hd) (B754_finite st mt et Ht)); try discriminate; cbn in C; unfold binary_overflow in C; cbn in C; discriminate. }
  destruct C as (_ & _ & C). rewrite C by (destruct (Bdiv mode_NE (B754_finite sd md ed Hd) (B754_finite st mt et Ht)); try reflexivity; discriminate). clear C. cbn [Bsign].
  (* the sign of limit - start *)
  assert (M := Bminus_correct (prec f) (emax f) _ _ mode_NE limit start Fl Fr). change (Bminus mode_NE limit start) with (sub limit start) in M. rewrite Es in M.
  destruct (Rlt_bool _ _); [|exfalso; destruct M as [M _]; cbn in M; unfold binary_overflow in M; cbn in M; discriminate].
  destruct M as (M & _ & _).
  assert (Pd : forall (b : bool), sd = b -> if b then (B2R limit - B2R start < 0)%R else (0 < B2R limit - B2R start)%R).
  { intros b <-. destruct sd.
    - apply Rnot_le_lt. intro H. apply (round_ge_generic radix2 (SpecFloat.fexp (prec f) (emax f)) (round_mode mode_NE)) in H; [|apply generic_format_0]. rewrite <- M in H. revert H. apply Rlt_not_le. cbn. now apply F2R_lt_0.
    - apply Rnot_le_lt. intro H. apply (round_le_generic radix2 (SpecFloat.fexp (prec f) (emax f)) (round_mode mode_NE)) in H; [|apply generic_format_0]. rewrite <- M in H. revert H. apply Rlt_not_le. cbn. now apply F2R_gt_0. }
  specialize (Pd sd eq_refl). destruct st.
  - assert (L : Bltb (B754_finite true mt et Ht) (fzero (f:=f)) = true) by reflexivity. rewrite L in Sn. cbn [andb] in Sn. rewrite Bltb_correct in Sn by auto.
    destruct (Rlt_bool_spec (B2R start) (B2R limit)) as [|G]; [discriminate|]. destruct sd; [reflexivity|lra].
  - assert (L : Bltb (fzero (f:=f)) (B754_finite false mt et Ht) = true) by reflexivity. rewrite L in Sp. cbn [andb] in Sp. rewrite Bltb_correct in Sp by auto.
    destruct (Rlt_bool_spec (B2R limit) (B2R start)) as [|G]; [discriminate|]. destruct sd; [lra|reflexivity].
Qed.
Lemma ceil_abs f (start limit delta : fl f) : is_finite (div (sub limit start) delta) = true -> Beqb delta fzero = false -> is_nan delta = false ->
  Bltb fzero delta && Bltb limit start = false -> Bltb delta fzero && Bltb start limit = false ->
  Btrunc (to_int mode_UP (Babs (div (sub limit start) delta))) = Btrunc (to_int mode_UP (div (sub limit start) delta)).
Proof.
  intros Fq D0 Dn Sp Sn. destruct (quotient_sign f start limit delta Fq D0 Dn Sp Sn) as [[s E] | E].
  - rewrite E. destruct s; reflexivity.
  - f_equal. f_equal. destruct (div (sub limit start) delta) as [s|s| |s m e H]; try discriminate; cbn in E; subst s; reflexivity.
Qed.
Lemma trip_floats opset f (start limit delta : fl f) n :
  is_finite (div (sub limit start) delta) = true -> Btrunc (to_int mode_UP (div (sub limit start) delta)) = n -> lo I64 <= n <= hi I64 ->
  scalar_result opset ([Node "Sub" NoAttr [In_ 1; In_ 0]; Node "Div" NoAttr [Tmp 0; In_ 2]; Node "Ceil" NoAttr [Tmp 1]; Node "Cast" (To (INT I64)) [Tmp 2]]%string, Tmp 3%nat) [VF f start; VF f limit; VF f delta]
  = Some (VI I64 n).
Proof.
  intros Fq E R. unfold scalar_result, result. cbn [fst snd map].
  assert (W1 : onnx_op opset "Sub" NoAttr [VF f limit; VF f start] = Some (VF f (sub limit start))) by (destruct f; reflexivity).
  assert (W3 : onnx_op opset "Div" NoAttr [VF f (sub limit start); VF f delta] = Some (VF f (div (sub limit start) delta))) by (destruct f; reflexivity).
  assert (W4 : forall x, onnx_op opset "Ceil" NoAttr [VF f x] = Some (VF f (to_int mode_UP x))) by (destruct f; reflexivity).
  assert (Fi : is_finite (to_int mode_UP (div (sub limit start) delta)) = true) by (unfold to_int; destruct (Bnearbyint_correct (prec f) (emax f) _ mode_UP (div (sub limit start) delta)) as (_ & F & _); now rewrite F).
  assert (W5 : onnx_op opset "Cast" (To (INT I64)) [VF f (to_int mode_UP (div (sub limit start) delta))] = Some (VI I64 n)).
  { cbn [onnx_op cast]. rewrite E, Fi. destruct (Z.leb_spec (lo I64) n); [|lia]. destruct (Z.leb_spec n (hi I64)); [|lia]. reflexivity. }
  Opaque onnx_op.
  cbn -[onnx_op of_Z div sub to_int]. rewrite W1. cbn -[onnx_op of_Z div sub to_int]. rewrite W3. cbn -[onnx_op of_Z div sub to_int]. rewrite W4. exact W5.
  Transparent onnx_op.
Qed.
Lemma loop_floats opset f (delta : fl f) : forall n x,
  loop (fun prev => match scalar_result opset ([Node "Add" NoAttr [In_ 0; In_ 1]]%string, Tmp 0%nat) [prev; VF f delta], scalar_result opset ([Node "Identity" NoAttr [In_ 0]]%string, Tmp 0%nat) [prev; VF f delta] with Some v, Some row => Some (v, row) | _, _ => None end) n (VF f x)
  = Some (summed n x delta).
Proof.
  induction n as [|n IH]; intro x; [reflexivity|].
  assert (R1 : scalar_result opset ([Node "Add" NoAttr [In_ 0; In_ 1]]%string, Tmp 0%nat) [VF f x; VF f delta] = Some (VF f (add x delta))) by (destruct f; reflexivity).
  assert (R2 : scalar_result opset ([Node "Identity" NoAttr [In_ 0]]%string, Tmp 0%nat) [VF f x; VF f delta] = Some (VF f x)) by reflexivity.
  cbn [loop summed]. rewrite R1, R2. rewrite IH. reflexivity.
Qed.
Lemma ceil_abs_pos f (q : fl f) : 0 <= Btrunc (to_int mode_UP (Babs q)).
Proof.
  apply le_IZR. rewrite Btrunc_correct by typeclasses eauto. unfold to_int.
  destruct (Bnearbyint_correct (prec f) (emax f) _ mode_UP (Babs q)) as (N1 & _). rewrite N1, !round_FIX_IZR, Ztrunc_IZR. cbn [round_mode]. apply IZR_le.
  rewrite <- (Zceil_IZR 0). apply Zceil_le. rewrite B2R_Babs. apply Rabs_pos.
Qed.
