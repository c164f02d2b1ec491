(** Facts about the floats of ElemSpec. *)
From Coq Require Import ZArith Reals Lia Lra Bool Psatz.
From Flocq Require Import Core BinarySingleNaN.
From Verif Require Import ElemSpec.
Local Open Scope Z_scope.

Definition fexpo (f : fty) := SpecFloat.fexp (prec f) (emax f).
#[global] Instance fexpo_valid f : Valid_exp (fexpo f).
Proof. apply fexp_correct, prec_pos. Qed.
Lemma format_Z f z : Z.abs z <= 2 ^ prec f -> generic_format radix2 (fexpo f) (IZR z).
Proof.
  intros H. change (fexpo f) with (FLT_exp (3 - emax f - prec f) (prec f)). apply generic_format_FLT.
  destruct (Z.eq_dec (Z.abs z) (2 ^ prec f)) as [E|N].
  - exists (Float radix2 (Z.sgn z) (prec f)).
    + unfold F2R. cbn [Fnum Fexp]. rewrite <- IZR_Zpower by (destruct f; easy). rewrite <- mult_IZR. f_equal.
      change (Zpower radix2 (prec f)) with (2 ^ prec f). lia.
    + cbn [Fnum]. change (Zpower radix2 (prec f)) with (2 ^ prec f). destruct f; cbn; lia.
    + cbn [Fexp]. destruct f; cbn; lia.
  - exists (Float radix2 z 0).
    + unfold F2R. cbn [Fnum Fexp]. cbn. lra.
    + cbn [Fnum]. change (Zpower radix2 (prec f)) with (2 ^ prec f). lia.
    + cbn [Fexp]. destruct f; cbn; lia.
Qed.
Lemma of_Z_exact f z : Z.abs z <= 2 ^ prec f -> B2R (of_Z f z) = IZR z /\ is_finite (of_Z f z) = true.
Proof.
  intros H. assert (G := format_Z f z H). unfold of_Z, round_to.
  assert (C := binary_normalize_correct (prec f) (emax f) _ _ mode_NE z 0 false). cbv zeta in C.
  replace (F2R (Float radix2 z 0)) with (IZR z) in C by (unfold F2R; cbn; lra).
  rewrite round_generic in C; [|typeclasses eauto|exact G].
  rewrite Rlt_bool_true in C; [tauto|]. rewrite <- abs_IZR. apply Rle_lt_trans with (IZR (2 ^ prec f)); [now apply IZR_le|].
  rewrite <- IZR_Zpower by (destruct f; easy). apply IZR_lt. destruct f; reflexivity.
Qed.
Lemma of_Z_nan f z : is_nan (of_Z f z) = false.
Proof. apply is_nan_binary_normalize. Qed.
Lemma Rlt_bool_IZR a b : Rlt_bool (IZR a) (IZR b) = Z.ltb a b.
Proof. destruct (Z.ltb_spec a b); [apply Rlt_bool_true; now apply IZR_lt|apply Rlt_bool_false; now apply IZR_le]. Qed.
Lemma Rle_bool_IZR a b : Rle_bool (IZR a) (IZR b) = Z.leb a b.
Proof. destruct (Z.leb_spec a b); [apply Rle_bool_true; now apply IZR_le|apply Rle_bool_false; now apply IZR_lt]. Qed.
Lemma ltb_of_Z f a b : Z.abs a <= 2 ^ prec f -> Z.abs b <= 2 ^ prec f -> Bltb (of_Z f a) (of_Z f b) = Z.ltb a b.
Proof.
  intros A B. destruct (of_Z_exact f a A) as (Ra & Fa). destruct (of_Z_exact f b B) as (Rb & Fb).
  rewrite Bltb_correct by auto. rewrite Ra, Rb. apply Rlt_bool_IZR.
Qed.
Lemma trunc_of_Z f z : Z.abs z <= 2 ^ prec f -> Btrunc (of_Z f z) = z.
Proof.
  intros H. destruct (of_Z_exact f z H) as (E & _). apply eq_IZR. rewrite Btrunc_correct by typeclasses eauto. rewrite E.
  apply round_generic; [typeclasses eauto|]. apply generic_format_FIX. exists (Float radix2 z 0); [unfold F2R; cbn; lra|reflexivity].
Qed.
(** equal numbers *)
Lemma same_finite f (x y : fl f) : is_finite x = true -> is_finite y = true -> B2R x = B2R y -> same (VF f x) (VF f y).
Proof. intros A B E. apply same_num. rewrite Beqb_correct by auto. rewrite E. apply Req_bool_true. reflexivity. Qed.
Lemma format_fl f (x : fl f) : generic_format radix2 (fexpo f) (B2R x).
Proof. apply generic_format_B2R. Qed.
Lemma small_fl f (x : fl f) : (Rabs (B2R x) < bpow radix2 (emax f))%R.
Proof. apply abs_B2R_lt_emax. Qed.
Lemma one_spec f : exists m e H, of_Z f 1 = B754_finite false m e H /\ B2R (of_Z f 1) = 1%R.
Proof.
  destruct (of_Z_exact f 1) as (E & F); [destruct f; cbn; lia|]. destruct (of_Z f 1) as [s|s| |s m e H] eqn:K; try discriminate F.
  - cbn in E. lra.
  - exists m, e. destruct s; [|eauto]. exfalso. cbn in E. assert (L : (F2R (Float radix2 (Zneg m) e) < 0)%R) by now apply F2R_lt_0. 
    unfold F2R in L. cbn in L. unfold F2R in E. cbn in E. lra.
Qed.
Lemma zero_spec f : of_Z f 0 = B754_zero false.
Proof. destruct f; reflexivity. Qed.
Definition sf {f} (x y : fl f) : Prop := x = y \/ Beqb x y = true.
Lemma sf_same f (x y : fl f) : sf x y -> same (VF f x) (VF f y).
Proof. intros [->|H]; [apply same_refl|now apply same_num]. Qed.
Lemma sf_finite f (x y : fl f) : is_finite x = true -> is_finite y = true -> B2R x = B2R y -> sf x y.
Proof. intros A B E. right. rewrite Beqb_correct by auto. rewrite E. apply Req_bool_true. reflexivity. Qed.
Lemma Beqb_trans f (x y z : fl f) : Beqb x y = true -> Beqb y z = true -> Beqb x z = true.
Proof.
  intros A B. destruct (is_finite x) eqn:Fx, (is_finite y) eqn:Fy, (is_finite z) eqn:Fz.
  - rewrite Beqb_correct in A, B |- * by auto. apply Req_bool_true.
    destruct (Req_bool_spec (B2R x) (B2R y)); [|discriminate A]. destruct (Req_bool_spec (B2R y) (B2R z)); [congruence|discriminate B].
  - destruct y as [[]|[]| |[] ? ? ?], z as [[]|[]| |[] ? ? ?]; cbn in *; try discriminate; auto.
  - destruct x as [[]|[]| |[] ? ? ?], y as [[]|[]| |[] ? ? ?]; cbn in *; try discriminate; auto.
  - destruct x as [[]|[]| |[] ? ? ?], y as [[]|[]| |[] ? ? ?]; cbn in *; try discriminate; auto.
  - destruct x as [[]|[]| |[] ? ? ?], y as [[]|[]| |[] ? ? ?]; cbn in *; try discriminate; auto.
  - destruct x as [[]|[]| |[] ? ? ?], y as [[]|[]| |[] ? ? ?]; cbn in *; try discriminate; auto.
  - destruct y as [[]|[]| |[] ? ? ?], z as [[]|[]| |[] ? ? ?]; cbn in *; try discriminate; auto.
  - destruct x as [[]|[]| |[] ? ? ?], y as [[]|[]| |[] ? ? ?], z as [[]|[]| |[] ? ? ?]; cbn in *; try discriminate; auto.
Qed.
Lemma sf_trans f (x y z : fl f) : sf x y -> sf y z -> sf x z.
Proof. intros [->|A] [->|B]; [now left|now right|now right|right; eapply Beqb_trans; eauto]. Qed.
Lemma add_zero_r f (x : fl f) s : sf x (add x (B754_zero s)).
Proof. destruct x as [[]|[]| |[] ? ? ?], s; cbn; auto; try (now left); try (now right). Qed.
Lemma add_zero_l f (x : fl f) s : sf x (add (B754_zero s) x).
Proof. destruct x as [[]|[]| |[] ? ? ?], s; cbn; auto; try (now left); try (now right). Qed.
Lemma one_mul f (x : fl f) : sf x (mul (of_Z f 1) x).
Proof.
  destruct (one_spec f) as (m & e & H & E & R). destruct x as [s|s| |s m' e' H'].
  - rewrite E. cbn. destruct s; now left.
  - rewrite E. cbn. destruct s; now left.
  - rewrite E. cbn. now left.
  - set (x := B754_finite s m' e' H'). assert (C := Bmult_correct (prec f) (emax f) _ _ mode_NE (of_Z f 1) x).
    rewrite R, Rmult_1_l in C. rewrite round_generic in C; [|typeclasses eauto|apply format_fl].
    rewrite Rlt_bool_true in C by apply small_fl. destruct C as (C1 & C2 & _). apply sf_finite; auto.
    change (is_finite (Bmult mode_NE (of_Z f 1) x) = true). rewrite C2, E. reflexivity.
Qed.
Lemma mul_one f (x : fl f) : sf x (mul x (of_Z f 1)).
Proof.
  destruct (one_spec f) as (m & e & H & E & R). destruct x as [s|s| |s m' e' H'].
  - rewrite E. cbn. destruct s; now left.
  - rewrite E. cbn. destruct s; now left.
  - rewrite E. cbn. now left.
  - set (x := B754_finite s m' e' H'). assert (C := Bmult_correct (prec f) (emax f) _ _ mode_NE x (of_Z f 1)).
    rewrite R, Rmult_1_r in C. rewrite round_generic in C; [|typeclasses eauto|apply format_fl].
    rewrite Rlt_bool_true in C by apply small_fl. destruct C as (C1 & C2 & _). apply sf_finite; auto.
    change (is_finite (Bmult mode_NE x (of_Z f 1)) = true). rewrite C2, E. reflexivity.
Qed.
Lemma zero_mul f (x : fl f) : is_finite x = true -> exists s, mul (of_Z f 0) x = B754_zero s.
Proof. rewrite zero_spec. destruct x; try discriminate; cbn; eauto. Qed.
Lemma mul_zero f (x : fl f) : is_finite x = true -> exists s, mul x (of_Z f 0) = B754_zero s.
Proof. rewrite zero_spec. destruct x; try discriminate; cbn; eauto. Qed.
(** the trick of Select *)
Lemma select_true f (x y : fl f) : is_finite y = true -> sf x (add (mul (of_Z f 1) x) (mul y (of_Z f 0))).
Proof. intros H. destruct (mul_zero f y H) as (s & ->). eapply sf_trans; [apply one_mul|apply add_zero_r]. Qed.
Lemma select_false f (x y : fl f) : is_finite x = true -> sf y (add (mul (of_Z f 0) x) (mul y (of_Z f 1))).
Proof. intros H. destruct (zero_mul f x H) as (s & ->). eapply sf_trans; [apply mul_one|apply add_zero_l]. Qed.
