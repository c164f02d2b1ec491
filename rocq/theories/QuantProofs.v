From Coq Require Import ZArith Reals Lia Lra Psatz.
From Flocq Require Import Core Relative.
From Verif Require Import QuantSpec.
Local Open Scope R_scope.

Lemma nearest_near x m n : Rabs (x - IZR m) < /2 -> nearest_even x n -> n = m.
Proof.
  intros H [K _]. assert (D : Rabs (IZR n - IZR m) < 1).
  { replace (IZR n - IZR m) with ((x - IZR m) - (x - IZR n)) by ring. eapply Rle_lt_trans; [apply Rabs_triang|]. rewrite Rabs_Ropp. lra. }
  rewrite <- minus_IZR, <- abs_IZR in D. apply lt_IZR in D. lia.
Qed.
Lemma nearest_is x m : Rabs (x - IZR m) < /2 -> nearest_even x m.
Proof. intro H. split; [lra|]. intro E. lra. Qed.
Lemma saturate_id lo hi q : (lo <= q <= hi)%Z -> saturate lo hi q = q.
Proof. unfold saturate. lia. Qed.

Lemma quant_dequant lo hi s z q q' : 0 < s -> (lo <= q <= hi)%Z -> (quantizes lo hi s z (dequantize s z q) q' <-> q' = q).
Proof.
  intros Hs Hq. unfold quantizes, dequantize. replace (IZR (q - z) * s / s) with (IZR (q - z)) by (field; lra).
  assert (N : Rabs (IZR (q - z) - IZR (q - z)) < / 2) by (rewrite Rminus_diag_eq, Rabs_R0 by reflexivity; lra). split.
  - intros (n & Hn & ->). apply (nearest_near _ _ _ N) in Hn. subst n. rewrite Z.sub_add. now apply saturate_id.
  - intros ->. exists (q - z)%Z. split; [now apply nearest_is|]. rewrite Z.sub_add. symmetry. now apply saturate_id.
Qed.

Lemma bpow_m23 : bpow radix2 (-24 + 1) = / IZR (2 ^ 23).
Proof. reflexivity. Qed.
(** the double rounding error of one multiplication and one division *)
Lemma round_trip s d : is_f32 s -> 0 < s -> (Z.abs d < 2 ^ 21)%Z -> Rabs (f32 (f32 (IZR d * s) / s) - IZR d) < /2.
Proof.
  intros Fs Hs Hd. destruct (Z.eq_dec d 0) as [->|Nd].
  { unfold f32. rewrite Rmult_0_l, round_0 by apply valid_rnd_N. unfold Rdiv. rewrite Rmult_0_l, round_0 by apply valid_rnd_N. rewrite Rminus_0_r, Rabs_R0. lra. }
  apply FLT_format_generic in Fs; [|reflexivity]. destruct Fs as [[ms es] Es Hms Hes]. cbn [Fnum Fexp] in *.
  assert (E : IZR d * s = F2R (Float radix2 (d * ms * radix2 ^ (es - -149)) (-149))).
  { rewrite Es. unfold F2R. cbn [Fnum Fexp]. rewrite !mult_IZR. rewrite IZR_Zpower by lia.
    replace (bpow radix2 es) with (bpow radix2 (es - -149) * bpow radix2 (-149)) by (rewrite <- bpow_plus; f_equal; lia). ring. }
  destruct (relative_error_N_FLT_F2R_emin_ex radix2 (-149) 24 eq_refl (fun x => negb (Z.even x)) (d * ms * radix2 ^ (es - -149))) as (e1 & B1 & R1).
  rewrite <- E in R1.
  assert (R1' : f32 (IZR d * s) = IZR d * s * (1 + e1)) by exact R1. rewrite R1'.
  replace (IZR d * s * (1 + e1) / s) with (IZR d * (1 + e1)) by (field; lra).
  assert (B : / 2 * bpow radix2 (-24 + 1) = / IZR (2 ^ 24)). { rewrite bpow_m23. rewrite <- Rinv_mult, <- mult_IZR. reflexivity. }
  change (Rabs e1 <= / 2 * bpow radix2 (-24 + 1)) in B1. rewrite B in B1. set (u := / IZR (2 ^ 24)) in *.
  assert (U : 0 < u <= / 1024). { unfold u. split; [apply Rinv_0_lt_compat; apply IZR_lt; reflexivity|]. apply Rinv_le; [lra|]. apply IZR_le. cbn. lia. }
  assert (Ad : 1 <= Rabs (IZR d)). { rewrite <- abs_IZR. apply IZR_le. lia. }
  assert (L : bpow radix2 (-149 + 24 - 1) <= Rabs (IZR d * (1 + e1))).
  { apply Rle_trans with (/2). { replace (/2) with (bpow radix2 (-1)) by reflexivity. apply bpow_le. lia. }
    rewrite Rabs_mult. assert (/2 <= Rabs (1 + e1)). { apply Rabs_le_inv in B1. rewrite Rabs_pos_eq; lra. } nra. }
  destruct (relative_error_N_FLT_ex radix2 (-149) 24 eq_refl (fun x => negb (Z.even x)) (IZR d * (1 + e1)) L) as (e2 & B2 & R2).
  change (Rabs e2 <= / 2 * bpow radix2 (-24 + 1)) in B2. rewrite B in B2. fold u in B2. change (round radix2 (FLT_exp (-149) 24) (Znearest (fun x => negb (Z.even x))) (IZR d * (1 + e1))) with (f32 (IZR d * (1 + e1))) in R2. rewrite R2.
  replace (IZR d * (1 + e1) * (1 + e2) - IZR d) with (IZR d * (e1 + e2 + e1 * e2)) by ring.
  rewrite Rabs_mult. assert (Bd : Rabs (IZR d) <= IZR (2 ^ 21)). { rewrite <- abs_IZR. apply IZR_le. lia. }
  assert (Be : Rabs (e1 + e2 + e1 * e2) <= 3 * u).
  { eapply Rle_trans; [apply Rabs_triang|]. rewrite Rabs_mult. assert (Rabs (e1 + e2) <= 2 * u) by (eapply Rle_trans; [apply Rabs_triang|]; lra).
    assert (Rabs e1 * Rabs e2 <= u * 1). { apply Rmult_le_compat; try apply Rabs_pos; lra. } lra. }
  apply Rle_lt_trans with (IZR (2 ^ 21) * (3 * u)).
  - apply Rmult_le_compat; auto; apply Rabs_pos.
  - unfold u. replace (IZR (2 ^ 24)) with (8 * IZR (2 ^ 21)) by (rewrite <- mult_IZR; reflexivity). field_simplify; [lra|]. apply not_0_IZR. discriminate.
Qed.
Lemma quant_dequant32 lo hi s z q q' : is_f32 s -> 0 < s -> (lo <= q <= hi)%Z -> (lo <= z <= hi)%Z -> (hi - lo < 2 ^ 21)%Z ->
  (quantizes32 lo hi s z (dequantize32 s z q) q' <-> q' = q).
Proof.
  intros Fs Hs Hq Hz Hr. unfold quantizes32, dequantize32. assert (N := round_trip s (q - z) Fs Hs ltac:(lia)). split.
  - intros (n & Hn & ->). apply (nearest_near _ _ _ N) in Hn. subst n. rewrite Z.sub_add. now apply saturate_id.
  - intros ->. exists (q - z)%Z. split; [now apply nearest_is|]. rewrite Z.sub_add. symmetry. now apply saturate_id.
Qed.
