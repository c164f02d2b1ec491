From Coq Require Import ZArith Reals String List Bool Lia Lra Arith.
From Flocq Require Import Core BinarySingleNaN.
From Verif Require Import ElemSpec ElemModel ElemLift ElemFloat ElemProofs ElemProofs2 ElemProofs3.
Import ListNotations.
Local Open Scope string_scope.
Local Open Scope list_scope.
Local Open Scope nat_scope.

(** ** FloorDiv, FloorMod *)
Lemma quot_div x y : (y <> 0 -> (0 <= x /\ 0 < y) \/ (x <= 0 /\ y < 0) \/ (y | x) -> Z.quot x y = x / y)%Z.
Proof.
  intros N [(A & B)|[(A & B)|(k & ->)]].
  - apply Z.quot_div_nonneg; lia.
  - rewrite <- (Z.opp_involutive x), <- (Z.opp_involutive y), Z.quot_opp_opp, Z.div_opp_opp by lia. apply Z.quot_div_nonneg; lia.
  - rewrite Z.quot_mul, Z.div_mul; auto.
Qed.
Lemma quot_div_differ x y : (x * y < 0 -> ~ (y | x) -> Z.quot x y <> x / y)%Z.
Proof.
  intros S D E. apply D. exists (x / y)%Z. assert (y <> 0)%Z by lia.
  assert (A := Z.quot_rem' x y). rewrite E in A. assert (M := Z_div_mod_eq_full x y).
  assert (R := Z.rem_bound_abs x y ltac:(lia)). assert (Z.rem x y = x mod y)%Z by lia.
  assert (Rs := Z.rem_sign_nz x y ltac:(lia)). assert (Ms := Z.mod_sign_nz x y ltac:(lia)).
  destruct (Z.eq_dec (Z.rem x y) 0) as [Z0|NZ]; [lia|]. exfalso. specialize (Rs NZ). rewrite H0 in NZ, Rs. specialize (Ms NZ). lia.
Qed.
Theorem floor_div_ok opset d : 7 <= opset -> arith_types opset d = true ->
  exists p, built (floor_div d (In_ 0) (In_ 1)) = Some p /\
    computes opset p 2 (fun vs => all_of d vs /\ quotients_agree vs) (tf_op "FloorDiv").
Proof.
  intros O K. destruct d as [|t0|f0]; try discriminate K.
  - assert (P : exists p, built (floor_div (INT t0) (In_ 0) (In_ 1)) = Some p /\ p = ([Node "Div" NoAttr [In_ 0; In_ 1]], Tmp 0)) by (destruct t0; eexists; split; reflexivity).
    destruct P as (p & P & ->). eexists; split; [exact P|]. apply computes_lift; [reflexivity|].
    intros vs v L (Q & Ag) H. cases2. cbn in Ag, K. cbn in H. rewrite ity_eqb_refl in H. unfold seval. repeat (progress (rewrite ?K; cbn; ops)).
    unfold int_div. destruct (Z.eqb_spec y 0) as [->|Ny]; [discriminate H|]. cbn [orb] in H |- *. rewrite quot_div in * by tauto.
    destruct (Z.ltb (hi t0) (x / y)) eqn:Hh; [discriminate H|]. injection H as <-. fin.
  - destruct f0; (eexists; split; [reflexivity|]; apply computes_lift; [reflexivity|]; intros vs v L (Q & _) H; cases2; ev; fin).
Qed.
Theorem floor_div_wrong t x y : in_range t x -> in_range t y -> (x * y < 0)%Z -> ~ (y | x)%Z ->
  int_div t x y <> tf_op "FloorDiv" [VI t x; VI t y].
Proof.
  intros Rx Ry S D E. cbn in E. rewrite ity_eqb_refl in E. unfold int_div in E. assert (N : y <> 0%Z) by lia. apply Z.eqb_neq in N. rewrite N in E. cbn [orb] in E.
  assert (Q := quot_div_differ x y S D).
  assert (B : (x / y <= hi t)%Z). { apply Z.le_trans with 0%Z; [|unfold in_range in Rx; destruct t; discriminate].
    destruct (Z.lt_trichotomy y 0) as [Hy|[->|Hy]]; [|lia|].
    - apply Z.lt_le_incl. rewrite <- (Z.opp_involutive x), <- (Z.opp_involutive y), Z.div_opp_opp by lia. apply Z.div_lt_upper_bound; nia.
    - apply Z.lt_le_incl. apply Z.div_lt_upper_bound; nia. }
  apply Z.ltb_ge in B. rewrite B in E. destruct (Z.ltb (hi t) (x ÷ y)); [discriminate E|]. injection E as E. contradiction.
Qed.
Lemma wrap_cong t a b k : (a = b + k * 2 ^ bits t)%Z -> wrap t a = wrap t b.
Proof.
  intros ->. unfold wrap. f_equal. replace (b + k * 2 ^ bits t - lo t)%Z with (b - lo t + k * 2 ^ bits t)%Z by lia.
  apply Z.mod_add. destruct t; discriminate.
Qed.
Theorem floor_mod_ok opset t0 : 7 <= opset -> arith_types opset (INT t0) = true ->
  exists p, built (floor_mod_handler (INT t0) (In_ 0) (In_ 1)) = Some p /\
    computes opset p 2 (fun vs => all_of (INT t0) vs /\ quotients_agree vs) (tf_op "FloorMod").
Proof.
  intros O K.
  assert (P : exists p, built (floor_mod_handler (INT t0) (In_ 0) (In_ 1)) = Some p /\
    p = ([Node "Div" NoAttr [In_ 0; In_ 1]; Node "Mul" NoAttr [Tmp 0; In_ 1]; Node "Sub" NoAttr [In_ 0; Tmp 1]], Tmp 2)) by (destruct t0; eexists; split; reflexivity).
  destruct P as (p & P & ->). eexists; split; [exact P|]. apply computes_lift; [reflexivity|].
  intros vs v L (Q & Ag) H. cases2. cbn in Ag, K. destruct Ag as (Ag & Hh). cbn in H. rewrite ity_eqb_refl in H. unfold seval. repeat (progress (rewrite ?K; cbn; ops)).
  unfold int_div. destruct (Z.eqb_spec y 0) as [->|Ny]; [discriminate H|]. cbn [orb]. apply Z.ltb_ge in Hh. rewrite Hh. cbn [orb]. repeat (progress (rewrite ?K; cbn; ops)).
  injection H as <-. eexists; split; [reflexivity|]. replace (wrap t0 (x - wrap t0 (Z.quot x y * y))) with (x mod y)%Z; [apply same_refl|].
  rewrite quot_div by auto. assert (M := Z_div_mod_eq_full x y).
  destruct (wrap_mod t0 (x / y * y)) as (k & E).
  assert (E2 : wrap t0 (x - wrap t0 (x / y * y)) = wrap t0 (x mod y)).
  { apply (wrap_cong _ _ _ (- k)). rewrite E. lia. }
  rewrite E2. symmetry. apply wrap_id. unfold in_range in *. assert (B := Z.mod_bound_or x y Ny). assert (Hl : (lo t0 <= 0 <= hi t0)%Z) by (destruct t0; split; discriminate). lia.
Qed.
(** ** Round *)
Theorem round_11 opset f : 11 <= opset ->
  exists p, built (round opset (FLT f) (In_ 0)) = Some p /\ computes opset p 1 (all_of (FLT f)) (tf_op "Round").
Proof.
  intros O. unfold round. rewrite (ltb_f _ _ O). eexists; split; [reflexivity|]. apply computes_lift; [reflexivity|]. intros vs v L Q H.
  destruct (typed1 _ vs L Q) as (a & -> & A). apply flt_case in A. destruct A as (x & ->). ev. fin.
Qed.
Lemma half_spec f : B2R (round_to f 1 (-1)) = (/ 2)%R /\ is_finite (round_to f 1 (-1)) = true.
Proof.
  unfold round_to. assert (C := binary_normalize_correct (prec f) (emax f) _ _ mode_NE 1 (-1) false). cbv zeta in C.
  assert (E : F2R (Float radix2 1 (-1)) = (/ 2)%R) by (unfold F2R; cbn [Fnum Fexp]; change (bpow radix2 (-1)) with (/ 2)%R; lra). rewrite E in C.
  rewrite round_generic in C; [|typeclasses eauto|].
  - rewrite Rlt_bool_true in C; [tauto|]. rewrite Rabs_pos_eq by lra. apply Rlt_trans with (bpow radix2 0); [change (bpow radix2 0) with 1%R; lra|]. apply bpow_lt. destruct f; reflexivity.
  - change (SpecFloat.fexp (prec f) (emax f)) with (FLT_exp (3 - emax f - prec f) (prec f)). apply generic_format_FLT. exists (Float radix2 1 (-1)); auto.
    + cbn. destruct f; reflexivity.
    + cbn. destruct f; discriminate.
Qed.
Lemma round_FIX rnd {V : Valid_rnd rnd} r : Generic_fmt.round radix2 (FIX_exp 0) rnd r = IZR (rnd r).
Proof. unfold Generic_fmt.round, F2R, scaled_mantissa, cexp, FIX_exp. cbn. rewrite !Rmult_1_r. reflexivity. Qed.
Lemma round_half f (x : fl f) : is_finite x = true -> rounds_up_exactly [VF f x] ->
  sf (to_int mode_NE x) (to_int mode_DN (add x (round_to f 1 (-1)))).
Proof.
  intros Fx ((y & Fy & Ry) & N). destruct (half_spec f) as (Rh & Fh).
  assert (C := Bplus_correct (prec f) (emax f) _ _ mode_NE x (round_to f 1 (-1)) Fx Fh). rewrite Rh, <- Ry in C.
  rewrite round_generic in C; [|typeclasses eauto|apply format_fl]. rewrite Rlt_bool_true in C by apply small_fl. destruct C as (C1 & C2 & _).
  unfold to_int. destruct (Bnearbyint_correct (prec f) (emax f) _ mode_NE x) as (E1 & E2 & _).
  destruct (Bnearbyint_correct (prec f) (emax f) _ mode_DN (add x (round_to f 1 (-1)))) as (D1 & D2 & _).
  apply sf_finite; [now rewrite E2|rewrite D2; exact C2|]. rewrite E1, D1. unfold add. rewrite C1, Ry.
  rewrite !round_FIX by (cbn; typeclasses eauto). f_equal. cbn. apply Znearest_imp.
  assert (L := Zfloor_lb (B2R x + / 2)). assert (U := Zfloor_ub (B2R x + / 2)). specialize (N (Zfloor (B2R x + / 2) - 1)%Z).
  rewrite minus_IZR in N. apply Rabs_def1; [lra|]. destruct (Req_dec (B2R x + / 2) (IZR (Zfloor (B2R x + / 2)))) as [E|E]; [|lra]. lra.
Qed.
Theorem round_7 opset f : 7 <= opset -> opset < 11 ->
  exists p, built (round opset (FLT f) (In_ 0)) = Some p /\
    computes opset p 1 (fun vs => all_of (FLT f) vs /\ rounds_up_exactly vs) (tf_op "Round").
Proof.
  intros O O'. unfold round. rewrite (ltb_t _ _ O'). eexists; split; [reflexivity|]. apply computes_lift; [reflexivity|]. intros vs v L (Q & R) H.
  destruct (typed1 _ vs L Q) as (a & -> & A). apply flt_case in A. destruct A as (x & ->). ev. eexists; split; [reflexivity|]. apply sf_same.
  destruct (is_finite x) eqn:F; [now apply round_half|]. destruct x as [[]|[]| |]; try discriminate F; destruct f; now left.
Qed.
(** ** Sign *)
Lemma of_Z_sign z : in_range I64 z \/ in_range U64 z -> Bltb fzero (of_Z F32 z) = Z.ltb 0 z /\ Bltb (of_Z F32 z) fzero = Z.ltb z 0.
Proof.
  intros R. assert (B : (Z.abs z <= 2 ^ 64)%Z). { change (2 ^ 64)%Z with 18446744073709551616%Z. destruct R as [R|R]; apply range_nums in R; lia. }
  unfold of_Z, round_to. assert (C := binary_normalize_correct (prec F32) (emax F32) _ _ mode_NE z 0 false). cbv zeta in C.
  replace (F2R (Float radix2 z 0)) with (IZR z) in C by (unfold F2R; cbn [Fnum Fexp]; change (bpow radix2 0) with 1%R; lra).
  set (r := Generic_fmt.round radix2 _ _ (IZR z)) in C.
  assert (P : generic_format radix2 (fexpo F32) (IZR (2 ^ 64))).
  { change (fexpo F32) with (FLT_exp (-149) 24). apply generic_format_FLT. exists (Float radix2 1 64); [unfold F2R; cbn [Fnum Fexp]; rewrite <- IZR_Zpower by easy; now rewrite Rmult_1_l|reflexivity|discriminate]. }
  assert (P1 : generic_format radix2 (fexpo F32) 1) by (apply (format_Z F32 1); discriminate).
  assert (P0 : generic_format radix2 (fexpo F32) (-1)) by (apply (format_Z F32 (-1)); discriminate).
  assert (Bz : (- IZR (2 ^ 64) <= IZR z <= IZR (2 ^ 64))%R). { rewrite <- opp_IZR. split; apply IZR_le; lia. }
  assert (Br : (- IZR (2 ^ 64) <= r <= IZR (2 ^ 64))%R).
  { split; [apply round_ge_generic; [typeclasses eauto|typeclasses eauto|now apply generic_format_opp|lra]|
            apply round_le_generic; [typeclasses eauto|typeclasses eauto|exact P|lra]]. }
  rewrite Rlt_bool_true in C. 2:{ apply Rle_lt_trans with (IZR (2 ^ 64)); [apply Rabs_le; lra|]. rewrite <- IZR_Zpower by easy. now apply IZR_lt. }
  destruct C as (C1 & C2 & _). rewrite !Bltb_correct by (reflexivity || exact C2). rewrite C1. change (B2R fzero) with 0%R.
  destruct (Z.lt_trichotomy z 0) as [Hz|[->|Hz]].
  - assert (r <= -1)%R. { apply round_le_generic; [typeclasses eauto|typeclasses eauto|exact P0|]. apply IZR_le. lia. }
    rewrite Rlt_bool_false, Rlt_bool_true by lra. split; symmetry; [apply Z.ltb_ge; lia|apply Z.ltb_lt; lia].
  - assert (r = 0)%R by (apply round_0; typeclasses eauto). rewrite !Rlt_bool_false by lra. auto.
  - assert (1 <= r)%R. { apply round_ge_generic; [typeclasses eauto|typeclasses eauto|exact P1|]. apply IZR_le. lia. }
    rewrite Rlt_bool_true, Rlt_bool_false by lra. split; symmetry; [apply Z.ltb_lt; lia|apply Z.ltb_ge; lia].
Qed.
Theorem sign_9 opset d : 9 <= opset -> d <> BOOL ->
  exists p, built (sign opset d (In_ 0)) = Some p /\ computes opset p 1 (all_of d) (tf_op "Sign").
Proof.
  intros O N. unfold sign. rewrite (ltb_f _ _ O). assert (E : dtype_eqb d BOOL = false) by (destruct d as [|[]|[]]; try reflexivity; congruence).
  rewrite E. eexists; split; [reflexivity|]. apply computes_lift; [reflexivity|]. intros vs v L Q H.
  destruct (typed1 _ vs L Q) as (a & -> & A). cbn in H. unfold seval. cbn. ops. rewrite H. fin.
Qed.
Definition sign_types (d : dtype) : bool := match d with BOOL => false | FLT F32 => true | FLT _ => false | INT t => bit32 t end.
Lemma range_64 t z : in_range t z -> in_range I64 z \/ in_range U64 z.
Proof.
  intros R. apply range_nums in R. destruct t; try (left; change (-9223372036854775808 <= z <= 9223372036854775807)%Z; lia);
  right; change (0 <= z <= 18446744073709551615)%Z; lia.
Qed.
Theorem sign_7 opset d : 7 <= opset -> opset < 9 -> sign_types d = true ->
  exists p, built (sign opset d (In_ 0)) = Some p /\ computes opset p 1 (all_of d) (tf_op "Sign").
Proof.
  intros O O' K. unfold sign. rewrite (ltb_t _ _ O'). destruct d as [|t|[]]; try discriminate K.
  - destruct t; try discriminate K; (eexists; split; [reflexivity|]; apply computes_lift; [reflexivity|]; intros vs v L Q H;
      destruct (typed1 _ vs L Q) as (a & -> & A); apply int_case in A; destruct A as (x & -> & R); ev;
      destruct (of_Z_sign x (range_64 _ _ R)) as (E1 & E2); rewrite E1, E2;
      destruct (Z.lt_trichotomy x 0) as [Hx|[->|Hx]]; [|fin|];
      [rewrite (proj2 (Z.ltb_ge 0 x)), (proj2 (Z.ltb_lt x 0)), Z.sgn_neg by lia|rewrite (proj2 (Z.ltb_lt 0 x)), (proj2 (Z.ltb_ge x 0)), Z.sgn_pos by lia];
      first [exfalso; apply range_nums in R; lia|fin|idtac]).
  - eexists; split; [reflexivity|]; apply computes_lift; [reflexivity|]; intros vs v L Q H;
      destruct (typed1 _ vs L Q) as (a & -> & A); apply flt_case in A; destruct A as (x & ->). cbn in H. destruct (is_nan x) eqn:N; [discriminate H|]. injection H as <-. unfold seval. repeat (progress (cbn; ops)).
    destruct (Bltb fzero x) eqn:G, (Bltb x fzero) eqn:Le; (eexists; split; [reflexivity|]).
    + exfalso. destruct x as [[]|[]| |[] ? ? ?]; discriminate.
    + apply same_num. vm_compute. reflexivity.
    + apply same_num. vm_compute. reflexivity.
    + apply same_num. vm_compute. reflexivity.
Qed.

(** ** shifts *)
Lemma wrap_small u y : (0 <= y < 64)%Z -> wrap u y = y.
Proof.
  intros Y. apply wrap_id. unfold in_range. assert (lo u <= 0 /\ 127 <= hi u)%Z by (destruct u; split; discriminate). lia.
Qed.
Lemma bits_64 t : (8 <= bits t <= 64)%Z.
Proof. destruct t; split; discriminate. Qed.
Lemma shr_range t x y : (0 <= y)%Z -> in_range t x -> in_range t (x / 2 ^ y).
Proof.
  intros Y. unfold in_range. assert (lo t <= 0 <= hi t)%Z by (destruct t; split; discriminate). intros R.
  assert (P : (1 <= 2 ^ y)%Z) by (apply (Z.pow_le_mono_r 2 0 y); lia).
  assert (M := Z_div_mod_eq_full x (2 ^ y)). assert (B := Z.mod_pos_bound x (2 ^ y) ltac:(lia)). nia.
Qed.
Lemma shr_wide t u x y : (bits t + y <= bits u)%Z -> (0 <= y)%Z -> in_range t x -> wrap t (wrap u x / 2 ^ y) = (x / 2 ^ y)%Z.
Proof.
  intros B Y R. destruct (wrap_mod u x) as (k & ->). rewrite <- (wrap_id t (x / 2 ^ y)) by now apply shr_range.
  apply (wrap_cong _ _ _ (k * 2 ^ (bits u - y - bits t))).
  assert (E : (2 ^ bits u = 2 ^ (bits u - y - bits t) * 2 ^ bits t * 2 ^ y)%Z).
  { assert (H := bits_64 t). rewrite <- !Z.pow_add_r by lia. f_equal. lia. }
  rewrite E. replace (x + k * (2 ^ (bits u - y - bits t) * 2 ^ bits t * 2 ^ y))%Z with (x + (k * 2 ^ (bits u - y - bits t) * 2 ^ bits t) * 2 ^ y)%Z by ring.
  rewrite Z.div_add; [reflexivity|]. assert (P : (0 < 2 ^ y)%Z) by (apply Z.pow_pos_nonneg; lia). lia.
Qed.
Lemma shl_wide t u x y : (bits t <= bits u)%Z -> (0 <= y)%Z -> wrap t (wrap u (wrap u x * 2 ^ y)) = wrap t (x * 2 ^ y).
Proof.
  intros B Y. destruct (wrap_mod u x) as (k & ->). destruct (wrap_mod u ((x + k * 2 ^ bits u) * 2 ^ y)) as (k' & ->).
  apply (wrap_cong _ _ _ ((k * 2 ^ y + k') * 2 ^ (bits u - bits t))).
  assert (E : (2 ^ bits u = 2 ^ (bits u - bits t) * 2 ^ bits t)%Z).
  { assert (H := bits_64 t). rewrite <- !Z.pow_add_r by lia. f_equal. lia. }
  rewrite E. ring.
Qed.
(** the integer types that can be shifted *)
Definition shift_types (left : bool) (d : dtype) : bool :=
  match d with
  | INT I16 | INT I32 | INT U8 | INT U16 | INT U32 | INT U64 => true
  | INT I8 => left
  | _ => false
  end.
Theorem bit_shift_ok opset (left : bool) d : 11 <= opset -> (shift_types left d = true \/ d = INT I8) ->
  exists p, built (bit_shift left d (In_ 0) (In_ 1)) = Some p /\
    computes opset p 2 (fun vs => all_of d vs /\ (shift_types left d = true \/ first_not_negative vs)) (tf_op (if left then "LeftShift" else "RightShift")).
Proof.
  intros O K.
  assert (G : forall t vs v, List.length vs = 2 -> all_of (INT t) vs -> tf_op (if left then "LeftShift" else "RightShift") vs = Some v ->
    exists x y, vs = [VI t x; VI t y] /\ in_range t x /\ in_range t y /\ (0 <= y < bits t)%Z /\ v = VI t (if left then wrap t (x * 2 ^ y) else x / 2 ^ y)).
  { intros t0 vs v L Q H. cases2. exists x, y. split; auto. split; auto. split; auto.
    destruct left; cbn in H; rewrite ity_eqb_refl in H; destruct (Z.ltb_spec y 0); cbn [orb] in H; try discriminate H;
      destruct (Z.leb_spec (bits t0) y); try discriminate H; injection H as <-; (split; [lia|reflexivity]). }
  assert (Sh : forall u x y, signed u = false -> (0 <= y < bits u)%Z -> shift (String.eqb (if left then "LEFT" else "RIGHT") "LEFT") u x y =
    Some (VI u (if left then wrap u (x * 2 ^ y) else x / 2 ^ y))).
  { intros u x y Su Y. unfold shift. rewrite Su, (proj2 (Z.ltb_ge y 0)), (proj2 (Z.leb_gt (bits u) y)) by lia. destruct left; reflexivity. }
  destruct d as [|t|f]; [destruct K as [K|K]; discriminate K| |destruct K as [K|K]; discriminate K].
  destruct t; try (destruct K as [K|K]; discriminate K);
    (eexists; split; [reflexivity|]; apply computes_lift; [reflexivity|]; intros vs v L (Q & K') H; destruct (G _ vs v L Q H) as (x & y & -> & Rx & Ry & Y & ->);
     unfold bits in Y; clear G; unfold seval; repeat (progress (cbn; ops)); rewrite ?(wrap_small _ y) by lia;
     rewrite Sh by first [reflexivity|unfold bits; lia]; repeat (progress (cbn; ops)); try fin).
  - destruct left; [rewrite shl_wide by (discriminate || lia); fin|]. destruct K' as [K'|K']; [discriminate K'|]. cbn in K'.
    assert (W : wrap U8 x = x). { apply wrap_id. apply range_nums in Rx. change (0 <= x <= 255)%Z. lia. }
    rewrite W, wrap_id by (apply shr_range; [lia|assumption]). fin.
  - destruct left; [rewrite shl_wide by (discriminate || lia)|rewrite shr_wide by first [assumption|unfold bits; lia]]; fin.
  - destruct left; [rewrite shl_wide by (discriminate || lia)|rewrite shr_wide by first [assumption|unfold bits; lia]]; fin.
Qed.
