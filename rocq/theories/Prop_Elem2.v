(** C57: handlers of elementwise arithmetic compute what the TensorFlow operators compute. *)
From Coq Require Import ZArith Reals Lra String List Bool Lia Arith.
From Flocq Require Import BinarySingleNaN.
From Verif Require Import ElemSpec ElemModel ElemLift ElemFloat ElemProofs ElemProofs2 ElemProofs3 ElemProofs4 ElemRefute.
Import ListNotations.
Local Open Scope string_scope.
Local Open Scope list_scope.
Local Open Scope nat_scope.

Theorem C57_min_max_partial opset (mx : bool) d : 8 <= opset -> match d with BOOL => False | FLT _ => True | INT t => match t with I32 | I64 | U32 | U64 => True | _ => opset < 12 end end ->
  exists p, built (min_max_handler opset (if mx then "Max" else "Min") d (In_ 0) (In_ 1)) = Some p /\
    computes opset p 2 (fun vs => all_of d vs /\ (12 <= opset \/ small_ints vs)) (tf_op (if mx then "Maximum" else "Minimum")).
Proof.
  intros O K. destruct (le_lt_dec 12 opset) as [O'|O'].
  - destruct (min_max_12 opset mx d O') as (p & E & C).
    + destruct d as [|[]|]; try reflexivity; try tauto; lia.
    + exists p. split; auto. intros ins tf L F Q. apply (C ins tf L F). intros sh ix vs A B D. apply (Q sh ix vs A B D).
  - destruct (min_max_8 opset mx d O O') as (p & E & C).
    + intros ->. exact K.
    + exists p. split; auto. intros ins tf L F Q. apply (C ins tf L F). intros sh ix vs A B D. destruct (Q sh ix vs A B D) as (Q1 & [Q2|Q2]); [lia|auto].
Qed.
Theorem C57_clip_partial opset d : 8 <= opset -> opset < 12 -> d <> BOOL ->
  exists p, built (clip_handler opset d (In_ 0) (In_ 1) (In_ 2)) = Some p /\
    computes opset p 3 (fun vs => all_of d vs /\ small_ints vs) (tf_op "ClipByValue").
Proof. apply clip_8. Qed.
(** arithmetic on 8 and 16 bit integers only from opset 14 on *)
Definition arithmetic (opset : nat) (d : dtype) : Prop :=
  match d with BOOL => False | FLT _ => True | INT (I32 | I64 | U32 | U64) => True | INT _ => 14 <= opset end.
Lemma arithmetic_types opset d : arithmetic opset d -> arith_types opset d = true.
Proof. destruct d as [|[]|]; cbn; try tauto; intros; now apply Nat.leb_le. Qed.
Theorem C57_square opset d : 7 <= opset -> arithmetic opset d ->
  exists p, built (square (In_ 0)) = Some p /\ computes opset p 1 (all_of d) (tf_op "Square").
Proof. intros O K. apply square_ok; auto using arithmetic_types. Qed.
Theorem C57_squared_difference opset d : 7 <= opset -> arithmetic opset d ->
  exists p, built (squared_difference (In_ 0) (In_ 1)) = Some p /\ computes opset p 2 (all_of d) (tf_op "SquaredDifference").
Proof. intros O K. apply squared_difference_ok; auto using arithmetic_types. Qed.
Theorem C57_div_no_nan opset f : 11 <= opset ->
  exists p, built (div_no_nan (FLT f) (In_ 0) (In_ 1)) = Some p /\ computes opset p 2 (all_of (FLT f)) (tf_op "DivNoNan").
Proof. apply div_no_nan_11. Qed.
Theorem C57_is_finite opset f : 10 <= opset -> f <> F16 \/ 20 <= opset ->
  exists p, built (is_finite_handler (In_ 0)) = Some p /\ computes opset p 1 (all_of (FLT f)) (tf_op "IsFinite").
Proof. apply is_finite_10. Qed.
Theorem C57_floor_div_partial opset d : 7 <= opset -> arithmetic opset d ->
  exists p, built (floor_div d (In_ 0) (In_ 1)) = Some p /\
    computes opset p 2 (fun vs => all_of d vs /\ quotients_agree vs) (tf_op "FloorDiv").
Proof. intros O K. apply floor_div_ok; auto using arithmetic_types. Qed.
Theorem C57_floor_mod_partial opset t : 7 <= opset -> arithmetic opset (INT t) ->
  exists p, built (floor_mod_handler (INT t) (In_ 0) (In_ 1)) = Some p /\
    computes opset p 2 (fun vs => all_of (INT t) vs /\ quotients_agree vs) (tf_op "FloorMod").
Proof. intros O K. apply floor_mod_ok; auto using arithmetic_types. Qed.
Theorem C57_round opset f : 11 <= opset ->
  exists p, built (round opset (FLT f) (In_ 0)) = Some p /\ computes opset p 1 (all_of (FLT f)) (tf_op "Round").
Proof. apply round_11. Qed.
Theorem C57_round_7_partial opset f : 7 <= opset -> opset < 11 ->
  exists p, built (round opset (FLT f) (In_ 0)) = Some p /\
    computes opset p 1 (fun vs => all_of (FLT f) vs /\ rounds_up_exactly vs) (tf_op "Round").
Proof. apply round_7. Qed.
Theorem C57_sign opset d : match d with BOOL => False | FLT F32 => 7 <= opset | INT (I32 | I64 | U32 | U64) => 7 <= opset | _ => 9 <= opset end ->
  exists p, built (sign opset d (In_ 0)) = Some p /\ computes opset p 1 (all_of d) (tf_op "Sign").
Proof.
  intros K. assert (N : d <> BOOL) by (intros ->; exact K).
  destruct (le_lt_dec 9 opset); [now apply sign_9|]. apply sign_7; auto; destruct d as [|[]|[]]; try reflexivity; try tauto; lia.
Qed.
Theorem C57_bit_shift_partial opset (left : bool) d : 11 <= opset -> match d with INT I64 => False | INT _ => True | _ => False end ->
  exists p, built (bit_shift left d (In_ 0) (In_ 1)) = Some p /\
    computes opset p 2 (fun vs => all_of d vs /\ (d <> INT I8 \/ left = true \/ first_not_negative vs)) (tf_op (if left then "LeftShift" else "RightShift")).
Proof.
  intros O K. destruct (bit_shift_ok opset left d O) as (p & E & C).
  - destruct d as [|[]|]; try tauto; auto.
  - exists p. split; auto. intros ins tf L F Q. apply (C ins tf L F). intros sh ix vs A B D. destruct (Q sh ix vs A B D) as (Q1 & Q2). split; auto.
    destruct d as [|[]|]; try tauto; try (left; reflexivity).
Qed.

(** ** where they do not *)
(** integers go through 32 bit floats: max(2^24 + 1, 0) is not 2^24 + 1 *)
Theorem C57_max_refuted opset : 8 <= opset -> opset < 12 ->
  exists p, built (min_max_handler opset "Max" (INT I32) (In_ 0) (In_ 1)) = Some p /\ ~ computes opset p 2 (all_of (INT I32)) (tf_op "Maximum").
Proof. intros. refute opset [VI I32 (2 ^ 24 + 1); VI I32 0]. Qed.
(** 8 bit integers are left alone from opset 12 on, but Max and Min do not take them *)
Theorem C57_max_int8_refuted opset : 12 <= opset ->
  exists p, built (min_max_handler opset "Max" (INT I8) (In_ 0) (In_ 1)) = Some p /\ ~ computes opset p 2 (all_of (INT I8)) (tf_op "Maximum").
Proof. intros. refute opset [VI I8 1; VI I8 0]. Qed.
Theorem C57_clip_refuted opset : 8 <= opset -> opset < 12 ->
  exists p, built (clip_handler opset (INT I32) (In_ 0) (In_ 1) (In_ 2)) = Some p /\ ~ computes opset p 3 (all_of (INT I32)) (tf_op "ClipByValue").
Proof. intros. refute opset [VI I32 (2 ^ 24 + 1); VI I32 0; VI I32 (2 ^ 30)]. Qed.
(** integers are divided by truncation: -7 // 2 becomes -3 *)
Theorem C57_floor_div_refuted opset : 7 <= opset ->
  exists p, built (floor_div (INT I32) (In_ 0) (In_ 1)) = Some p /\ ~ computes opset p 2 (all_of (INT I32)) (tf_op "FloorDiv").
Proof. intros. refute opset [VI I32 (-7); VI I32 2]. Qed.
Theorem C57_floor_mod_refuted opset : 7 <= opset ->
  exists p, built (floor_mod_handler (INT I32) (In_ 0) (In_ 1)) = Some p /\ ~ computes opset p 2 (all_of (INT I32)) (tf_op "FloorMod").
Proof. intros. refute opset [VI I32 (-7); VI I32 2]. Qed.
(** whenever the quotient is negative and not whole *)
Theorem C57_floor_div_negative_refuted opset t x y : 14 <= opset -> in_range t x -> in_range t y -> (x * y < 0)%Z -> ~ (y | x)%Z ->
  exists p, built (floor_div (INT t) (In_ 0) (In_ 1)) = Some p /\ ~ computes opset p 2 (fun vs => vs = [VI t x; VI t y]) (tf_op "FloorDiv").
Proof.
  intros O X Y N D. assert (W := floor_div_wrong t x y X Y N D).
  assert (TF : tf_op "FloorDiv" [VI t x; VI t y] = Some (VI t (x / y))).
  { cbn. rewrite ity_eqb_refl. destruct (Z.eqb y 0) eqn:Ey; [apply Z.eqb_eq in Ey; subst; lia|]. cbn [orb].
    destruct (Z.ltb (hi t) (x / y)) eqn:H; auto. apply Z.ltb_lt in H. apply Z.eqb_neq in Ey.
    assert (M := Z_div_mod_eq_full x y). assert (B : (x / y <= 0)%Z).
    { destruct (Z_lt_le_dec y 0); [assert (B := Z.mod_neg_bound x y ltac:(lia))|assert (B := Z.mod_pos_bound x y ltac:(lia))]; nia. }
    assert (0 <= hi t)%Z by (destruct t; vm_compute; discriminate). lia. }
  eexists; split; [reflexivity|]. eapply not_computes with (vs := [VI t x; VI t y]); [unfold oeval; cbn [fst snd oevals looks look nth_error map all_vals option_map app onnx_op]; unfold arith, both; rewrite ity_eqb_refl, (leb_t _ _ O), orb_true_r; reflexivity|reflexivity|reflexivity|exact TF|].
  rewrite TF in W. destruct (int_div t x y) as [w|] eqn:E; auto. intros H. apply W. inversion H; subst; auto.
Qed.
Definition tenth32 : fl F32 := div (of_Z F32 1) (of_Z F32 10).
(** the remainder of floats is computed from the rounded quotient *)
Theorem C57_floor_mod_float_refuted opset : 7 <= opset ->
  exists p, built (floor_mod_handler (FLT F32) (In_ 0) (In_ 1)) = Some p /\ ~ computes opset p 2 (all_of (FLT F32)) (tf_op "FloorMod").
Proof. intros. refute opset [VF F32 (of_Z F32 1); VF F32 tenth32]. Qed.
(** 1/2 is rounded to 1, TensorFlow rounds it to 0 *)
Theorem C57_round_half_refuted opset : 7 <= opset -> opset < 11 ->
  exists p, built (round opset (FLT F32) (In_ 0)) = Some p /\ ~ computes opset p 1 (all_of (FLT F32)) (tf_op "Round").
Proof. intros. refute opset [VF F32 (round_to F32 1 (-1))]. Qed.
(** and an integer to another one: 2^23 + 1 *)
Theorem C57_round_integer_refuted opset : 7 <= opset -> opset < 11 ->
  exists p, built (round opset (FLT F32) (In_ 0)) = Some p /\ ~ computes opset p 1 (fun vs => vs = [VF F32 (of_Z F32 (2 ^ 23 + 1))]) (tf_op "Round").
Proof. intros. refute opset [VF F32 (of_Z F32 (2 ^ 23 + 1))]. Qed.
(** a 64 bit float is compared with a 32 bit constant *)
Theorem C57_sign_refuted opset : 7 <= opset -> opset < 9 ->
  exists p, built (sign opset (FLT F64) (In_ 0)) = Some p /\ ~ computes opset p 1 (all_of (FLT F64)) (tf_op "Sign").
Proof. intros. refute opset [VF F64 (of_Z F64 1)]. Qed.
(** Equal does not take floats before opset 11 *)
Theorem C57_div_no_nan_refuted opset : 9 <= opset -> opset < 11 ->
  exists p, built (div_no_nan (FLT F32) (In_ 0) (In_ 1)) = Some p /\ ~ computes opset p 2 (all_of (FLT F32)) (tf_op "DivNoNan").
Proof. intros. refute opset [VF F32 (of_Z F32 1); VF F32 (of_Z F32 2)]. Qed.
Theorem C57_is_finite_refuted opset : 10 <= opset -> opset < 20 ->
  exists p, built (is_finite_handler (In_ 0)) = Some p /\ ~ computes opset p 1 (all_of (FLT F16)) (tf_op "IsFinite").
Proof. intros. refute opset [VF F16 (of_Z F16 1)]. Qed.
(** the sign of an 8 bit integer is lost: -2 >> 1 becomes 127 *)
Theorem C57_right_shift_refuted opset : 11 <= opset ->
  exists p, built (bit_shift false (INT I8) (In_ 0) (In_ 1)) = Some p /\ ~ computes opset p 2 (all_of (INT I8)) (tf_op "RightShift").
Proof. intros. refute opset [VI I8 (-2); VI I8 1]. Qed.
(** 64 bit integers are not converted *)
Theorem C57_shift_int64_refuted left x y : built (bit_shift left (INT I64) x y) = None.
Proof. reflexivity. Qed.

(** the hypotheses are met *)
Example C57_quotients : quotients_agree [VI I32 7; VI I32 2] /\ quotients_agree [VI I32 (-7); VI I32 (-2)] /\ quotients_agree [VI I32 (-6); VI I32 2] /\
  tf_op "FloorDiv" [VI I32 7; VI I32 2] = Some (VI I32 3) /\ tf_op "FloorDiv" [VI I32 (-7); VI I32 2] = Some (VI I32 (-4)).
Proof.
  repeat split; try reflexivity; try (vm_compute; discriminate); [left; lia|right; left; lia|right; right; exists (-3)%Z; reflexivity].
Qed.
Definition column : ten := Ten [2; 1] (fun ix => match ix with [i; 0] => Some (VI I32 (if Nat.eqb i 0 then 17 else -9)) | _ => None end).
Definition row : ten := Ten [3] (fun ix => match ix with [j] => Some (VI I32 (nth j [3; -4; 5]%Z 0%Z)) | _ => None end).
Example C57_example : exists p onnx, built (min_max_handler 8 "Max" (INT I32) (In_ 0) (In_ 1)) = Some p /\ result 8 p [column; row] = Some onnx /\
  tshape onnx = [2; 3] /\ map (telem onnx) [[0; 0]; [0; 1]; [0; 2]; [1; 0]; [1; 1]; [1; 2]] = map (fun z => Some (VI I32 z)) [17; 17; 17; 3; -4; 5]%Z.
Proof. eexists; eexists; split; [reflexivity|]; split; [reflexivity|]; split; [reflexivity|]. vm_compute. reflexivity. Qed.
(** 2.25 + 0.5 is exact, and 2.25 is not half-way *)
Lemma B2R_2_25 : B2R (round_to F32 9 (-2)) = (9 / 4)%R.
Proof.
  replace (B2R (round_to F32 9 (-2))) with (Defs.F2R (Defs.Float Zaux.radix2 9437184 (-22))) by (vm_compute; reflexivity).
  unfold Defs.F2R; cbn [Defs.Fnum Defs.Fexp]. change (Raux.bpow Zaux.radix2 (-22)) with (/ IZR 4194304)%R. lra.
Qed.
Lemma B2R_2_75 : B2R (round_to F32 11 (-2)) = (11 / 4)%R.
Proof.
  replace (B2R (round_to F32 11 (-2))) with (Defs.F2R (Defs.Float Zaux.radix2 11534336 (-22))) by (vm_compute; reflexivity).
  unfold Defs.F2R; cbn [Defs.Fnum Defs.Fexp]. change (Raux.bpow Zaux.radix2 (-22)) with (/ IZR 4194304)%R. lra.
Qed.
Example C57_rounds_up : all_of (FLT F32) [VF F32 (round_to F32 9 (-2))] /\ rounds_up_exactly [VF F32 (round_to F32 9 (-2))].
Proof.
  split; [in_types|]. split.
  - exists (round_to F32 11 (-2)). split; [reflexivity|]. rewrite B2R_2_25, B2R_2_75. lra.
  - intros z. rewrite B2R_2_25. intros E. assert (E' : (IZR 7 = IZR (4 * z))%R) by (rewrite mult_IZR; lra). apply eq_IZR in E'. lia.
Qed.
Print Assumptions C57_min_max_partial. Print Assumptions C57_clip_partial. Print Assumptions C57_square. Print Assumptions C57_squared_difference.
Print Assumptions C57_div_no_nan. Print Assumptions C57_is_finite. Print Assumptions C57_floor_div_partial. Print Assumptions C57_floor_mod_partial.
Print Assumptions C57_round. Print Assumptions C57_round_7_partial. Print Assumptions C57_sign. Print Assumptions C57_bit_shift_partial.
Print Assumptions C57_floor_div_negative_refuted. Print Assumptions C57_floor_mod_float_refuted.
