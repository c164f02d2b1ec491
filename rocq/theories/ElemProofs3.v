From Coq Require Import ZArith Reals String List Bool Lia Lra Arith.
From Flocq Require Import Core BinarySingleNaN.
From Verif Require Import ElemSpec ElemModel ElemLift ElemFloat ElemProofs ElemProofs2.
Import ListNotations.
Local Open Scope string_scope.
Local Open Scope list_scope.
Local Open Scope nat_scope.

(** ** Minimum, Maximum, ClipByValue *)
Lemma fmin_of_Z f a b : (Z.abs a <= 2 ^ prec f)%Z -> (Z.abs b <= 2 ^ prec f)%Z -> fmin (of_Z f a) (of_Z f b) = of_Z f (Z.min a b).
Proof.
  intros A B. unfold fmin. rewrite !of_Z_nan, ltb_of_Z by auto. destruct (Z.ltb_spec b a); f_equal; lia.
Qed.
Lemma fmax_of_Z f a b : (Z.abs a <= 2 ^ prec f)%Z -> (Z.abs b <= 2 ^ prec f)%Z -> fmax (of_Z f a) (of_Z f b) = of_Z f (Z.max a b).
Proof.
  intros A B. unfold fmax. rewrite !of_Z_nan, ltb_of_Z by auto. destruct (Z.ltb_spec a b); f_equal; lia.
Qed.
Lemma cast_of_Z t f z : (Z.abs z <= 2 ^ prec f)%Z -> in_range t z ->
  (if is_finite (of_Z f z) && Z.leb (lo t) (Btrunc (of_Z f z)) && Z.leb (Btrunc (of_Z f z)) (hi t) then Some (VI t (Btrunc (of_Z f z))) else None) = Some (VI t z).
Proof.
  intros A (B & C). rewrite trunc_of_Z by auto. rewrite (proj2 (of_Z_exact f z A)). apply Z.leb_le in B, C. now rewrite B, C.
Qed.
Lemma range_min t x y : in_range t x -> in_range t y -> in_range t (Z.min x y).
Proof. unfold in_range. lia. Qed.
Lemma range_max t x y : in_range t x -> in_range t y -> in_range t (Z.max x y).
Proof. unfold in_range. lia. Qed.
Theorem min_max_8 opset (mx : bool) d : 8 <= opset -> opset < 12 -> d <> BOOL ->
  exists p, built (min_max_handler opset (if mx then "Max" else "Min") d (In_ 0) (In_ 1)) = Some p /\
    computes opset p 2 (fun vs => all_of d vs /\ small_ints vs) (tf_op (if mx then "Maximum" else "Minimum")).
Proof.
  intros O O' N. unfold min_max_handler. rewrite (ltb_t _ _ O').
  destruct mx, d as [|t0|f0]; try congruence; [destruct t0|destruct f0|destruct t0|destruct f0];
    (eexists; split; [reflexivity|]; apply computes_lift; [reflexivity|]).
  all: intros vs v L (Q & Sm) H; cases2; ev; try fin.
  all: apply small2 in Sm; destruct Sm as [Sx Sy]; try rewrite fmin_of_Z by assumption; try rewrite fmax_of_Z by assumption;
    (rewrite cast_of_Z; [cbn; fin| |first [now apply range_min|now apply range_max]]; change (2 ^ prec F32)%Z with (2 ^ 24)%Z; lia).
Qed.
Definition min_max_types (d : dtype) : bool := match d with BOOL => false | FLT _ => true | INT t => bit32 t end.
Theorem min_max_12 opset (mx : bool) d : 12 <= opset -> min_max_types d = true ->
  exists p, built (min_max_handler opset (if mx then "Max" else "Min") d (In_ 0) (In_ 1)) = Some p /\
    computes opset p 2 (all_of d) (tf_op (if mx then "Maximum" else "Minimum")).
Proof.
  intros O K. unfold min_max_handler. rewrite (ltb_f _ _ O).
  destruct mx; (eexists; split; [reflexivity|]; apply computes_lift; [reflexivity|]).
  all: intros vs v L Q H; destruct d as [|t0|f0]; try discriminate K; cases2; ev; try fin; cbn in K; rewrite K; cbn; ops; fin.
Qed.
(** three values of one type *)
Lemma typed3 d vs : List.length vs = 3 -> all_of d vs -> exists a b c, vs = [a; b; c] /\ has_type d a /\ has_type d b /\ has_type d c.
Proof.
  destruct vs as [|a [|b [|c [|? ?]]]]; try discriminate. intros _ H. inversion H as [|? ? A H']; subst. inversion H' as [|? ? B H'']; subst.
  inversion H''; subst. exists a, b, c. auto.
Qed.
Lemma int_case t a : has_type (INT t) a -> exists x, a = VI t x /\ in_range t x.
Proof. destruct a as [|u x|]; intros (A & B); try discriminate A. cbn in A, B. injection A as ->. eauto. Qed.
Lemma flt_case f a : has_type (FLT f) a -> exists x, a = VF f x.
Proof. destruct a as [|u x|g x]; intros (A & B); try discriminate A. cbn in A. injection A as ->. eauto. Qed.
Theorem clip_8 opset d : 8 <= opset -> opset < 12 -> d <> BOOL ->
  exists p, built (clip_handler opset d (In_ 0) (In_ 1) (In_ 2)) = Some p /\
    computes opset p 3 (fun vs => all_of d vs /\ small_ints vs) (tf_op "ClipByValue").
Proof.
  intros O O' N. unfold clip_handler. rewrite (ltb_t _ _ O'). destruct d as [|t|f]; try congruence.
  - assert (G : forall vs v, List.length vs = 3 -> all_of (INT t) vs /\ small_ints vs -> tf_op "ClipByValue" vs = Some v ->
      exists x l h, vs = [VI t x; VI t l; VI t h] /\ v = VI t (Z.min (Z.max x l) h) /\
        fmin (fmax (of_Z F32 x) (of_Z F32 l)) (of_Z F32 h) = of_Z F32 (Z.min (Z.max x l) h) /\
        cast (INT t) (VF F32 (of_Z F32 (Z.min (Z.max x l) h))) = Some (VI t (Z.min (Z.max x l) h))).
    { intros vs v L (Q & Sm) H. destruct (typed3 _ vs L Q) as (a & b & c & -> & A & B & C). apply int_case in A, B, C.
      destruct A as (x & -> & Rx), B as (l & -> & Rl), C as (h & -> & Rh). cbn in H. rewrite !ity_eqb_refl in H. cbn in H. injection H as <-.
      inversion Sm as [|? ? S1 Sm1]; subst. inversion Sm1 as [|? ? S2 Sm2]; subst. inversion Sm2 as [|? ? S3 Sm3]; subst.
      change (2 ^ 24)%Z with (2 ^ prec F32)%Z in *. exists x, l, h. split; auto. split; auto. split.
      - rewrite fmax_of_Z, fmin_of_Z; auto. lia.
      - unfold cast. apply cast_of_Z; [lia|]. apply range_min; [now apply range_max|exact Rh]. }
    destruct t; (eexists; split; [reflexivity|]; apply computes_lift; [reflexivity|]; intros vs v L Q H;
      destruct (G vs v L Q H) as (x & l & h & -> & -> & E1 & E2); clear G; unfold seval; repeat (progress (cbn; ops)); rewrite E1; cbn in E2; rewrite E2; fin).
  - destruct f; (eexists; split; [reflexivity|]; apply computes_lift; [reflexivity|]; intros vs v L (Q & Sm) H;
      destruct (typed3 _ vs L Q) as (a & b & c & -> & A & B & C); apply flt_case in A, B, C; destruct A as (x & ->), B as (l & ->), C as (h & ->); ev; fin).
Qed.
(** ** Square, SquaredDifference *)
Definition arith_types (opset : nat) (d : dtype) : bool := match d with BOOL => false | FLT _ => true | INT t => bit32 t || Nat.leb 14 opset end.
Theorem square_ok opset d : 7 <= opset -> arith_types opset d = true ->
  exists p, built (square (In_ 0)) = Some p /\ computes opset p 1 (all_of d) (tf_op "Square").
Proof.
  intros O K. eexists; split; [reflexivity|]. apply computes_lift; [reflexivity|]. intros vs v L Q H.
  destruct (typed1 _ vs L Q) as (a & -> & A). destruct d as [|t|f]; try discriminate K.
  - apply int_case in A. destruct A as (x & -> & R). cbn in K. ev. rewrite K. fin.
  - apply flt_case in A. destruct A as (x & ->). ev. fin.
Qed.
Theorem squared_difference_ok opset d : 7 <= opset -> arith_types opset d = true ->
  exists p, built (squared_difference (In_ 0) (In_ 1)) = Some p /\ computes opset p 2 (all_of d) (tf_op "SquaredDifference").
Proof.
  intros O K. eexists; split; [reflexivity|]. apply computes_lift; [reflexivity|]. intros vs v L Q H.
  destruct d as [|t0|f0]; try discriminate K; cases2; cbn in K; ev; repeat (progress (rewrite ?K; cbn; ops)); fin.
Qed.
(** ** DivNoNan, IsFinite *)
Theorem div_no_nan_11 opset f0 : 11 <= opset ->
  exists p, built (div_no_nan (FLT f0) (In_ 0) (In_ 1)) = Some p /\ computes opset p 2 (all_of (FLT f0)) (tf_op "DivNoNan").
Proof.
  intros O. eexists; split; [reflexivity|]. apply computes_lift; [reflexivity|]. intros vs v L Q H. cases2. ev. fin.
Qed.
Theorem is_finite_10 opset f : 10 <= opset -> f <> F16 \/ 20 <= opset ->
  exists p, built (is_finite_handler (In_ 0)) = Some p /\ computes opset p 1 (all_of (FLT f)) (tf_op "IsFinite").
Proof.
  intros O F. eexists; split; [reflexivity|]. apply computes_lift; [reflexivity|]. intros vs v L Q H.
  destruct (typed1 _ vs L Q) as (a & -> & A). apply flt_case in A. destruct A as (x & ->). ev.
  assert (E : (Nat.leb 20 opset || match f with F16 => false | _ => true end) = true).
  { destruct F as [F|F]; [destruct f; try congruence; apply orb_true_r|rewrite (leb_t _ _ F); reflexivity]. }
  rewrite E. repeat (progress (cbn; ops)). eexists; split; [reflexivity|]. destruct x as [| | |]; apply same_refl.
Qed.
