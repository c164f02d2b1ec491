(** The handlers of ElemModel on single elements. *)
From Coq Require Import ZArith String List Bool Lia Arith.
From Flocq Require Import BinarySingleNaN.
From Verif Require Import ElemSpec ElemModel ElemLift ElemFloat.
Import ListNotations.
Local Open Scope string_scope.
Local Open Scope list_scope.

#[global] Arguments prec : simpl never. #[global] Arguments emax : simpl never. #[global] Arguments as_fl : simpl never. #[global] Arguments ity_eqb : simpl never. #[global] Arguments of_Z : simpl never.
#[global] Arguments wrap : simpl never. #[global] Arguments lo : simpl never. #[global] Arguments hi : simpl never.
#[global] Arguments fmin : simpl never. #[global] Arguments fmax : simpl never. #[global] Arguments to_int : simpl never.
#[global] Arguments add : simpl never. #[global] Arguments sub : simpl never. #[global] Arguments mul : simpl never. #[global] Arguments div : simpl never.
#[global] Arguments Beqb : simpl never. #[global] Arguments Bltb : simpl never. #[global] Arguments Bleb : simpl never. #[global] Arguments Btrunc : simpl never.
#[global] Arguments is_finite : simpl never. #[global] Arguments is_nan : simpl never. #[global] Arguments Nat.leb : simpl never. #[global] Arguments Nat.ltb : simpl never.
#[global] Arguments Z.leb : simpl never. #[global] Arguments Z.ltb : simpl never. #[global] Arguments Z.eqb : simpl never.
#[global] Arguments Z.mul : simpl never. #[global] Arguments Z.add : simpl never. #[global] Arguments Z.sub : simpl never. #[global] Arguments Z.pow : simpl never.
#[global] Arguments Z.quot : simpl never. #[global] Arguments Z.div : simpl never. #[global] Arguments Z.modulo : simpl never.
#[global] Arguments shift : simpl never. #[global] Arguments int_div : simpl never. #[global] Arguments bits : simpl never.
Lemma as_fl_same f (x : fl f) : as_fl f (VF f x) = Some x.
Proof. destruct f; reflexivity. Qed.
Lemma ity_eqb_refl t : ity_eqb t t = true.
Proof. destruct t; reflexivity. Qed.
Lemma ity_eqb_eq t u : ity_eqb t u = true -> t = u.
Proof. destruct t, u; (reflexivity || discriminate). Qed.
Lemma leb_t a b : a <= b -> Nat.leb a b = true. Proof. apply Nat.leb_le. Qed.
Lemma ltb_f a b : b <= a -> Nat.ltb a b = false. Proof. apply Nat.ltb_ge. Qed.
Lemma ltb_t a b : a < b -> Nat.ltb a b = true. Proof. apply Nat.ltb_lt. Qed.
Lemma leb_f a b : b < a -> Nat.leb a b = false. Proof. apply Nat.leb_gt. Qed.
Lemma typed2 d vs : List.length vs = 2 -> all_of d vs ->
  exists a b, vs = [a; b] /\ has_type d a /\ has_type d b.
Proof.
  destruct vs as [|a [|b [|c vs]]]; try discriminate. intros _ H. inversion H as [|? ? A H']; subst. inversion H' as [|? ? B H'']; subst. eauto 6.
Qed.
Lemma typed1 d vs : List.length vs = 1 -> all_of d vs -> exists a, vs = [a] /\ has_type d a.
Proof. destruct vs as [|a [|b vs]]; try discriminate. intros _ H. inversion H; subst. eauto. Qed.
(** two values of one type *)
Lemma two_cases d a b : has_type d a -> has_type d b ->
  (exists x y, d = BOOL /\ a = VB x /\ b = VB y) \/
  (exists t x y, d = INT t /\ a = VI t x /\ b = VI t y /\ in_range t x /\ in_range t y) \/
  (exists f x y, d = FLT f /\ a = VF f x /\ b = VF f y).
Proof.
  intros (A & A') (B & B'). destruct a as [x|t x|f x]; cbn in A; subst d; destruct b as [y|u y|g y]; try discriminate B; cbn in B.
  - left. exists x, y. auto.
  - injection B as ->. right. left. exists t, x, y. cbn in A', B'. repeat split; auto; apply A' || apply B'.
  - injection B as ->. right. right. exists f, x, y. auto.
Qed.
Ltac two d := let a := fresh "a" in let b := fresh "b" in let A := fresh "A" in let B := fresh "B" in
  intros vs v L Q H; destruct (typed2 d vs L Q) as (a & b & -> & A & B);
  destruct (two_cases d a b A B) as [(x & y & -> & -> & ->)|[(t & x & y & -> & -> & -> & Rx & Ry)|(f & x & y & -> & -> & ->)]]; clear A B Q L.
Ltac fin := eexists; split; [reflexivity|apply same_refl].

(** compute, given what is known about the opset *)
Ltac ops := rewrite ?ity_eqb_refl, ?as_fl_same;
  repeat match goal with
         | O : _ <= ?o |- context[Nat.leb ?n ?o] => rewrite (leb_t n o) by lia
         | O : ?o < _ |- context[Nat.leb ?n ?o] => rewrite (leb_f n o) by lia
         | O : _ <= ?o |- context[Nat.ltb ?o ?n] => rewrite (ltb_f o n) by lia
         | O : ?o < _ |- context[Nat.ltb ?o ?n] => rewrite (ltb_t o n) by lia
         end.
Ltac ev := match goal with H : tf_op _ _ = Some ?v |- _ => cbn in H; rewrite ?ity_eqb_refl, ?as_fl_same in H; cbn in H end;
  try match goal with H : None = Some _ |- _ => discriminate H | H : Some _ = Some ?v |- _ => injection H as <- end;
  unfold seval; repeat (progress (cbn; ops)).
(** ** Equal, NotEqual *)
Theorem equal_11 opset ne d : 11 <= opset ->
  exists p, built (equal opset ne d (In_ 0) (In_ 1)) = Some p /\ computes opset p 2 (all_of d) (tf_op (if ne then "NotEqual" else "Equal")).
Proof.
  intros O. unfold equal. rewrite (ltb_f _ _ O). destruct ne; (eexists; split; [reflexivity|]; apply computes_lift; [reflexivity|]); two d;
    ev; first [fin|destruct x, y; fin].
Qed.
Definition equal_types (d : dtype) : bool := match d with BOOL => true | INT U64 => false | INT _ => true | FLT _ => false end.
Lemma range_nums t x : in_range t x ->
  match t with
  | I8 => -128 <= x <= 127 | I16 => -32768 <= x <= 32767 | I32 => -2147483648 <= x <= 2147483647
  | I64 => -9223372036854775808 <= x <= 9223372036854775807
  | U8 => 0 <= x <= 255 | U16 => 0 <= x <= 65535 | U32 => 0 <= x <= 4294967295 | U64 => 0 <= x <= 18446744073709551615
  end%Z.
Proof. destruct t; intros H; exact H. Qed.
Lemma wrap_mod t z : exists k, (wrap t z = z + k * 2 ^ bits t)%Z.
Proof. unfold wrap. exists (- ((z - lo t) / 2 ^ bits t))%Z. assert (E := Z_div_mod_eq_full (z - lo t) (2 ^ bits t)). lia. Qed.
Lemma wrap_in t z : in_range t (wrap t z).
Proof.
  unfold wrap, in_range. assert (H : (0 < 2 ^ bits t)%Z) by (destruct t; reflexivity).
  assert (B := Z.mod_pos_bound (z - lo t) _ H). assert (E : (hi t = lo t + 2 ^ bits t - 1)%Z) by (destruct t; reflexivity). lia.
Qed.
Lemma wrap_id t z : in_range t z -> wrap t z = z.
Proof.
  unfold wrap, in_range. assert (E : (hi t = lo t + 2 ^ bits t - 1)%Z) by (destruct t; reflexivity). intros H.
  rewrite Z.mod_small; lia.
Qed.
Lemma wrap_32 t x y : t <> U64 -> t <> I64 -> in_range t x -> in_range t y -> Z.eqb (wrap I32 x) (wrap I32 y) = Z.eqb x y.
Proof.
  intros N1 N2 Hx Hy. apply Bool.eq_iff_eq_true. rewrite !Z.eqb_eq. split; [|congruence].
  destruct (wrap_mod I32 x) as (k & ->). destruct (wrap_mod I32 y) as (k' & ->). change (2 ^ bits I32)%Z with 4294967296%Z.
  apply range_nums in Hx, Hy. destruct t; try congruence; lia.
Qed.
Theorem equal_7 opset ne d : 7 <= opset -> opset < 11 -> equal_types d = true ->
  exists p, built (equal opset ne d (In_ 0) (In_ 1)) = Some p /\ computes opset p 2 (all_of d) (tf_op (if ne then "NotEqual" else "Equal")).
Proof.
  intros O O' K. unfold equal. rewrite (ltb_t _ _ O'). destruct ne, d as [|t|]; try discriminate K; try (destruct t; try discriminate K);
    (eexists; split; [reflexivity|]; apply computes_lift; [reflexivity|]).
  all: intros vs v L Q H; destruct (typed2 _ vs L Q) as (a & b & -> & A & B);
    destruct (two_cases _ a b A B) as [(x & y & E & -> & ->)|[(t & x & y & E & -> & -> & Rx & Ry)|(f & x & y & E & -> & ->)]];
    try discriminate E; try (injection E as <-); clear A B Q L; ev; try (match goal with R : in_range ?t x |- _ => rewrite (wrap_32 t x y); [|discriminate|discriminate|assumption|assumption] end);
    first [fin|destruct x, y; fin].
Qed.
(** x /= x *)
Theorem not_equal_self opset f : 9 <= opset -> opset < 11 ->
  exists p, built (equal opset true (FLT f) (In_ 0) (In_ 0)) = Some p /\ computes opset p 1 (all_of (FLT f)) (fun vs => tf_op "NotEqual" (vs ++ vs)).
Proof.
  intros O O'. unfold equal. rewrite (ltb_t _ _ O'). eexists; split; [reflexivity|]. apply computes_lift; [reflexivity|].
  intros vs v L Q H. destruct (typed1 _ vs L Q) as (a & -> & A & A'). destruct a as [|t z|g x]; try discriminate A. cbn in A. injection A as ->.
  cbn [app] in H. ev. eexists; split; [reflexivity|]. replace (is_nan x) with (negb (Beqb x x)); [apply same_refl|].
  destruct x as [[]|[]| |s m e B]; try reflexivity. rewrite Beqb_correct by reflexivity. rewrite Raux.Req_bool_true; reflexivity.
Qed.

Theorem equal_self_11 opset ne d : 11 <= opset ->
  exists p, built (equal opset ne d (In_ 0) (In_ 0)) = Some p /\ computes opset p 1 (all_of d) (fun vs => tf_op (if ne then "NotEqual" else "Equal") (vs ++ vs)).
Proof.
  intros O. unfold equal. rewrite (ltb_f _ _ O). destruct ne; (eexists; split; [reflexivity|]; apply computes_lift; [reflexivity|]);
    intros vs v L Q H; destruct (typed1 _ vs L Q) as (a & -> & A & A'); destruct a as [x|t x|f x]; cbn [app] in H; ev; first [fin|destruct x; fin].
Qed.
Theorem equal_self_7 opset d : 7 <= opset -> opset < 11 -> equal_types d = true ->
  exists p, built (equal opset false d (In_ 0) (In_ 0)) = Some p /\ computes opset p 1 (all_of d) (fun vs => tf_op "Equal" (vs ++ vs)).
Proof.
  intros O O' K. unfold equal. rewrite (ltb_t _ _ O'). destruct d as [|t|]; try discriminate K; try (destruct t; try discriminate K);
    (eexists; split; [reflexivity|]; apply computes_lift; [reflexivity|]).
  all: intros vs v L Q H; destruct (typed1 _ vs L Q) as (a & -> & A & A'); destruct a as [x|t x|f x]; cbn in A; try discriminate A;
    try (injection A as ->); cbn [app] in H; ev; rewrite ?Z.eqb_refl; first [fin|destruct x; fin].
Qed.

(** ** comparisons *)
Definition cmp_ok (d : dtype) (vs : list val) : Prop := all_of d vs /\ small_ints vs.
Lemma small2 t x y : small_ints [VI t x; VI t y] -> (Z.abs x <= 2 ^ 24)%Z /\ (Z.abs y <= 2 ^ 24)%Z.
Proof. intros H. inversion H as [|? ? A H']; subst. inversion H'; subst. auto. Qed.
Theorem greater_less_ok opset (greater : bool) d : 7 <= opset -> d <> BOOL ->
  exists p, built (greater_less (if greater then "Greater" else "Less") d (In_ 0) (In_ 1)) = Some p /\
    computes opset p 2 (fun vs => all_of d vs /\ small_ints vs) (tf_op (if greater then "Greater" else "Less")).
Proof.
  intros O N. unfold greater_less, add_cast_to_inputs.
  destruct greater, d as [|t|f]; try congruence; [destruct t|destruct f|destruct t|destruct f]; 
    (eexists; split; [reflexivity|]; apply computes_lift; [reflexivity|]).
  all: intros vs v L (Q & Sm) H; destruct (typed2 _ vs L Q) as (a & b & -> & A & B);
    destruct (two_cases _ a b A B) as [(x & y & E & -> & ->)|[(t & x & y & E & -> & -> & Rx & Ry)|(f & x & y & E & -> & ->)]];
    try discriminate E; try (injection E as <-); clear A B Q L; ev; try fin.
  all: apply small2 in Sm; destruct Sm as [Sx Sy]; rewrite ltb_of_Z by assumption; fin.
Qed.
