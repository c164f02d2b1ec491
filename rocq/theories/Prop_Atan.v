(** C77: Atan2 becomes an expression that gives the angle. *)
From Coq Require Import Reals List String Lra Arith Lia Bool.
From Verif Require Import AtanSpec AtanModel AtanProofs.
Import ListNotations.
Local Open Scope R_scope.

Definition inputs (y x : R) (s : string) : option R := if String.eqb s "y" then Some y else if String.eqb s "x" then Some x else None.
(** In exact arithmetic (with the exact -pi/2): rounding, infinities, NaN and the sign of zeros are not in the model. *)
Theorem C77_atan2_partial :
  forall y x dtype e, atan2_of dtype = Some e -> exists a, avalue (inputs y x) e = Some a /\ is_angle y x a /\ forall b, is_angle y x b -> b = a.
Proof.
  intros y x dtype e H. unfold atan2_of in H. destruct (existsb _ _); [|discriminate]. injection H as <-. exists (formula y x). split; [now apply atan2_value|]. split; [apply formula_ok|]. intros b Hb. apply (angle_unique y x); [exact Hb|apply formula_ok].
Qed.
Definition ranks (ry rx : nat) (s : string) : nat := if String.eqb s "y" then ry else rx.
(** the rank of the result is that of the broadcast inputs, if one of them is not a scalar *)
Theorem C77_atan2_rank_partial : forall ry rx dtype e, atan2_of dtype = Some e -> (1 <= Nat.max ry rx)%nat -> arank (ranks ry rx) e = Nat.max ry rx.
Proof. intros ry rx dtype e H L. unfold atan2_of in H. destruct (existsb _ _); [|discriminate]. injection H as <-. unfold atan2. cbn [arank ranks String.eqb Ascii.eqb Bool.eqb]. lia. Qed.
(** two scalars give a vector *)
Theorem C77_atan2_scalars_refuted : forall dtype e, atan2_of dtype = Some e -> arank (ranks 0 0) e = 1%nat.
Proof. intros dtype e H. unfold atan2_of in H. destruct (existsb _ _); [|discriminate]. injection H as <-. reflexivity. Qed.
Theorem C77_atan2_accepted : forall dtype, (exists e, atan2_of dtype = Some e) <-> In dtype ["FLOAT"; "FLOAT16"; "DOUBLE"]%string.
Proof.
  intro d. unfold atan2_of. split.
  - intros [e H]. destruct (existsb (String.eqb d) atan2_types) eqn:E; [|discriminate]. apply existsb_exists in E. destruct E as (s & Hs & E). apply String.eqb_eq in E. now subst s.
  - intro H. assert (E : existsb (String.eqb d) atan2_types = true) by (apply existsb_exists; exists d; split; [exact H|apply String.eqb_refl]). rewrite E. eexists. reflexivity.
Qed.
Example left_half : is_angle 0 (-2) PI.
Proof. unfold is_angle. cbv zeta. rewrite cos_PI, sin_PI. replace (-2 * -2 + 0 * 0) with (2 * 2) by ring. rewrite sqrt_square by lra. assert (P := PI_RGT_0). lra. Qed.
Example left_half_value : avalue (inputs 0 (-2)) atan2 = Some PI.
Proof. destruct (C77_atan2_partial 0 (-2) "FLOAT" atan2 eq_refl) as (a & Ha & _ & U). rewrite (U PI left_half). exact Ha. Qed.

Print Assumptions C77_atan2_partial.
Print Assumptions C77_atan2_rank_partial.
Print Assumptions C77_atan2_scalars_refuted.
Print Assumptions C77_atan2_accepted.
