(** Proofs for C77. *)
From Coq Require Import Reals Ratan List String Lra Psatz.
From Verif Require Import AtanSpec AtanModel.
Import ListNotations.
Local Open Scope R_scope.

Lemma sign_pos v : 0 < v -> sign v = 1.
Proof. intro H. unfold sign. destruct (total_order_T v 0) as [[L|L]|L]; lra. Qed.
Lemma sign_neg v : v < 0 -> sign v = -1.
Proof. intro H. unfold sign. destruct (total_order_T v 0) as [[L|L]|L]; lra. Qed.
Lemma sign_zero : sign 0 = 0.
Proof. unfold sign. destruct (total_order_T 0 0) as [[L|L]|L]; lra. Qed.
Definition formula (y x : R) : R := sign x * sign x * atan (y / (x + (sign x * sign x - 1))) + (sign y + sign x * (sign y * sign y - 1)) * (sign x - 1) * (- PI / 2).
Lemma atan2_value env y x : env "y"%string = Some y -> env "x"%string = Some x -> avalue env atan2 = Some (formula y x).
Proof.
  intros Hy Hx. unfold atan2. cbn [avalue]. rewrite Hy, Hx. cbn [option_map bin]. destruct (Req_EM_T _ 0) as [E|E].
  - exfalso. destruct (Rtotal_order x 0) as [L|[L|L]]; [rewrite (sign_neg x L) in E|subst x; rewrite sign_zero in E|rewrite (sign_pos x L) in E]; lra.
  - cbn [option_map]. reflexivity.
Qed.
Lemma norm_of x t : 0 < x -> sqrt (x * x + t * x * (t * x)) = x * sqrt (1 + t * t).
Proof. intro P. replace (x * x + t * x * (t * x)) with (x * x * (1 + t * t)) by ring. rewrite sqrt_mult by nra. rewrite sqrt_square by lra. reflexivity. Qed.
Lemma one_plus t : 0 < sqrt (1 + t * t).
Proof. apply sqrt_lt_R0. nra. Qed.
Lemma formula_ok y x : is_angle y x (formula y x).
Proof.
  assert (P := PI_RGT_0). unfold is_angle, formula. cbv zeta. destruct (Rtotal_order x 0) as [L|[L|L]].
  - rewrite (sign_neg x L). replace (-1 * -1) with 1 by ring. replace (x + (1 - 1)) with x by ring. set (t := y / x). assert (Ey : y = t * x) by (unfold t; field; lra). assert (B := atan_bound t). assert (Q := one_plus t).
    assert (N : sqrt (x * x + y * y) = - x * sqrt (1 + t * t)). { rewrite Ey. replace (x * x + t * x * (t * x)) with (- x * - x + t * - x * (t * - x)) by ring. apply norm_of. lra. }
    assert (Cs : forall a, cos a = - cos (atan t) -> sin a = - sin (atan t) -> x = sqrt (x * x + y * y) * cos a /\ y = sqrt (x * x + y * y) * sin a).
    { intros a Ca Sa. rewrite N, Ca, Sa, cos_atan, sin_atan. unfold Rsqr. split; [field; lra|]. rewrite Ey at 1. field. lra. }
    assert (A0 : forall u, 0 <= u -> 0 <= atan u). { intros u [U|<-]; [|rewrite atan_0; lra]. rewrite <- atan_0. left. now apply atan_increasing. }
    destruct (Rtotal_order y 0) as [Ly|[Ly|Ly]].
    + rewrite (sign_neg y Ly). replace (1 * atan t + (-1 + -1 * (-1 * -1 - 1)) * (-1 - 1) * (- PI / 2)) with (atan t - PI) by field. assert (T : 0 < t) by (unfold t; replace (y / x) with (- y * / - x) by (field; lra); apply Rmult_lt_0_compat; [lra|]; apply Rinv_0_lt_compat; lra). assert (G := atan_increasing 0 t T). rewrite atan_0 in G.
      destruct (Cs (atan t - PI)) as [C1 C2]; [rewrite cos_minus, cos_PI, sin_PI; ring|rewrite sin_minus, cos_PI, sin_PI; ring|]. split; [exact C1|]. split; [exact C2|]. split; [lra|]. lra.
    + assert (T : t = 0) by (unfold t; rewrite Ly; field; lra). rewrite Ly, sign_zero. replace (1 * atan t + (0 + -1 * (0 * 0 - 1)) * (-1 - 1) * (- PI / 2)) with (atan t + PI) by field. destruct (Cs (atan t + PI)) as [C1 C2]; [now rewrite neg_cos|now rewrite neg_sin|]. rewrite Ly in C1, C2. split; [exact C1|]. split; [exact C2|]. rewrite T, atan_0. lra.
    + rewrite (sign_pos y Ly). replace (1 * atan t + (1 + -1 * (1 * 1 - 1)) * (-1 - 1) * (- PI / 2)) with (atan t + PI) by field. assert (T : 0 < - t) by (unfold t; replace (- (y / x)) with (y * / - x) by (field; lra); apply Rmult_lt_0_compat; [lra|]; apply Rinv_0_lt_compat; lra). assert (G := atan_increasing 0 (- t) T). rewrite atan_0, atan_opp in G.
      destruct (Cs (atan t + PI)) as [C1 C2]; [now rewrite neg_cos|now rewrite neg_sin|]. split; [exact C1|]. split; [exact C2|]. lra.
  - subst x. rewrite sign_zero. replace (0 * 0 + y * y) with (y * y) by ring. destruct (Rtotal_order y 0) as [Ly|[Ly|Ly]].
    + rewrite (sign_neg y Ly). replace (_ + _) with (- (PI / 2)) by field. rewrite cos_neg, sin_neg, cos_PI2, sin_PI2. replace (y * y) with (- y * - y) by ring. rewrite sqrt_square by lra. lra.
    + subst y. rewrite sign_zero. replace (_ + _) with 0 by field. rewrite Rmult_0_l, sqrt_0. lra.
    + rewrite (sign_pos y Ly). replace (_ + _) with (PI / 2) by field. rewrite cos_PI2, sin_PI2. rewrite sqrt_square by lra. lra.
  - rewrite (sign_pos x L). replace (1 * 1 * atan (y / (x + (1 * 1 - 1))) + (sign y + 1 * (sign y * sign y - 1)) * (1 - 1) * (- PI / 2)) with (atan (y / x)) by (replace (x + (1 * 1 - 1)) with x by ring; ring).
    set (t := y / x). assert (Ey : y = t * x) by (unfold t; field; lra). assert (B := atan_bound t). assert (Q := one_plus t). rewrite Ey, norm_of by exact L. rewrite cos_atan, sin_atan. unfold Rsqr. split; [field; lra|]. split; [field; lra|]. lra.
Qed.
(** the angle is determined *)
Lemma angle_unique y x a b : is_angle y x a -> is_angle y x b -> a = b.
Proof.
  intros (X1 & Y1 & (L1 & U1) & Z1) (X2 & Y2 & (L2 & U2) & Z2). set (r := sqrt (x * x + y * y)) in *.
  destruct (Req_dec r 0) as [E|E]. { rewrite E in *. assert (x = 0) by lra. assert (y = 0) by lra. rewrite Z1, Z2; auto. }
  assert (Ec : cos a = cos b) by (apply (Rmult_eq_reg_l r); [congruence|exact E]). assert (Es : sin a = sin b) by (apply (Rmult_eq_reg_l r); [congruence|exact E]).
  assert (S0 : sin (a - b) = 0) by (rewrite sin_minus, Ec, Es; ring). assert (C1 : cos (a - b) = 1) by (rewrite cos_minus, Ec, Es; assert (Q := sin2_cos2 b); unfold Rsqr in Q; lra).
  assert (G : forall d, 0 <= d < 2 * PI -> sin d = 0 -> cos d = 1 -> d = 0).
  { intros d [D0 D1] Sd Cd. destruct (Req_dec d 0) as [->|N]; [reflexivity|]. exfalso. destruct (Rlt_le_dec d PI) as [D|D].
    - assert (0 < sin d) by (apply sin_gt_0; lra). lra.
    - destruct (Req_dec d PI) as [->|N']; [rewrite cos_PI in Cd; lra|]. assert (sin d < 0) by (apply sin_lt_0; lra). lra. }
  destruct (Rle_lt_dec b a) as [D|D].
  - assert (a - b = 0) by (apply G; auto; lra). lra.
  - assert (b - a = 0); [|lra]. apply G; [lra| |]; replace (b - a) with (- (a - b)) by ring; [rewrite sin_neg; lra|rewrite cos_neg; exact C1].
Qed.
