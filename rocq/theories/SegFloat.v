(** Names of the segment operators, and the segment reductions of floats. *)
From Coq Require Import List Arith ZArith Bool String Lia Permutation Sorting.Sorted Reals Lra.
From Flocq Require Import Core BinarySingleNaN.
From Verif Require Import OnnxSpec SegSpec SegModel SegProofs.
Import ListNotations.
Local Open Scope list_scope.
Local Notation length := List.length.

Definition seg_name (r : reduction) : string :=
  match r with Sum => "SegmentSum" | Prod => "SegmentProd" | Max => "SegmentMax" | Min => "SegmentMin" | Mean => "SegmentMean" | SqrtN => "SegmentSqrtN" end%string.
Lemma parse_ok tf k : In (tf, k) kinds -> exists t1, specified tf = (k_num k, t1) /\ sparse t1 = (match k_form k with Sparse => true | _ => false end, seg_name (k_red k)).
Proof. intro H. unfold kinds in H. cbn [In] in H. repeat (destruct H as [H|H]; [injection H as <- <-; eexists; split; reflexivity|]). destruct H. Qed.
Lemma num_unsorted tf k : In (tf, k) kinds -> k_num k = true \/ k_form k <> Unsorted.
Proof. intro H. unfold kinds in H. cbn [In] in H. repeat (destruct H as [H|H]; [injection H as <- <-; cbn; auto; right; discriminate|]). destruct H. Qed.
Lemma reduction_table red fl r i : reduction_of (seg_name red) fl = Some (r, i) ->
  exists base, In (base, r, i) [(Sum, RSum, IZero); (Prod, RProd, IOne); (Max, RMax, INegInf); (Min, RMin, IPosInf)] /\ (~ (red = Mean \/ red = SqrtN) -> base = red).
Proof.
  destruct red, fl; cbn; intro H; try discriminate; injection H as <- <-;
    first [exists Sum; split; [cbn; tauto|tauto] | exists Prod; split; [cbn; tauto|tauto] | exists Max; split; [cbn; tauto|tauto] | exists Min; split; [cbn; tauto|tauto]].
Qed.
Lemma max_last (l : list Z) : l <> [] -> (forall p q a b, nth_error l p = Some a -> nth_error l q = Some b -> p <= q -> (a <= b)%Z) ->
  last l 0%Z = match l with [] => 0%Z | z :: l' => fold_right Z.max z l' end.
Proof.
  intros Ne H. destruct l as [|z l]; [contradiction|]. assert (E : nth_error (z :: l) (length l) = Some (last (z :: l) 0%Z)).
  { clear. revert z. induction l as [|a l IH]; intro z; [reflexivity|]. cbn [length nth_error]. rewrite IH. reflexivity. }
  assert (U : forall w, In w (z :: l) -> (w <= last (z :: l) 0)%Z). { intros w Hw. apply In_nth_error in Hw. destruct Hw as [p Hp]. apply (H p (length l) w _ Hp E). assert (p < length (z :: l)) by (apply nth_error_Some; congruence). cbn in H0. lia. }
  assert (G := fold_max z l _ (nth_error_In _ _ E)). assert (M : In (fold_right Z.max z l) (z :: l)).
  { clear. induction l as [|a l IH]; [now left|]. cbn [fold_right]. destruct (Z.max_spec a (fold_right Z.max z l)) as [[_ ->]|[_ ->]]; [destruct IH; [now left|right; now right]|right; now left]. }
  apply U in M. lia.
Qed.
Lemma perm_repeat {A} (a : A) n l : Permutation l (repeat a n) -> l = repeat a n.
Proof.
  intro P. assert (L := Permutation_length P). rewrite repeat_length in L. assert (G : forall b, In b l -> b = a) by (intros b Hb; apply (Permutation_in _ P) in Hb; now apply repeat_spec in Hb).
  subst n. clear P. induction l as [|b l IH]; [reflexivity|]. cbn. rewrite (G b (or_introl eq_refl)). f_equal. apply IH. intros; apply G; now right.
Qed.
Lemma Forall2_nth {A B} (P : A -> B -> Prop) l m : Forall2 P l m -> forall j b, nth_error m j = Some b -> exists a, nth_error l j = Some a /\ P a b.
Proof. induction 1; intros [|j] b H1; try discriminate; [injection H1 as <-; exists x; auto|]. apply (IHForall2 j b H1). Qed.
Lemma Forall2_length {A B} (P : A -> B -> Prop) l m : Forall2 P l m -> length l = length m.
Proof. induction 1; cbn; congruence. Qed.
(** ** reductions of floats *)
From Verif Require Import ElemSpec ElemFloat ReduceSpec ReduceProofs.
Lemma app_split {A} (a b c d : list A) : Permutation (a ++ b) (c ++ d) ->
  exists c1 c2 d1 d2, Permutation c (c1 ++ c2) /\ Permutation d (d1 ++ d2) /\ Permutation a (c1 ++ d1) /\ Permutation b (c2 ++ d2).
Proof.
  revert c d. induction a as [|x a IH]; intros c d P.
  - cbn in P. exists [], c, [], d. cbn. auto.
  - cbn [app] in P. assert (I1 : In x (c ++ d)) by (apply (Permutation_in _ P); now left). apply in_app_or in I1. destruct I1 as [I1|I1]; apply in_split in I1; destruct I1 as (l1 & l2 & ->).
    + rewrite <- app_assoc in P. cbn [app] in P. apply Permutation_cons_app_inv in P. rewrite app_assoc in P. destruct (IH _ _ P) as (c1 & c2 & d1 & d2 & P1 & P2 & P3 & P4). exists (x :: c1), c2, d1, d2. split; [|split; [auto|split; [cbn; now constructor|auto]]].
      cbn [app]. rewrite <- P1. symmetry. apply Permutation_middle.
    + rewrite app_assoc in P. apply Permutation_cons_app_inv in P. rewrite <- app_assoc in P. destruct (IH _ _ P) as (c1 & c2 & d1 & d2 & P1 & P2 & P3 & P4). exists c1, c2, (x :: d1), d2. split; [auto|]. split; [|split; [|auto]].
      * cbn [app]. rewrite <- P2. symmetry. apply Permutation_middle.
      * rewrite <- Permutation_middle. now constructor.
Qed.
Lemma perm_repeat_app {A} (e : A) k d1 d2 : Permutation (repeat e k) (d1 ++ d2) -> exists k1 k2, d1 = repeat e k1 /\ d2 = repeat e k2.
Proof.
  intro P. symmetry in P. apply perm_repeat in P. exists (length d1), (length d2). assert (G : forall b, In b (d1 ++ d2) -> b = e) by (intros b Hb; rewrite P in Hb; now apply repeat_spec in Hb).
  assert (H : forall l, (forall b, In b l -> b = e) -> l = repeat e (length l)) by (induction l as [|b l IH]; intro Hl; [reflexivity|]; cbn; rewrite (Hl b (or_introl eq_refl)); f_equal; apply IH; intros; apply Hl; now right).
  split; apply H; intros b Hb; apply G, in_or_app; auto.
Qed.
(** identities may be inserted anywhere *)
Lemma tree_pad {A} (S : A -> A -> Prop) (f : A -> A -> A) (e : A) :
  (forall x, S x x) -> (forall x y z, S x y -> S y z -> S x z) -> (forall x x' y y', S x x' -> S y y' -> S (f x y) (f x' y')) ->
  (forall x, S x (f x e)) -> (forall x, S x (f e x)) ->
  forall l' v, tree_of f l' v -> forall l k, Permutation l' (l ++ repeat e k) -> (l = [] /\ S e v) \/ (exists w, tree_of f l w /\ S w v).
Proof.
  intros Sr St Sc Er El. induction 1 as [x|a b x y _ IH1 _ IH2|l0 l' x P _ IH]; intros l k Q.
  - assert (L := Permutation_length Q). rewrite app_length, repeat_length in L. cbn in L. destruct l as [|z [|z' l]]; cbn in L; [| |lia].
    + left. split; auto. cbn in Q. apply Permutation_length_1_inv in Q. destruct k as [|[|k]]; cbn in Q; try discriminate. injection Q as ->. apply Sr.
    + right. assert (k = 0) by lia. subst k. cbn in Q. apply Permutation_length_1 in Q. subst. exists z. split; [constructor|apply Sr].
  - destruct (app_split _ _ _ _ Q) as (c1 & c2 & d1 & d2 & P1 & P2 & P3 & P4). destruct (perm_repeat_app e k d1 d2 P2) as (k1 & k2 & -> & ->).
    destruct (IH1 c1 k1 P3) as [[-> E1]|(w1 & T1 & S1)], (IH2 c2 k2 P4) as [[-> E2]|(w2 & T2 & S2)].
    + left. cbn in P1. apply Permutation_sym, Permutation_nil in P1. subst. split; auto. apply St with (f e e); auto.
    + right. exists w2. split; [now apply (tree_perm f c2 l); [symmetry|]|]. apply St with (f e w2); auto.
    + right. rewrite app_nil_r in P1. exists w1. split; [now apply (tree_perm f c1 l); [symmetry|]|]. apply St with (f w1 e); auto.
    + right. exists (f w1 w2). split; [apply (tree_perm f (c1 ++ c2) l); [now symmetry|now constructor]|]. auto.
  - apply (IH l k). now transitivity l'.
Qed.
Lemma tree_repeat {A} (f : A -> A -> A) (e : A) : f e e = e -> forall l v, tree_of f l v -> (forall b, In b l -> b = e) -> v = e.
Proof.
  intros E. induction 1 as [x|a b x y _ IH1 _ IH2|l0 l' x P _ IH]; intro H.
  - apply H. now left.
  - rewrite IH1, IH2; auto; intros c Hc; apply H, in_or_app; auto.
  - apply IH. intros b Hb. apply H. now apply (Permutation_in _ P).
Qed.
(** equality up to the sign of zero is respected by the operations *)
Lemma sf_cases (x y : f32) : sf x y -> x = y \/ exists s s', x = B754_zero s /\ y = B754_zero s'.
Proof.
  intros [->|E]; auto. destruct x as [s|s| |s m e H], y as [s'|s'| |s' m' e' H']; try discriminate E; try (destruct s; discriminate E); try (destruct s'; discriminate E); eauto.
  - left. destruct s, s'; try discriminate E; reflexivity.
  - left. apply B2R_inj; try reflexivity. assert (G := Beqb_correct _ _ (B754_finite s m e H) (B754_finite s' m' e' H') eq_refl eq_refl). rewrite E in G. symmetry in G. now apply Req_bool_true_iff in G || (revert G; case Req_bool_spec; congruence).
Qed.
Lemma sf_refl (x : f32) : sf x x.
Proof. now left. Qed.
Lemma sf_zero s s' : @sf F32 (B754_zero s) (B754_zero s').
Proof. right. reflexivity. Qed.
Lemma add_sf (x x' y y' : f32) : sf x x' -> sf y y' -> sf (add x y) (add x' y').
Proof.
  intros Hx Hy. destruct (sf_cases _ _ Hx) as [->|(s & s' & -> & ->)], (sf_cases _ _ Hy) as [->|(t & t' & -> & ->)]; try apply sf_refl.
  - destruct x' as [u|u| |u m e H]; try apply sf_refl. destruct u, t, t'; apply sf_zero.
  - destruct y' as [u|u| |u m e H]; try apply sf_refl. destruct u, s, s'; apply sf_zero.
  - destruct s, s', t, t'; apply sf_zero.
Qed.
Lemma mul_sf (x x' y y' : f32) : sf x x' -> sf y y' -> sf (mul x y) (mul x' y').
Proof.
  intros Hx Hy. destruct (sf_cases _ _ Hx) as [->|(s & s' & -> & ->)], (sf_cases _ _ Hy) as [->|(t & t' & -> & ->)]; try apply sf_refl.
  - destruct x' as [u|u| |u m e H]; try apply sf_refl; apply sf_zero.
  - destruct y' as [u|u| |u m e H]; try apply sf_refl; apply sf_zero.
  - apply sf_zero.
Qed.
Lemma lt_zero s s' (y : f32) : Bltb (B754_zero s) y = Bltb (B754_zero s') y.
Proof. destruct y as [u|u| |u m e H]; try destruct u; reflexivity. Qed.
Lemma zero_lt s s' (y : f32) : Bltb y (B754_zero s) = Bltb y (B754_zero s').
Proof. destruct y as [u|u| |u m e H]; try destruct u; reflexivity. Qed.
Lemma fmax_sf (x x' y y' : f32) : sf x x' -> sf y y' -> sf (fmax x y) (fmax x' y').
Proof.
  intros Hx Hy. destruct (sf_cases _ _ Hx) as [->|(s & s' & -> & ->)], (sf_cases _ _ Hy) as [->|(t & t' & -> & ->)]; try apply sf_refl; unfold fmax.
  - cbn [is_nan]. rewrite (zero_lt t t'). destruct (is_nan x'); [apply sf_refl|]. destruct (Bltb x' _); [apply sf_zero|apply sf_refl].
  - cbn [is_nan]. rewrite (lt_zero s s'). destruct (is_nan y'); [apply sf_refl|]. destruct (Bltb _ y'); [apply sf_refl|apply sf_zero].
  - cbn [is_nan]. rewrite (lt_zero s s'), (zero_lt t t'). destruct (Bltb _ _); apply sf_zero.
Qed.
Lemma fmin_sf (x x' y y' : f32) : sf x x' -> sf y y' -> sf (fmin x y) (fmin x' y').
Proof.
  intros Hx Hy. destruct (sf_cases _ _ Hx) as [->|(s & s' & -> & ->)], (sf_cases _ _ Hy) as [->|(t & t' & -> & ->)]; try apply sf_refl; unfold fmin.
  - cbn [is_nan]. rewrite (lt_zero t t'). destruct (is_nan x'); [apply sf_refl|]. destruct (Bltb _ x'); [apply sf_zero|apply sf_refl].
  - cbn [is_nan]. rewrite (zero_lt s s'). destruct (is_nan y'); [apply sf_refl|]. destruct (Bltb y' _); [apply sf_refl|apply sf_zero].
  - cbn [is_nan]. rewrite (lt_zero t t'), (zero_lt s s'). destruct (Bltb _ _); apply sf_zero.
Qed.
Lemma fmax_inf (x : f32) : fmax x (B754_infinity true) = x /\ fmax (B754_infinity true) x = x.
Proof. unfold fmax. destruct x as [u|u| |u m e H]; try destruct u; split; reflexivity. Qed.
Lemma fmin_inf (x : f32) : fmin x (B754_infinity false) = x /\ fmin (B754_infinity false) x = x.
Proof. unfold fmin. destruct x as [u|u| |u m e H]; try destruct u; split; reflexivity. Qed.
(** counts are at least 1 *)
Definition one : f32 := of_Z F32 1.
Definition big (x : f32) : Prop := x = B754_infinity false \/ (is_finite x = true /\ (1 <= B2R x)%R).
Lemma big_max x : big x -> fmax x one = x.
Proof.
  unfold fmax, one. rewrite of_Z_nan. intros [->|[Fx Rx]].
  - cbn [is_nan]. destruct (one_spec F32) as (m & e & H & E & _). rewrite E. reflexivity.
  - destruct (of_Z_exact F32 1 ltac:(cbn; lia)) as [E1 F1]. rewrite Bltb_correct by auto. rewrite Rlt_bool_false by (rewrite E1; exact Rx). destruct x; try discriminate Fx; reflexivity.
Qed.
Lemma round_ge_1 r : (1 <= r)%R -> (1 <= Generic_fmt.round radix2 (fexpo F32) (round_mode mode_NE) r)%R.
Proof.
  intro H. assert (G1 : generic_format radix2 (fexpo F32) 1) by (apply (format_Z F32 1); cbn; lia).
  rewrite <- (Generic_fmt.round_generic radix2 (fexpo F32) (round_mode mode_NE) 1 G1) at 1. apply Generic_fmt.round_le; [apply fexp_correct; reflexivity|apply valid_rnd_round_mode|auto].
Qed.
Lemma big_of_Z c : (0 < c)%Z -> big (of_Z F32 c).
Proof.
  intro Hc. unfold of_Z, round_to. assert (B := binary_normalize_correct (prec F32) (emax F32) _ _ mode_NE c 0 false). unfold F2R in B. cbn [Fnum Fexp bpow] in B. rewrite Rmult_1_r in B.
  destruct (Rlt_bool _ _) eqn:E.
  - destruct B as (B1 & B2 & _). right. split; [exact B2|]. rewrite B1. apply round_ge_1. apply (IZR_le 1). lia.
  - left. rewrite (Rlt_bool_false (IZR c) 0) in B by (apply (IZR_le 0); lia). destruct (binary_normalize _ _ _ _ _ _ _ _) as [s|s| |s m e H]; try (cbn in B; discriminate B). cbn in B. injection B as ->. reflexivity.
Qed.
Definition fsqrt (x : f32) : f32 := Bsqrt mode_NE x.
Lemma big_sqrt x : big x -> big (fsqrt x).
Proof.
  intros [->|[Fx Rx]]; [left; reflexivity|]. right. assert (B := Bsqrt_correct (prec F32) (emax F32) _ _ mode_NE x). destruct B as (B1 & B2 & _). unfold fsqrt. split.
  - rewrite B2. destruct x as [s|s| |s m e H]; try discriminate Fx; [reflexivity|]. destruct s; [|reflexivity]. exfalso. cbn in Rx. assert (F2R (Float radix2 (Zneg m) e) < 0)%R by (apply F2R_lt_0; reflexivity). unfold cond_Zopp in Rx. cbn in Rx, H0. lra.
  - rewrite B1. apply round_ge_1. rewrite <- sqrt_1. apply sqrt_le_1; lra.
Qed.
Lemma nth_rep {B} (b d : B) w c : c < w -> nth c (repeat b w) d = b.
Proof. revert c. induction w as [|w IH]; intros [|c] H; cbn; auto; [lia|lia|apply IH; lia]. Qed.
Lemma map_rep {B C} (f : B -> C) b n : map f (repeat b n) = repeat (f b) n.
Proof. induction n; cbn; congruence. Qed.
Lemma all_same {B} (v : list B) e d w : length v = w -> (forall c, c < w -> nth c v d = e) -> v = repeat e w.
Proof. intros L H. subst w. induction v as [|a v IH]; [reflexivity|]. cbn. f_equal; [apply (H 0); cbn; lia|]. apply IH. intros c Hc. apply (H (Datatypes.S c)). cbn. lia. Qed.
Lemma choose {B} (P : nat -> B -> Prop) (d : B) w : (forall c, exists v, P c v) -> exists v, length v = w /\ forall c, c < w -> P c (nth c v d).
Proof.
  intro H. revert P H. induction w as [|w IH]; intros P H; [exists []; split; [reflexivity|lia]|].
  destruct (H 0) as [a Ha]. destruct (IH (fun c => P (Datatypes.S c))) as (v & L & G); [intro c; apply H|]. exists (a :: v). split; [cbn; congruence|]. intros [|c] Hc; cbn; [exact Ha|apply G; lia].
Qed.
Lemma one_one : mul (of_Z F32 1) (of_Z F32 1) = of_Z F32 1.
Proof.
  destruct (sf_cases _ _ (one_mul F32 (of_Z F32 1))) as [E|(s1 & s2 & E & _)]; [now symmetry|].
  destruct (one_spec F32) as (m & e & H & E' & _). rewrite E' in E. discriminate.
Qed.
