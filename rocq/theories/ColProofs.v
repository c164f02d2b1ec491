(** What the graphs of ColModel compute. *)
From Coq Require Import Reals List Arith Lra Lia.
From Verif Require Import ColSpec ColModel.
Import ListNotations.
Local Open Scope R_scope.
Local Open Scope list_scope.

Lemma frac_unique : forall r z, 0 <= r - IZR z < 1 -> frac_part r = r - IZR z.
Proof.
  intros r z H. unfold frac_part, Int_part.
  assert (E : (up r = z + 1)%Z).
  { symmetry. apply tech_up; rewrite plus_IZR; lra. }
  rewrite E. replace (z + 1 - 1)%Z with z by lia. reflexivity.
Qed.
Lemma frac_bounds : forall r, 0 <= frac_part r < 1.
Proof. intro r. destruct (base_fp r). lra. Qed.
Lemma frac_form : forall r, exists z, frac_part r = r - IZR z.
Proof. intro r. exists (Int_part r). reflexivity. Qed.
Lemma frac_succ : forall r, frac_part (r + 1) = frac_part r.
Proof.
  intro r. destruct (frac_form r) as [z E]. pose proof (frac_bounds r) as B. rewrite (frac_unique (r + 1) (z + 1)); rewrite plus_IZR; lra.
Qed.
Lemma frac_shift : forall r c, 0 <= c < 1 -> frac_part (r + c) = if Rlt_dec (frac_part r + c) 1 then frac_part r + c else frac_part r + c - 1.
Proof.
  intros r c C. destruct (frac_form r) as [z E]. pose proof (frac_bounds r) as B. destruct (Rlt_dec _ _) as [L|L].
  - rewrite (frac_unique (r + c) z); lra.
  - rewrite (frac_unique (r + c) (z + 1)); rewrite plus_IZR; lra.
Qed.

(** the three ramps of the colour circle, as the converter writes them *)
Definition ramp (x off : R) : R := Rmax 0 (Rmin 1 (Rabs (frac_part (x + off) - / 2) * 6 - 1)).
Ltac flat t := lazymatch t with context [Rle_dec _ _] => fail | context [Rcase_abs _] => fail | _ => idtac end.
Ltac cases_R := unfold Rmax, Rmin, Rabs; repeat match goal with |- context [Rle_dec ?a ?b] => flat a; flat b; destruct (Rle_dec a b) | |- context [Rcase_abs ?a] => flat a; destruct (Rcase_abs a) end; try lra.
Lemma ramps : forall x, let dh := 6 * frac_part x in
  ramp x 0 = clamp01 (Rabs (dh - 3) - 1) /\ ramp x (4 / 6) = clamp01 (2 - Rabs (dh - 2)) /\ ramp x (2 / 6) = clamp01 (2 - Rabs (dh - 4)).
Proof.
  intro x. cbn zeta. unfold ramp, clamp01. pose proof (frac_bounds x) as B. rewrite Rplus_0_r.
  rewrite !(frac_shift x) by lra. repeat split.
  - set (f := frac_part x) in *. clearbody f. cases_R.
  - set (f := frac_part x) in *. clearbody f. destruct (Rlt_dec _ _); cases_R.
  - set (f := frac_part x) in *. clearbody f. destruct (Rlt_dec _ _); cases_R.
Qed.

(** where a channel lies between the smallest and the largest *)
Definition share (r g b c : R) : R := (c - Rmin r (Rmin g b)) / range_of r g b.
Lemma range_nonneg : forall r g b, 0 <= range_of r g b.
Proof. intros. unfold range_of, value_of. cases_R. Qed.
Lemma share_bounds : forall r g b c, 0 < range_of r g b -> Rmin r (Rmin g b) <= c <= value_of r g b -> 0 <= share r g b c <= 1.
Proof.
  intros r g b c D [L U]. unfold share. split.
  - apply Rmult_le_reg_r with (r := range_of r g b); [exact D|]. unfold Rdiv. rewrite Rmult_assoc, Rinv_l by lra. lra.
  - apply Rmult_le_reg_r with (r := range_of r g b); [exact D|]. unfold Rdiv. rewrite Rmult_assoc, Rinv_l by lra. unfold range_of. lra.
Qed.
Lemma in_range : forall r g b, (Rmin r (Rmin g b) <= r <= value_of r g b) /\ (Rmin r (Rmin g b) <= g <= value_of r g b) /\ (Rmin r (Rmin g b) <= b <= value_of r g b).
Proof. intros. unfold value_of. repeat split; cases_R. Qed.

(** the angle the converter reads off the order of the channels is the hue *)
Lemma sorted_cases : forall r g b,
  (top [r; g; b] = [0; 1; 2]%nat /\ g <= r /\ b <= g) \/ (top [r; g; b] = [0; 2; 1]%nat /\ b <= r /\ g < b) \/
  (top [r; g; b] = [1; 0; 2]%nat /\ r < g /\ b <= r) \/ (top [r; g; b] = [1; 2; 0]%nat /\ b <= g /\ r < b) \/
  (top [r; g; b] = [2; 0; 1]%nat /\ r < b /\ g <= r) \/ (top [r; g; b] = [2; 1; 0]%nat /\ g < b /\ r < g).
Proof.
  intros r g b. unfold top. cbn [length seq fold_right insert nth].
  destruct (Rle_dec b g); cbn [insert nth].
  - destruct (Rle_dec g r); [left; repeat split; lra|]. cbn [insert nth]. destruct (Rle_dec b r); [do 2 right; left|do 3 right; left]; repeat split; lra.
  - destruct (Rle_dec b r); [right; left; repeat split; lra|]. cbn [insert nth]. destruct (Rle_dec g r); [do 4 right; left|do 5 right]; repeat split; lra.
Qed.
Definition mid_of (r g b : R) : R := nth (nth 1 (top [r; g; b]) 0%nat) [r; g; b] 0.
Definition initial (r g b : R) : R := (mid_of r g b - Rmin r (Rmin g b)) / range_of r g b * parity_lookup (top [r; g; b]) + sector_lookup (top [r; g; b]).
Ltac minmax := repeat match goal with
  | |- context [Rmax ?a ?b] => first [rewrite (Rmax_left a b) by lra | rewrite (Rmax_right a b) by lra]
  | |- context [Rmin ?a ?b] => first [rewrite (Rmin_left a b) by lra | rewrite (Rmin_right a b) by lra]
  end.
Ltac minmaxH H := repeat match type of H with
  | context [Rmax ?a ?b] => first [rewrite (Rmax_left a b) in H by lra | rewrite (Rmax_right a b) in H by lra]
  | context [Rmin ?a ?b] => first [rewrite (Rmin_left a b) in H by lra | rewrite (Rmin_right a b) in H by lra]
  end.
Lemma neg_quot : forall a d, 0 < d -> a <= 0 -> a / d <= 0.
Proof. intros a d D A. apply Rmult_le_reg_r with (r := d); [exact D|]. unfold Rdiv. rewrite Rmult_assoc, Rinv_l by lra. lra. Qed.
Lemma pos_quot : forall a d, 0 < d -> 0 <= a -> 0 <= a / d.
Proof. intros a d D A. apply Rmult_le_reg_r with (r := d); [exact D|]. unfold Rdiv. rewrite Rmult_assoc, Rinv_l by lra. lra. Qed.
Lemma le1_quot : forall a d, 0 < d -> a <= d -> a / d <= 1.
Proof. intros a d D A. apply Rmult_le_reg_r with (r := d); [exact D|]. unfold Rdiv. rewrite Rmult_assoc, Rinv_l by lra. lra. Qed.
Lemma ltneg_quot : forall a d, 0 < d -> a < 0 -> a / d < 0.
Proof. intros a d D A. apply Rmult_lt_reg_r with (r := d); [exact D|]. unfold Rdiv. rewrite Rmult_assoc, Rinv_l by lra. lra. Qed.
Lemma gem1_quot : forall a d, 0 < d -> - d <= a -> -1 <= a / d.
Proof. intros a d D A. apply Rmult_le_reg_r with (r := d); [exact D|]. unfold Rdiv. rewrite Rmult_assoc, Rinv_l by lra. lra. Qed.
(** the hue of a pixel: the share of the middle channel, in the sector the order tells *)
Lemma hue_sector : forall r g b, 0 < range_of r g b -> let t := share r g b (mid_of r g b) in
  0 <= t <= 1 /\ hue_of r g b = t * parity_lookup (top [r; g; b]) + sector_lookup (top [r; g; b]).
Proof.
  intros r g b D t. split.
  { apply share_bounds; [exact D|]. destruct (in_range r g b) as [A [B C]]. unfold mid_of. destruct (sorted_cases r g b) as [[E _]|[[E _]|[[E _]|[[E _]|[[E _]|[E _]]]]]]; rewrite E; cbn; assumption. }
  subst t. unfold hue_of, share, mid_of. destruct (Rlt_dec 0 (range_of r g b)); [|lra].
  unfold range_of, value_of in *.
  destruct (sorted_cases r g b) as [[E [A B]]|[[E [A B]]|[[E [A B]]|[[E [A B]]|[[E [A B]]|[E [A B]]]]]]]; rewrite E; cbn [nth sector_lookup parity_lookup]; minmax; minmaxH D.
  - destruct (Req_EM_T r r); [|lra]. assert (0 <= (g - b) / (r - b)) by (apply pos_quot; lra). destruct (Rlt_dec _ 0); lra.
  - destruct (Req_EM_T r r); [|lra]. replace ((g - b) / (r - g)) with (- ((b - g) / (r - g))) by (field; lra).
    assert ((g - b) / (r - g) < 0) by (apply ltneg_quot; lra).
    assert (X : (b - g) / (r - g) > 0) by (replace ((b - g) / (r - g)) with (- ((g - b) / (r - g))) by (field; lra); lra). destruct (Rlt_dec _ 0); lra.
  - destruct (Req_EM_T g r); [lra|]. destruct (Req_EM_T g g); [|lra]. replace ((b - r) / (g - b)) with (- ((r - b) / (g - b))) by (field; lra).
    assert ((r - b) / (g - b) <= 1) by (apply le1_quot; lra). destruct (Rlt_dec _ 0); lra.
  - destruct (Req_EM_T g r); [lra|]. destruct (Req_EM_T g g); [|lra].
    assert (0 <= (b - r) / (g - r)) by (apply pos_quot; lra). destruct (Rlt_dec _ 0); lra.
  - destruct (Req_EM_T b r); [lra|]. destruct (Req_EM_T b g); [lra|].
    assert (0 <= (r - g) / (b - g)) by (apply pos_quot; lra). destruct (Rlt_dec _ 0); lra.
  - destruct (Req_EM_T b r); [lra|]. destruct (Req_EM_T b g); [lra|]. replace ((r - g) / (b - r)) with (- ((g - r) / (b - r))) by (field; lra).
    assert ((g - r) / (b - r) <= 1) by (apply le1_quot; lra). destruct (Rlt_dec _ 0); lra.
Qed.

(** going to hue and back *)
Lemma rgb_of_hue : forall r g b s, 0 < range_of r g b ->
  to_rgb (hue_of r g b) s (value_of r g b) = map (fun c => ((1 - s) + s * share r g b c) * value_of r g b) [r; g; b].
Proof.
  intros r g b s D. destruct (hue_sector r g b D) as [T E]. cbn zeta in *. unfold to_rgb. cbn zeta. cbn [map]. rewrite E. clear E.
  assert (X : forall a a' c c' e e' : R, a = a' -> c = c' -> e = e' ->
     [((1 - s) + s * a) * value_of r g b; ((1 - s) + s * c) * value_of r g b; ((1 - s) + s * e) * value_of r g b] =
     [((1 - s) + s * a') * value_of r g b; ((1 - s) + s * c') * value_of r g b; ((1 - s) + s * e') * value_of r g b]) by (intros; subst; reflexivity).
  apply X; clear X; revert T; unfold share, mid_of, range_of, value_of, clamp01 in *;
  destruct (sorted_cases r g b) as [[E [A B]]|[[E [A B]]|[[E [A B]]|[[E [A B]]|[[E [A B]]|[E [A B]]]]]]]; rewrite E; cbn [nth sector_lookup parity_lookup]; minmax; minmaxH D; intro T;
  repeat match goal with
  | |- context [(?x - ?x) / ?d] => replace ((x - x) / d) with 0 by (field; lra)
  | |- context [?x / ?x] => replace (x / x) with 1 by (field; lra)
  | |- context [?x / ?y] => match y with 6 => fail 1 | _ => let q := fresh "q" in set (q := x / y) in *; clearbody q end
  end; cases_R.
Qed.

(** ** The graphs *)
Lemma list3 : forall a b c a' b' c' : R, a = a' -> b = b' -> c = c' -> [a; b; c] = [a'; b'; c'].
Proof. intros; subst; reflexivity. Qed.
Lemma stretch1 : forall n v, stretch n [v] = repeat v n.
Proof. reflexivity. Qed.
Lemma grey : forall r g b, range_of r g b = 0 -> r = value_of r g b /\ g = value_of r g b /\ b = value_of r g b /\ Rmin r (Rmin g b) = value_of r g b.
Proof. intros r g b. unfold range_of, value_of. intro D. repeat split; revert D; cases_R. Qed.
Lemma top_values : forall r g b, map (fun i => nth i [r; g; b] 0) (top [r; g; b]) = [value_of r g b; mid_of r g b; Rmin r (Rmin g b)].
Proof.
  intros r g b. unfold mid_of, value_of.
  destruct (sorted_cases r g b) as [[E [A B]]|[[E [A B]]|[[E [A B]]|[[E [A B]]|[[E [A B]]|[E [A B]]]]]]]; rewrite E; cbn [map nth]; minmax; reflexivity.
Qed.
Lemma hue_graph : forall r g b delta, 0 <= r -> 0 <= g -> 0 <= b -> -1 <= delta -> vvalue [r; g; b] delta adjust_hue = Some (tf_hue delta r g b).
Proof.
  intros r g b delta R0 G0 B0 Dl. unfold adjust_hue. cbn [vvalue option_map]. rewrite !top_values. cbn [option_map].
  set (v := value_of r g b) in *. set (m := Rmin r (Rmin g b)) in *. set (md := mid_of r g b) in *.
  cbn [nth wide length Nat.max stretch repeat map2 vbin].
  assert (Ed : v - m = range_of r g b) by reflexivity. rewrite Ed.
  set (d := range_of r g b) in *.
  assert (V0 : 0 <= v) by (unfold v, value_of; cases_R).
  assert (D0 : 0 <= d) by apply range_nonneg.
  destruct (Req_EM_T d 0) as [D|D].
  - (* grey *)
    destruct (grey r g b D) as [E1 [E2 [E3 E4]]]. fold v in E1, E2, E3, E4. fold m in E4.
    assert (Et : top [r; g; b] = [0; 1; 2]%nat).
    { destruct (sorted_cases r g b) as [[E _]|[[E [A B]]|[[E [A B]]|[[E [A B]]|[[E [A B]]|[E [A B]]]]]]]; [exact E| | | | |]; lra. }
    rewrite Et. cbn [sector_lookup parity_lookup].
    destruct (Req_EM_T (d + 1) 0); [lra|]. cbn [option_map map map2 fmod wide length Nat.max stretch repeat vbin].
    unfold fmod. destruct (Rlt_dec 0 1); [|lra]. cbn [map2 wide length Nat.max stretch repeat option_map map vbin]. unfold wide. cbn [map2 wide length Nat.max stretch repeat option_map map vbin].
    unfold tf_hue, to_rgb. cbn zeta. cbn [map]. rewrite D. f_equal.
    assert (S0 : saturation_of r g b = 0). { unfold saturation_of. fold v d. destruct (Rlt_dec 0 v); [|reflexivity]. rewrite D. unfold Rdiv. apply Rmult_0_l. }
    rewrite S0. fold v. rewrite !Rmult_0_r, !Rmult_0_l, !Rplus_0_l, E4. apply list3; ring.
  - destruct (Req_EM_T (d + 0) 0); [lra|].
    assert (Dp : 0 < d) by lra.
    destruct (hue_sector r g b Dp) as [T E]. cbn zeta in E, T. fold md in E, T. unfold share in E, T. fold m d in E, T.
    set (sec := sector_lookup (top [r; g; b])) in *. set (par := parity_lookup (top [r; g; b])) in *.
    cbn [option_map map map2 fmod wide length Nat.max stretch repeat vbin].
    replace ((md - m) / (d + 0)) with ((md - m) / d) by (rewrite Rplus_0_r; reflexivity). rewrite <- E.
    unfold fmod. destruct (Rlt_dec 0 1); [|lra]. unfold wide. cbn [map2 wide length Nat.max stretch repeat option_map map vbin].
    assert (H0 : 0 <= hue_of r g b). { unfold hue_of. fold v d. destruct (Rlt_dec 0 d); [|lra]. cbn zeta. match goal with |- 0 <= (if Rlt_dec ?h 0 then _ else _) => destruct (Rlt_dec h 0); [|lra] end.
      assert (-1 <= (g - b) / d) by (apply gem1_quot; [lra|]; unfold d, range_of, value_of; cases_R).
      assert (-1 <= (b - r) / d) by (apply gem1_quot; [lra|]; unfold d, range_of, value_of; cases_R).
      assert (-1 <= (r - g) / d) by (apply gem1_quot; [lra|]; unfold d, range_of, value_of; cases_R).
      destruct (Req_EM_T v r); [lra|]. destruct (Req_EM_T v g); lra. }
    set (h := hue_of r g b) in *.
    destruct (ramps (h + (delta + 1))) as [Ra [Rb Rc]]. unfold ramp in Ra, Rb, Rc. cbn zeta in Ra, Rb, Rc.
    assert (F : forall o, 0 <= o -> (if Rle_dec 0 (h + (delta + 1) + o) then 1 * frac_part ((h + (delta + 1) + o) / 1) else - (1 * frac_part (- (h + (delta + 1) + o) / 1))) = frac_part (h + (delta + 1) + o)).
    { intros o O. destruct (Rle_dec _ _) as [|N]; [|lra]. rewrite Rmult_1_l. f_equal. field. }
    rewrite !F by lra. rewrite Ra, Rb, Rc. unfold tf_hue. cbn zeta.
    replace (frac_part (h + (delta + 1))) with (frac_part (h + delta)) by (rewrite <- Rplus_assoc; symmetry; apply frac_succ).
    fold h. unfold to_rgb. cbn zeta. cbn [map].
    assert (Vp : 0 < v). { assert (m <= r) by (unfold m; cases_R). assert (0 <= m) by (unfold m; cases_R). lra. }
    assert (Es : saturation_of r g b = d / v). { unfold saturation_of. fold v d. destruct (Rlt_dec 0 v); [reflexivity|lra]. }
    rewrite Es. fold v.
    assert (X : forall c, c * d + m = (1 - d / v + d / v * c) * v). { intro c. replace m with (v - d) by lra. field. lra. }
    rewrite !X. reflexivity.
Qed.

(** ** Saturation *)
Definition new_delta (factor r g b : R) : R := Rmin (range_of r g b * factor) (value_of r g b).
Lemma scaled : forall factor r g b, 0 <= r -> 0 <= g -> 0 <= b -> 0 <= factor -> 0 < value_of r g b ->
  clamp01 (saturation_of r g b * factor) * value_of r g b = new_delta factor r g b.
Proof.
  intros factor r g b R0 G0 B0 F V. unfold saturation_of, new_delta. destruct (Rlt_dec 0 _); [|lra].
  assert (D0 := range_nonneg r g b). set (d := range_of r g b) in *. set (v := value_of r g b) in *.
  assert (0 <= d * factor) by (apply Rmult_le_pos; lra).
  assert (E : d / v * factor = d * factor / v) by (field; lra). rewrite E.
  assert (0 <= d * factor / v) by (apply pos_quot; lra).
  unfold clamp01. rewrite (Rmax_right 0) by (unfold Rmin; destruct (Rle_dec _ _); lra).
  destruct (Rle_dec (d * factor) v) as [L|L].
  - rewrite (Rmin_right 1), (Rmin_left (d * factor)); [field; lra|exact L|apply le1_quot; lra].
  - rewrite (Rmin_left 1), (Rmin_right (d * factor)); [lra|lra|]. apply Rmult_le_reg_r with (r := v); [exact V|]. unfold Rdiv. rewrite Rmult_assoc, Rinv_l by lra. lra.
Qed.
(** what TensorFlow makes of every channel *)
Definition resaturated (factor r g b c : R) : R :=
  value_of r g b - new_delta factor r g b + new_delta factor r g b * share r g b c.
Lemma tf_saturation_is : forall factor r g b, 0 <= r -> 0 <= g -> 0 <= b -> 0 <= factor -> 0 < range_of r g b ->
  tf_saturation factor r g b = map (resaturated factor r g b) [r; g; b].
Proof.
  intros factor r g b R0 G0 B0 F D. unfold tf_saturation. rewrite rgb_of_hue by exact D.
  assert (V : 0 < value_of r g b). { revert D. unfold range_of. assert (0 <= Rmin r (Rmin g b)) by cases_R. lra. }
  apply map_ext. intro c. unfold resaturated. rewrite <- (scaled factor r g b) by assumption. ring.
Qed.
(** and what the graph makes: the sorted channels treated, then gathered at the places of the sorted pixel *)
Lemma saturation_graph : forall factor r g b, 0 <= r -> 0 <= g -> 0 <= b -> 0 <= factor ->
  vvalue [r; g; b] factor adjust_saturation =
  Some (map (fun i => nth i (if Rlt_dec 0 (range_of r g b) then map (resaturated factor r g b) [value_of r g b; mid_of r g b; Rmin r (Rmin g b)] else repeat (value_of r g b) 3) 0) (top [r; g; b])).
Proof.
  intros factor r g b R0 G0 B0 F. unfold adjust_saturation. cbn [vvalue option_map]. rewrite !top_values. cbn [option_map].
  unfold resaturated, share, new_delta.
  assert (Mm : mid_of r g b - Rmin r (Rmin g b) = mid_of r g b - Rmin r (Rmin g b)) by reflexivity.
  pose proof (grey r g b) as Gr.
  assert (Et : range_of r g b = 0 -> mid_of r g b = Rmin r (Rmin g b)).
  { intro D. destruct (Gr D) as [E1 [E2 [E3 E4]]]. rewrite E4. unfold mid_of. destruct (sorted_cases r g b) as [[E _]|[[E _]|[[E _]|[[E _]|[[E _]|[E _]]]]]]; rewrite E; cbn [nth]; assumption. }
  assert (D0 := range_nonneg r g b).
  assert (V0 : 0 <= value_of r g b) by (unfold value_of; cases_R).
  set (v := value_of r g b) in *. set (m := Rmin r (Rmin g b)) in *. set (md := mid_of r g b) in *.
  assert (Ed : v - m = range_of r g b) by reflexivity.
  set (d := range_of r g b) in *. clearbody d.
  cbn [nth wide length Nat.max stretch repeat map2 vbin]. rewrite Ed.
  destruct (Req_EM_T d 0) as [D|D].
  - rewrite (Et D). destruct (Req_EM_T (d + 1) 0); [lra|]. unfold wide. cbn [map2 vbin app length Nat.eqb Nat.max stretch repeat].
    destruct (Rlt_dec 0 d); [lra|]. f_equal. apply map_ext. intro i. cbn [repeat]. rewrite D, Rmult_0_l, (Rmin_left 0 v) by exact V0. replace (m - m) with 0 by ring. rewrite Rmult_0_l. replace (v - 0 + 0) with v by ring. replace (v - 0) with v by ring. reflexivity.
  - destruct (Req_EM_T (d + 0) 0); [lra|]. unfold wide. cbn [map2 vbin app length Nat.eqb Nat.max stretch repeat].
    destruct (Rlt_dec 0 d); [|lra]. f_equal. apply map_ext. intro i. f_equal. cbn [map].
    replace (v - m) with d by lra. apply list3; field; lra.
Qed.
(** the order of the channels is its own inverse, or two of the channels in it are equal where it matters *)
Lemma saturation_right : forall factor r g b, 0 <= r -> 0 <= g -> 0 <= b -> 0 <= factor -> top [r; g; b] <> [1; 2; 0]%nat -> top [r; g; b] <> [2; 0; 1]%nat ->
  vvalue [r; g; b] factor adjust_saturation = Some (tf_saturation factor r g b).
Proof.
  intros factor r g b R0 G0 B0 F N1 N2. rewrite saturation_graph by assumption. f_equal. destruct (Rlt_dec 0 (range_of r g b)) as [D|D].
  - rewrite tf_saturation_is by assumption. unfold mid_of, value_of.
    set (f := resaturated factor r g b). clearbody f.
    destruct (sorted_cases r g b) as [[E [A B]]|[[E [A B]]|[[E [A B]]|[[E [A B]]|[[E [A B]]|[E [A B]]]]]]]; try contradiction; rewrite E; cbn [map nth]; minmax; reflexivity.
  - assert (Z : range_of r g b = 0) by (pose proof (range_nonneg r g b); lra).
    destruct (grey r g b Z) as [E1 [E2 [E3 E4]]].
    assert (Et : top [r; g; b] = [0; 1; 2]%nat).
    { destruct (sorted_cases r g b) as [[E _]|[[E [A B]]|[[E [A B]]|[[E [A B]]|[[E [A B]]|[E [A B]]]]]]]; [exact E| | | | |]; lra. }
    rewrite Et. cbn [map nth repeat]. unfold tf_saturation, to_rgb.
    assert (S0 : saturation_of r g b = 0). { unfold saturation_of. destruct (Rlt_dec 0 _); [|reflexivity]. rewrite Z. unfold Rdiv. apply Rmult_0_l. }
    rewrite S0, Rmult_0_l. assert (C : clamp01 0 = 0) by (unfold clamp01; cases_R). rewrite C. cbn zeta. cbn [map]. apply list3; ring.
Qed.
Lemma saturation_wrong : forall factor r g b, 0 <= r -> 0 <= g -> 0 <= b -> 0 < factor -> top [r; g; b] = [1; 2; 0]%nat \/ top [r; g; b] = [2; 0; 1]%nat ->
  vvalue [r; g; b] factor adjust_saturation <> Some (tf_saturation factor r g b).
Proof.
  intros factor r g b R0 G0 B0 F T. rewrite saturation_graph by lra.
  assert (D : 0 < range_of r g b).
  { destruct (sorted_cases r g b) as [[E [A B]]|[[E [A B]]|[[E [A B]]|[[E [A B]]|[[E [A B]]|[E [A B]]]]]]]; rewrite E in T; destruct T as [T|T]; try discriminate T; unfold range_of, value_of; minmax; lra. }
  destruct (Rlt_dec 0 _) as [_|]; [|lra]. rewrite tf_saturation_is by lra. intro X. injection X as X.
  assert (N : 0 < new_delta factor r g b).
  { unfold new_delta. assert (0 < range_of r g b * factor) by (apply Rmult_lt_0_compat; lra). assert (0 <= Rmin r (Rmin g b)) by cases_R. unfold range_of in D. unfold Rmin at 1. destruct (Rle_dec _ _); lra. }
  assert (Inj : forall x y, resaturated factor r g b x = resaturated factor r g b y -> x = y).
  { intros x y E. unfold resaturated in E. assert (E' : new_delta factor r g b * share r g b x = new_delta factor r g b * share r g b y) by lra. apply Rmult_eq_reg_l in E'; [|lra]. unfold share, Rdiv in E'. apply Rmult_eq_reg_r in E'; [lra|]. apply Rinv_neq_0_compat. lra. }
  set (f := resaturated factor r g b) in *. clearbody f. revert X. unfold mid_of, value_of.
  destruct (sorted_cases r g b) as [[E [A B]]|[[E [A B]]|[[E [A B]]|[[E [A B]]|[[E [A B]]|[E [A B]]]]]]]; rewrite E in T; destruct T as [T|T]; try discriminate T; rewrite E; cbn [map nth]; minmax; intro X; injection X as X1 X2 X3.
  - apply Inj in X1. lra.
  - apply Inj in X2. lra.
Qed.
Lemma order_120 : forall r g b, top [r; g; b] = [1; 2; 0]%nat <-> r < b <= g.
Proof. intros r g b. split; [|intro H]; destruct (sorted_cases r g b) as [[E [A B]]|[[E [A B]]|[[E [A B]]|[[E [A B]]|[[E [A B]]|[E [A B]]]]]]]; rewrite ?E; intros; try discriminate; try reflexivity; lra. Qed.
Lemma order_201 : forall r g b, top [r; g; b] = [2; 0; 1]%nat <-> g <= r < b.
Proof. intros r g b. split; [|intro H]; destruct (sorted_cases r g b) as [[E [A B]]|[[E [A B]]|[[E [A B]]|[[E [A B]]|[[E [A B]]|[E [A B]]]]]]]; rewrite ?E; intros; try discriminate; try reflexivity; lra. Qed.
