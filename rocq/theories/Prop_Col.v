(** C80: changing the hue and the saturation of an image gives TensorFlow's colours. *)
From Coq Require Import Reals List Arith Lra.
From Verif Require Import ColSpec ColModel ColProofs.
Import ListNotations.
Local Open Scope R_scope.
Local Open Scope list_scope.

(** AdjustHue: for every pixel of three non-negative channels and every delta of at least -1 (tf.image.adjust_hue takes -1 to 1), ties and grey
    pixels included, the graph yields what TensorFlow's way through hue, saturation and value yields.  (Over the real numbers; the handler
    writes 2/6 and 4/6 rounded.) *)
Theorem C80_hue : forall r g b delta, 0 <= r -> 0 <= g -> 0 <= b -> -1 <= delta ->
  vvalue [r; g; b] delta adjust_hue = Some (tf_hue delta r g b).
Proof. exact hue_graph. Qed.
(** AdjustSaturation: for every pixel of non-negative channels and every factor >= 0 the same, except for two of the six orders of the channels. *)
Theorem C80_saturation_partial : forall r g b factor, 0 <= r -> 0 <= g -> 0 <= b -> 0 <= factor -> ~ (r < b <= g) -> ~ (g <= r < b) ->
  vvalue [r; g; b] factor adjust_saturation = Some (tf_saturation factor r g b).
Proof.
  intros r g b factor R0 G0 B0 F N1 N2. apply saturation_right; auto; [rewrite order_120|rewrite order_201]; assumption.
Qed.
(** In those two orders the sorted channels are put back in the wrong places (GatherElements needs the inverse order): for every such pixel and
    every factor > 0 the colour is wrong. *)
Theorem C80_saturation_cycle_refuted : forall r g b factor, 0 <= r -> 0 <= g -> 0 <= b -> 0 < factor -> r < b <= g \/ g <= r < b ->
  vvalue [r; g; b] factor adjust_saturation <> Some (tf_saturation factor r g b).
Proof.
  intros r g b factor R0 G0 B0 F [H|H]; apply saturation_wrong; auto; [left; apply order_120|right; apply order_201]; exact H.
Qed.

(** ** Cases that meet the hypotheses *)
(** a pixel of each kind, and the specification on them: a third of the circle turns red into green; the factor 1 changes nothing *)
Example turned : tf_hue (2 / 6) 1 0 0 = [0; 1; 0].
Proof.
  unfold tf_hue, hue_of, range_of, value_of, saturation_of. unfold range_of, value_of.
  assert (E1 : Rmax 1 (Rmax 0 0) = 1) by cases_R. assert (E2 : Rmin 1 (Rmin 0 0) = 0) by cases_R. rewrite E1, E2.
  destruct (Rlt_dec 0 (1 - 0)); [|lra]. destruct (Req_EM_T 1 1); [|lra].
  replace ((0 - 0) / (1 - 0) / 6) with 0 by field. destruct (Rlt_dec 0 0); [lra|]. destruct (Rlt_dec 0 1); [|lra].
  rewrite (frac_unique (0 + 2 / 6) 0) by lra. unfold to_rgb, clamp01. cbn zeta. cbn [map].
  replace ((1 - 0) / 1) with 1 by field. apply list3; cases_R.
Qed.
Example the_hue : vvalue [1; 0; 0] (2 / 6) adjust_hue = Some [0; 1; 0].
Proof. rewrite C80_hue by lra. rewrite turned. reflexivity. Qed.
Example kept : forall r g b, 0 <= r -> 0 <= g -> 0 <= b -> 0 < range_of r g b -> tf_saturation 1 r g b = [r; g; b].
Proof.
  intros r g b R0 G0 B0 D. rewrite tf_saturation_is by lra. cbn [map]. unfold resaturated, share, new_delta. rewrite Rmult_1_r.
  assert (E : Rmin (range_of r g b) (value_of r g b) = range_of r g b) by (apply Rmin_left; unfold range_of; assert (0 <= Rmin r (Rmin g b)) by cases_R; lra).
  rewrite E. assert (X : value_of r g b - range_of r g b = Rmin r (Rmin g b)) by (unfold range_of; ring). rewrite X. apply list3; field; lra.
Qed.
(** the factor 1 swaps the colours of this pixel *)
Example swapped : vvalue [1 / 5; 4 / 5; 1 / 2] 1 adjust_saturation = Some [1 / 2; 1 / 5; 4 / 5].
Proof.
  rewrite saturation_graph by lra. assert (T : top [1 / 5; 4 / 5; 1 / 2] = [1; 2; 0]%nat) by (apply order_120; lra). unfold mid_of, resaturated, share, new_delta. rewrite T. cbn [map nth].
  assert (E1 : value_of (1 / 5) (4 / 5) (1 / 2) = 4 / 5) by (unfold value_of; cases_R). assert (E2 : Rmin (1 / 5) (Rmin (4 / 5) (1 / 2)) = 1 / 5) by cases_R.
  unfold range_of. rewrite E1, E2. destruct (Rlt_dec _ _); [|lra]. cbn [nth]. assert (E3 : Rmin ((4 / 5 - 1 / 5) * 1) (4 / 5) = 3 / 5) by cases_R. rewrite E3. f_equal. apply list3; field.
Qed.
Example orders : ~ (1 / 5 < 1 / 10 <= 4 / 5) /\ ~ (4 / 5 <= 1 / 5 < 1 / 10).
Proof. split; lra. Qed.

Print Assumptions C80_hue.
Print Assumptions C80_saturation_partial.
Print Assumptions C80_saturation_cycle_refuted.
