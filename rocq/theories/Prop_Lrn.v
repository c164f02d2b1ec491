(** C84: LRN, tf2onnx/onnx_opset/math.py:341-366 (model: LrnModel, specification: LrnSpec). *)
From Coq Require Import Reals List Arith ZArith Bool Lia Lra.
From Verif Require Import Tensor FoldModel OnnxSpec TensorProofs TOps TOpsProofs BnSpec BnModel BnProofs LrnSpec LrnModel LrnProofs.
Import ListNotations.
Local Open Scope R_scope.
Local Open Scope list_scope.

(** Every picture of any size and number of channels, every radius: the graph computes tf.nn.lrn, if alpha and beta are given *)
Theorem C84_lrn_is_lrn_partial a x n h w c : shape x = [n; h; w; c] -> wf x -> alpha a <> None -> beta a <> None ->
  exists y, lrn a x = Some y /\ tf_lrn (tf_radius a) (tf_bias a) (tf_alpha a) (tf_beta a) x y.
Proof.
  intros Sh W Na Nb. destruct a as [dr bi [al|] [be|]]; cbn [alpha beta] in Na, Nb; try congruence. unfold tf_alpha, tf_beta, tf_bias, tf_radius. cbn [alpha beta bias depth_radius default].
  apply (lrn_ok _ _ al (default (3 / 4) (Some be)) x n h w c); auto.
Qed.
Print Assumptions C84_lrn_is_lrn_partial.

Example four_channels : exists y, lrn (LrnAttrs (Some 1%nat) None (Some 2) (Some 1)) (Tensor [1; 1; 1; 4]%nat [1; 2; 3; 4]) = Some y /\ tf_lrn 1 1 2 1 (Tensor [1; 1; 1; 4]%nat [1; 2; 3; 4]) y.
Proof. apply (C84_lrn_is_lrn_partial (LrnAttrs (Some 1%nat) None (Some 2) (Some 1)) _ 1 1 1 4); try reflexivity; discriminate. Qed.

(** A beta that is left out is 0.5 for TensorFlow and 0.75 for the operator: one value 1, radius 0, alpha 1 gives 2 ^ -0.5 and 2 ^ -0.75 *)
Theorem C84_beta_left_out_refuted : exists x y, wf x /\ lrn (LrnAttrs (Some 0%nat) None (Some 1) None) x = Some y /\
  (exists y', tf_lrn 0 1 1 (tf_beta (LrnAttrs (Some 0%nat) None (Some 1) None)) x y') /\ ~ tf_lrn 0 1 1 (tf_beta (LrnAttrs (Some 0%nat) None (Some 1) None)) x y.
Proof.
  set (x := Tensor [1; 1; 1; 1]%nat [1]). assert (W : wf x) by reflexivity.
  destruct (lrn_ok (Some 0%nat) None 1 (3 / 4) x 1 1 1 1 (None) eq_refl W eq_refl) as (y & E & Y).
  exists x, y. split; [exact W|]. split; [exact E|]. unfold tf_beta. cbn [beta default]. split.
  - destruct (lrn_ok (Some 0%nat) None 1 (1 / 2) x 1 1 1 1 (Some (1 / 2)) eq_refl W eq_refl) as (y' & _ & Y'). exists y'. exact Y'.
  - destruct Y as (? & ? & ? & C & Sh & _ & _ & _ & Y). cbn [shape x] in Sh. injection Sh as <- <- <- <-. destruct (Y 0 0 0 0)%nat as (v & vs & Ev & Fv & Gy); [cbn; lia|].
    intros (? & ? & ? & C & Sh & _ & _ & _ & Z). cbn [shape x] in Sh. injection Sh as <- <- <- <-. destruct (Z 0 0 0 0)%nat as (u & us & Eu & Fu & Gz); [cbn; lia|].
    assert (v = 1) by (cbn in Ev; congruence). assert (u = 1) by (cbn in Eu; congruence). subst u v.
    assert (B : forall l, Forall2 (fun k u => get x [0; 0; 0; k]%nat = Some u) (near 1 0 0) l -> l = [1]).
    { intros l F. change (near 1 0 0) with [0%nat] in F. inversion F as [|p q l1 l2 F1 F2]; subst. inversion F2; subst. cbn in F1. congruence. }
    rewrite (B _ Fv) in Gy. rewrite (B _ Fu) in Gz. rewrite Gy in Gz. assert (Q := f_equal (fun o => match o with Some q => q | None => 0 end) Gz). cbv beta iota in Q. clear Gz.
    unfold squares, sum in Q. cbn [map fold_right default] in Q. replace (1 + 1 * (1 * 1 + 0)) with 2 in Q by lra.
    assert (P : Rpower 2 (1 / 2) < Rpower 2 (3 / 4)) by (apply Rpower_lt; lra). assert (Pos : 0 < Rpower 2 (1 / 2)) by apply exp_pos.
    assert (Rpower 2 (1 / 2) = Rpower 2 (3 / 4)); [|lra]. unfold Rdiv in Q. rewrite !Rmult_1_l in Q. rewrite <- (Rinv_inv (Rpower 2 (/ 2))) in Q at 1.
    unfold Rdiv. rewrite !Rmult_1_l. rewrite <- (Rinv_inv (Rpower 2 (/ 2))), <- (Rinv_inv (Rpower 2 (3 * / 4))). f_equal. rewrite Rinv_inv in Q. symmetry. exact Q.
Qed.
Print Assumptions C84_beta_left_out_refuted.

(** without alpha the conversion fails *)
Theorem C84_alpha_left_out_is_not_converted dr bi be x : lrn (LrnAttrs dr bi None be) x = None.
Proof. reflexivity. Qed.
