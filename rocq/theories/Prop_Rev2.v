(** C62: ReverseV2 becomes an ONNX expression with the value of tf.reverse. *)
From Coq Require Import List Arith ZArith Bool Lia Permutation Sorted.
From Verif Require Import Tensor FoldModel OnnxSpec TensorProofs TOps TOpsProofs TOpsProofs2 SpaceModel SpaceProofs2 RollModel Rev2Model Rev2Spec Rev2Proofs.
Import ListNotations.
Local Open Scope list_scope.

(** For every opset from 10, every element type, tensor (also with empty dimensions) and list of axes for which
    tf.reverse is defined: the handler accepts the node, and the expression it leaves has the value of tf.reverse. *)
Theorem C62_reverse : forall (A : Type) (zero : A) opset (x y : tensor A) axes others,
  10 <= opset -> wf x ->
  tf_reverse axes x = Some y ->
  exists e, reverse_v2 opset (Some (length (shape x))) (Vector axes) = Some e /\
    eval zero opset (D x :: others) e = Some (D y).
Proof.
  intros A zero opset x y axes others O Wx TF. unfold tf_reverse in TF.
  destruct (norm_axes (length (shape x)) axes) as [ax|] eqn:En; [|discriminate]. destruct (distinct ax) eqn:Dx; [|discriminate].
  apply distinct_NoDup in Dx. destruct (build_spec _ _ _ TF) as (Sy & Wy & Gy). destruct (norm_all_ok _ _ _ En) as [Na Fa]. rewrite Forall_forall in Fa.
  unfold reverse_v2. rewrite (proj2 (Nat.ltb_ge opset 10) O).
  destruct axes as [|a axes].
  - injection En as <-. eexists. split; [reflexivity|]. cbn [eval nth_error]. do 2 f_equal. apply tensor_ext; auto. intros ix Hi. rewrite Gy by auto.
    rewrite mirrored_nil; auto. now apply inb_length.
  - destruct (Nat.eqb_spec (length (shape x)) 1) as [L1|N1].
    + assert (E : ax = [0] /\ axes = [] /\ (a = -1 \/ a = 0)%Z).
      { rewrite L1 in En. cbn [norm_axes] in En. destruct (norm_axis 1 a) as [n|] eqn:E; [|discriminate]. destruct (norm_axes 1 axes) as [ns|] eqn:E'; [|discriminate].
        injection En as <-. assert (n = 0) by (specialize (Fa n (or_introl eq_refl)); lia). subst n. unfold norm_axis in E.
        assert (a = -1 \/ a = 0)%Z. { destruct (Z.leb_spec 0 a); [destruct (Z.ltb_spec a (Z.of_nat 1)); [lia|discriminate]|destruct (Z.leb_spec (- Z.of_nat 1) a); [lia|discriminate]]. }
        destruct ns as [|n ns]; [destruct axes as [|b axes]; auto|].
        - cbn [norm_axes] in E'. destruct (norm_axis 1 b); [|discriminate]. destruct (norm_axes 1 axes); discriminate.
        - exfalso. inversion Dx as [|? ? N _]; subst. apply N. specialize (Fa n (or_intror (or_introl eq_refl))). left. lia. }
      destruct E as (-> & -> & Ha).
      assert (Hb : Z.eqb a (-1) || Z.eqb a 0 = true) by (destruct Ha as [-> | ->]; reflexivity). rewrite Hb. eexists. split; [reflexivity|].
      destruct (shape x) as [|d [|]] eqn:Sx; try discriminate.
      set (env := D x :: others). set (u := Tensor [1; d] (data x)).
      assert (Wu : wf u) by (unfold wf, u in *; cbn [shape data]; rewrite Wx, Sx, !size_cons; lia).
      assert (Eu : eval zero opset env (make_unsqueeze opset [0%Z] (Inp 0)) = Some (D u)).
      { rewrite (ev_unsqueeze zero opset env [0%Z] (Inp 0) (D x) eq_refl). cbn [lift]. assert (U := unsqueeze_mid [] [d] x Sx). cbn [length Z.of_nat app] in U. rewrite U. reflexivity. }
      destruct (reverse_axes_ok zero opset env (make_unsqueeze opset [0%Z] (Inp 0)) u 2 O Wu eq_refl (le_n 2) Eu [1]) as (z & Ez & Wz & Sz & Gz);
        [discriminate|repeat constructor|intros ? [<-|[]]; lia|].
      rewrite (ev_squeeze _ _ _ _ _ _ Ez). cbn [lift]. assert (U := squeeze_mid [] [d] z Sz). cbn [length Z.of_nat app] in U. rewrite U. cbn [option_map]. do 2 f_equal.
      apply tensor_ext; auto.
      * unfold wf in *. cbn [shape data]. rewrite Wz, Sz. unfold u. cbn [shape]. rewrite !size_cons. lia.
      * cbn [shape]. intros ix Hi. rewrite Gy by auto. apply inb_1 in Hi. destruct Hi as (i & -> & Hi).
        rewrite (reindex z [d] [i] [0; i]) by (rewrite Sz; unfold u; cbn; lia). rewrite Gz by (unfold u; cbn; lia).
        unfold u, get. cbn [shape data]. rewrite Sx. cbn. f_equal; lia.
    + rewrite Na. cbn [option_map]. eexists. split; [reflexivity|].
      assert (R2 : 2 <= length (shape x)).
      { assert (ax <> []). { intro; subst. cbn [norm_axes] in En. destruct (norm_axis _ a); [|discriminate]. destruct (norm_axes _ axes); discriminate. }
        destruct ax as [|b ax]; [congruence|]. specialize (Fa b (or_introl eq_refl)). lia. }
      destruct (reverse_axes_ok zero opset (D x :: others) (Inp 0) x (length (shape x)) O Wx eq_refl R2 eq_refl (sorted ax)) as (z & Ez & Wz & Sz & Gz).
      * intro E. assert (P := sorted_perm ax). rewrite E in P. apply Permutation_nil in P. subst.
        cbn [norm_axes] in En. destruct (norm_axis _ a); [|discriminate]. destruct (norm_axes _ axes); discriminate.
      * now apply sorted_strong.
      * intros b Hb. apply Fa. now rewrite <- (sorted_perm ax).
      * rewrite Ez. do 2 f_equal. apply tensor_ext; auto; [congruence|]. rewrite Sz. intros ix Hi. rewrite Gz, Gy by auto. f_equal. apply mirrored_perm, sorted_perm.
Qed.

(** A scalar or an unknown rank is refused, not converted wrongly. *)
Theorem C62_refuses : forall A opset a rank axes,
  @reverse_v2 A opset rank (Scalar a) = None /\ @reverse_v2 A opset None axes = None.
Proof. intros. unfold reverse_v2. destruct (Nat.ltb opset 10); auto. destruct axes; auto. Qed.

(** the hypotheses are met: three axes of a tensor of rank 3, unsorted, one negative; and a vector *)
Example reverse_witness : let x := Tensor [2; 1; 3] [0; 1; 2; 3; 4; 5] in
  wf x /\ tf_reverse [2; -2; 0]%Z x = Some (Tensor [2; 1; 3] [5; 4; 3; 2; 1; 0]) /\
  tf_reverse [-1]%Z (Tensor [3] [1; 2; 3]) = Some (Tensor [3] [3; 2; 1]).
Proof. repeat split. Qed.
Print Assumptions C62_reverse.
Print Assumptions C62_refuses.
