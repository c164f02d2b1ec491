(** The folding functions of the code agree with the ONNX specification. *)
From Coq Require Import String List ZArith Bool Arith Lia.
From Verif Require Import FGraph Tensor OnnxSpec FoldModel TensorProofs FoldProofs FoldFunProofs FoldOnnxSpec FoldMapModel FoldGraphSpec.
Import ListNotations.
Local Open Scope string_scope.
Local Open Scope list_scope.

Section S.
Variable A : Type.
Variable ival : A -> Z.
Variable cast : Z -> A -> A.
Variable add mul sub : A -> A -> A.
Variable opset : nat.
Notation rel := (onnx_rel A ival cast add mul sub opset).

Lemma ints_spec t l : wf t -> (ints A ival t = Some l <-> holds_ints A ival t l).
Proof.
  intro W. unfold ints, holds_ints. destruct t as [sh d]. cbn [shape data] in *. unfold wf in W. cbn [shape data] in W. split.
  - destruct sh as [|n [|? ?]]; try discriminate. destruct (Nat.eqb_spec (length d) n) as [E|]; [|discriminate]. intro H. injection H as <-.
    rewrite map_length. split; auto. congruence.
  - intros [-> <-]. rewrite map_length in *. cbn in W. rewrite (proj2 (Nat.eqb_eq _ _)); [reflexivity|lia].
Qed.
Lemma nat_list_spec l l' : nat_list l = Some l' <-> l' = map Z.to_nat l /\ Forall (fun d => 0 <= d)%Z l.
Proof.
  unfold nat_list. destruct (forallb (fun d => (0 <=? d)%Z) l) eqn:E.
  - split; [intro H; injection H as <-|intros [-> _]; reflexivity]. split; auto. rewrite forallb_forall in E. apply Forall_forall. intros d Hd. specialize (E d Hd). lia.
  - split; [discriminate|]. intros [_ F]. rewrite Forall_forall in F. assert (X : forallb (fun d => (0 <=? d)%Z) l = true); [|congruence].
    apply forallb_forall. intros d Hd. specialize (F d Hd). lia.
Qed.
Lemma fold_cast_spec {B} (f : A -> B) (t : tensor A) : wf t -> exists y, fold_cast f t = [y] /\ wf y /\ shape y = shape t /\
  forall ix, inb ix (shape t) -> exists v, get t ix = Some v /\ get y ix = Some (f v).
Proof.
  intro W. eexists. split; [reflexivity|]. unfold wf in *. cbn [shape data]. rewrite map_length. split; auto. split; auto.
  intros ix I. destruct (get_wf t ix W I) as (v & G). exists v. split; auto. unfold get in *. cbn [shape data]. rewrite nth_error_map, G. reflexivity.
Qed.
Lemma cast_unique (f : A -> A) (t y z : tensor A) : wf y -> wf z -> shape y = shape t -> shape z = shape t ->
  (forall ix, inb ix (shape t) -> exists v, get t ix = Some v /\ get y ix = Some (f v)) ->
  (forall ix, inb ix (shape t) -> exists v, get t ix = Some v /\ get z ix = Some (f v)) -> y = z.
Proof.
  intros Wy Wz Ey Ez Gy Gz. apply tensor_ext; auto; [congruence|]. intros ix I. rewrite Ey in I.
  destruct (Gy ix I) as (v & A1 & ->). destruct (Gz ix I) as (v' & A2 & ->). congruence.
Qed.

Lemma split_fits_spec x axis lens k : split_fits A x axis lens k = true ->
  exists ax, norm_axis (length (shape x)) axis = Some ax /\ forall l, lens = Some l -> length l = k /\ sum l = nth ax (shape x) 0.
Proof.
  unfold split_fits. destruct (norm_axis (length (shape x)) axis) as [ax|]; [|discriminate]. intro H. exists ax. split; auto.
  destruct lens as [l'|]; intros l E; [|discriminate]. injection E as <-. apply andb_true_iff in H. rewrite !Nat.eqb_eq in H. exact H.
Qed.
Lemma holds_ints_fun t l l' : holds_ints A ival t l -> holds_ints A ival t l' -> l = l'.
Proof. intros [_ <-] [_ <-]. reflexivity. Qed.
Lemma split_at_spec x axis lens k ys zs : wf x -> 0 < k -> split_at A x axis lens k = Some ys ->
  (length ys = k /\ split_rel axis lens x ys) /\ (length zs = k -> split_rel axis lens x zs -> zs = ys).
Proof.
  intros W K. unfold split_at. destruct (split_fits A x axis lens k) eqn:F; [|discriminate]. intro E.
  destruct (split_fits_spec _ _ _ _ F) as (ax & Na & Hl). destruct (fold_split_spec x axis lens k ys ax W K Na Hl E) as [L R].
  split; auto. intros L' R'. apply (split_fun axis lens x); congruence.
Qed.
Lemma unsqueeze_at_spec x axes ys : wf x -> unsqueeze_at A x axes = Some ys -> exists y, ys = [y] /\ unsqueeze_rel axes x y.
Proof.
  intro W. unfold unsqueeze_at. destruct (norm_axes (length (shape x) + length axes) axes) eqn:N; [|discriminate]. intro E.
  apply fold_unsqueeze_spec; auto. congruence.
Qed.

Theorem fold_functions_agree op_rel : onnx_semantics A ival cast add mul sub opset op_rel ->
  fold_agrees (tensor A) op_rel (func_map A ival cast add mul sub opset) (covered).
Proof.
  intros Sem op f at_ k ins vs dom vs' Hf Cov Ef Hd.
  assert (Ev : evaluates op = true /\ exists f0, find (fun p => String.eqb (fst p) op) (func_table A ival cast add mul sub opset) = Some (op, f0) /\ f = on_arrays A f0).
  { unfold func_map in Hf. destruct (find _ _) as [[nm f0]|] eqn:F; [|discriminate]. injection Hf as <-.
    assert (N := F). apply find_some in N. destruct N as [N E]. apply String.eqb_eq in E. cbn in E. subst nm. split; [|exists f0; auto].
    cbn in N. unfold evaluates. apply existsb_exists. exists op. rewrite String.eqb_refl. split; auto. cbn. intuition congruence. }
  destruct Ev as [Ev (f0 & Ff & ->)]. rewrite (Sem op dom at_ k ins vs' Ev Hd). clear Sem Hd Hf dom.
  unfold on_arrays in Ef. destruct (forallb (okw A) ins) eqn:Wf; [|discriminate].
  assert (W : forall t, In t ins -> wf t) by (rewrite forallb_forall in Wf; intros t Ht; apply Nat.eqb_eq, Wf, Ht).
  clear Wf. destruct Cov as [Cn Cr]. cbn [func_table find fst] in Ff.
  repeat (match type of Ff with (if String.eqb ?nm op then _ else _) = _ => destruct (String.eqb_spec nm op) as [<-|] end;
    [injection Ff as <-|]); try discriminate; cbn in Cn.
  - (* Cast *) unfold cast_fun in Ef. destruct ins as [|x [|? ?]]; try discriminate. destruct (int_attr "to" at_) as [to|] eqn:Ea; [|discriminate].
    injection Ef as <-. destruct (fold_cast_spec (cast to) x (W x (or_introl eq_refl))) as (y & -> & Wy & Sy & Gy). split.
    + intro R. inversion R; subst. f_equal. assert (to0 = to) by congruence. subst. apply (cast_unique (cast to) x); auto.
    + intros ->. subst k. apply R_cast with to; auto. apply W. cbn. auto.
  - (* Transpose *) unfold transpose_fun_ in Ef. destruct ins as [|x [|? ?]]; try discriminate. assert (Wx := W x (or_introl eq_refl)).
    destruct (ints_attr "perm" at_) as [p|] eqn:Ea.
    + destruct (nat_list p) as [p'|] eqn:En; [|discriminate]. apply nat_list_spec in En. destruct En as [-> Fp]. unfold fold_transpose in Ef.
      destruct (np_transpose x _) as [y|] eqn:Et; [|discriminate]. injection Ef as <-. assert (T := np_transpose_spec _ _ _ Wx Et). cbn iota in T. split.
      * intro R. inversion R; subst; [|congruence]. f_equal. assert (p0 = p) by congruence. subst. eapply transpose_fun; eauto.
      * intros ->. subst k. apply R_transpose_perm with p; auto.
    + unfold fold_transpose in Ef. destruct (np_transpose x None) as [y|] eqn:Et; [|discriminate]. injection Ef as <-.
      assert (T := np_transpose_spec _ _ _ Wx Et). cbn iota in T. split.
      * intro R. inversion R; subst; [congruence|]. f_equal. eapply transpose_fun; eauto.
      * intros ->. subst k. apply R_transpose; auto.
  - (* Reshape *) unfold reshape_fun_ in Ef. destruct ins as [|x [|s [|? ?]]]; try discriminate. assert (Wx := W x (or_introl eq_refl)).
    destruct (ints A ival s) as [target|] eqn:Ei; [|discriminate]. apply ints_spec in Ei; [|apply W; cbn; auto].
    destruct (forallb (fun d => (-1 <=? d)%Z) target) eqn:B; [|discriminate]. rewrite forallb_forall in B.
    assert (B' : forall d, In d target -> (-1 <= d)%Z) by (intros d Hd; specialize (B d Hd); lia).
    destruct (fold_reshape_spec x target vs Wx B' Ef) as (y & -> & R0). split.
    + intro R. inversion R; subst. f_equal. rewrite Cr in * by reflexivity. assert (target0 = target) by (eapply holds_ints_fun; eauto). subst.
      eapply fold_reshape_fun; eauto.
    + intros ->. subst k. apply R_reshape with target; auto. rewrite Cr by reflexivity. exact R0.
  - (* Concat *) unfold concat_fun_ in Ef. destruct (int_attr "axis" at_) as [axis|] eqn:Ea; [|discriminate].
    destruct (fold_concat_spec ins axis vs W Ef) as (y & -> & R0). split.
    + intro R. inversion R; subst. f_equal. assert (axis0 = axis) by congruence. subst. eapply concat_fun; eauto.
    + intros ->. subst k. apply R_concat with axis; auto.
  - (* Unsqueeze *) unfold unsqueeze_fun_ in Ef. destruct (Nat.leb_spec 13 opset) as [Lo|Lo].
    + destruct ins as [|x [|a [|? ?]]]; try discriminate. assert (Wx := W x (or_introl eq_refl)).
      destruct (ints A ival a) as [axes|] eqn:Ei; [|discriminate]. apply ints_spec in Ei; [|apply W; cbn; auto].
      destruct (unsqueeze_at_spec x axes vs Wx Ef) as (y & -> & R0). split.
      * intro R. inversion R; subst. f_equal. assert (axes0 = axes) by (eapply holds_ints_fun; eauto). subst. eapply unsqueeze_fun; eauto.
      * intros ->. subst k. apply R_unsqueeze with axes; auto.
    + destruct ins as [|x [|? ?]]; try discriminate. assert (Wx := W x (or_introl eq_refl)).
      destruct (ints_attr "axes" at_) as [axes|] eqn:Ea; [|discriminate].
      destruct (unsqueeze_at_spec x axes vs Wx Ef) as (y & -> & R0). split.
      * intro R. inversion R; subst. f_equal. assert (axes0 = axes) by congruence. subst. eapply unsqueeze_fun; eauto.
      * intros ->. subst k. apply R_unsqueeze_attr with axes; auto.
  - unfold binary_fun in Ef. destruct ins as [|x [|y [|? ?]]]; try discriminate.
    destruct (fold_binary_spec mul x y vs) as (z & -> & R0); auto; try (apply W; cbn; auto). split.
    + intro R. inversion R; subst. f_equal. eapply elementwise_fun; eauto.
    + intros ->. subst k. apply R_mul; auto.
  - unfold binary_fun in Ef. destruct ins as [|x [|y [|? ?]]]; try discriminate.
    destruct (fold_binary_spec add x y vs) as (z & -> & R0); auto; try (apply W; cbn; auto). split.
    + intro R. inversion R; subst. f_equal. eapply elementwise_fun; eauto.
    + intros ->. subst k. apply R_add; auto.
  - unfold binary_fun in Ef. destruct ins as [|x [|y [|? ?]]]; try discriminate.
    destruct (fold_binary_spec sub x y vs) as (z & -> & R0); auto; try (apply W; cbn; auto). split.
    + intro R. inversion R; subst. f_equal. eapply elementwise_fun; eauto.
    + intros ->. subst k. apply R_sub; auto.
  - (* Split *) unfold split_fun_ in Ef. set (axis := match int_attr "axis" at_ with Some a => a | None => 0%Z end) in *. cbn zeta in Ef.
    destruct ins as [|x [|s [|? ?]]]; try discriminate; assert (Wx := W x (or_introl eq_refl)).
    + destruct (ints_attr "split" at_) as [l|] eqn:Ea.
      * destruct (nat_list l) as [l'|] eqn:En; [|discriminate]. apply nat_list_spec in En. destruct En as [-> Fl].
        destruct (split_at_spec x axis (Some (map Z.to_nat l)) k vs vs' Wx Cn Ef) as [[L0 R0] U]. split.
        -- intro R. inversion R; subst. rewrite Ea in *. auto.
        -- intros ->. apply R_split with axis; auto; rewrite ?Ea; auto. intros l0 E0. injection E0 as <-. exact Fl.
      * destruct (split_at_spec x axis None k vs vs' Wx Cn Ef) as [[L0 R0] U]. split.
        -- intro R. inversion R; subst. rewrite Ea in *. auto.
        -- intros ->. apply R_split with axis; auto; rewrite ?Ea; auto. intros l0 E0. congruence.
    + destruct (ints A ival s) as [l|] eqn:Ei; [|discriminate]. apply ints_spec in Ei; [|apply W; cbn; auto].
      destruct (nat_list l) as [l'|] eqn:En; [|discriminate]. apply nat_list_spec in En. destruct En as [-> Fl].
      destruct (split_at_spec x axis (Some (map Z.to_nat l)) k vs vs' Wx Cn Ef) as [[L0 R0] U]. split.
      * intro R. inversion R; subst. assert (l0 = l) by (eapply holds_ints_fun; eauto). subst. auto.
      * intros ->. apply R_split_input with axis l; auto.
Qed.
End S.
