(** The general path of BatchToSpace computes tf.batch_to_space. *)
From Coq Require Import List Arith ZArith Bool Lia Permutation.
From Verif Require Import Tensor FoldModel OnnxSpec TensorProofs TOps TOpsProofs SpaceModel SpaceSpec SpaceProofs.
Import ListNotations.
Local Open Scope list_scope.

Section Step.
Context {A : Type} (zero : A) (opset : nat) (env : list (value A)).
Notation ev := (eval zero opset env).
Lemma ev1 o e v : ev e = Some v -> ev (Op o [e]) = apply zero opset o [v].
Proof. intro H. cbn [eval map sequence]. now rewrite H. Qed.
Lemma ev2 o e e' v v' : ev e = Some v -> ev e' = Some v' -> ev (Op o [e; e']) = apply zero opset o [v; v'].
Proof. intros H H'. cbn [eval map sequence]. now rewrite H, H'. Qed.
Lemma ev3 o e e' e'' v v' v'' : ev e = Some v -> ev e' = Some v' -> ev e'' = Some v'' -> ev (Op o [e; e'; e'']) = apply zero opset o [v; v'; v''].
Proof. intros H H' H''. cbn [eval map sequence]. now rewrite H, H', H''. Qed.
Lemma ev4 o e1 e2 e3 e4 v1 v2 v3 v4 : ev e1 = Some v1 -> ev e2 = Some v2 -> ev e3 = Some v3 -> ev e4 = Some v4 ->
  ev (Op o [e1; e2; e3; e4]) = apply zero opset o [v1; v2; v3; v4].
Proof. intros H1 H2 H3 H4. cbn [eval map sequence]. now rewrite H1, H2, H3, H4. Qed.
Lemma ev_vec l : ev (vec l) = Some (I (tvec l)). Proof. reflexivity. Qed.
Lemma ev_squeeze axes e v : ev e = Some v -> ev (make_squeeze opset axes e) = lift (fun T => @f_squeeze T axes) v.
Proof.
  intro H. unfold make_squeeze. destruct (Nat.ltb opset 13) eqn:E.
  - rewrite (ev1 _ _ _ H). cbn [apply]. now rewrite E.
  - rewrite (ev2 _ _ _ _ _ H (ev_vec axes)). cbn [apply]. now rewrite E.
Qed.
Lemma ev_unsqueeze axes e v : ev e = Some v -> ev (make_unsqueeze opset axes e) = lift (fun T => @f_unsqueeze T axes) v.
Proof.
  intro H. unfold make_unsqueeze. destruct (Nat.ltb opset 13) eqn:E.
  - rewrite (ev1 _ _ _ H). cbn [apply]. now rewrite E.
  - rewrite (ev2 _ _ _ _ _ H (ev_vec axes)). cbn [apply]. now rewrite E.
Qed.
Lemma ev_slice_const s e ax x v : ev x = Some v -> ev (make_slice_const opset s e ax x) = lift (fun T => @f_slice T s e (Some ax)) v.
Proof.
  intro H. unfold make_slice_const. destruct (Nat.ltb opset 10) eqn:E.
  - rewrite (ev1 _ _ _ H). cbn [apply]. now rewrite E.
  - rewrite (ev4 _ _ _ _ _ _ _ _ _ H (ev_vec s) (ev_vec e) (ev_vec ax)). cbn [apply]. now rewrite E.
Qed.
End Step.

Lemma clamp_nat d v : v <= d -> clamp d (Z.of_nat v) = v.
Proof. intro H. unfold clamp. destruct (Z.ltb_spec (Z.of_nat v) 0); lia. Qed.
Lemma clamp_0 d : clamp d 0 = 0.
Proof. unfold clamp. cbn [Z.ltb Z.compare]. lia. Qed.
Lemma clamp_max d v : (Z.of_nat d <= v)%Z -> clamp d v = d.
Proof. intro H. unfold clamp. destruct (Z.ltb_spec v 0); lia. Qed.
Lemma map2_zip2 f : forall a b, map2 f a b = zip2 f a b.
Proof. unfold map2. induction a as [|x a IH]; intros [|y b]; cbn [combine map zip2]; auto. now rewrite IH. Qed.
Lemma matrix_flat2 rows : matrix rows = Tensor [length (map (fun '(c, d) => (Z.of_nat c, Z.of_nat d)) rows); 2] (flat2 (map (fun '(c, d) => (Z.of_nat c, Z.of_nat d)) rows)).
Proof. unfold matrix. rewrite map_length. f_equal. induction rows as [|[c d] rows IH]; auto. cbn [map concat app flat2]. now rewrite IH. Qed.
Lemma zip2_of_nat f g : (forall x y, f (Z.of_nat x) (Z.of_nat y) = Z.of_nat (g x y)) -> forall a b, zip2 f (znat a) (znat b) = znat (zip2 g a b).
Proof. intros H. induction a as [|x a IH]; intros [|y b]; cbn [znat map zip2]; auto. unfold znat in IH. now rewrite H, IH. Qed.
Lemma flat2_map {X Y} (f : X -> Y) a b : flat2 (combine (map f a) (map f b)) = map f (flat2 (combine a b)).
Proof. revert b. induction a as [|x a IH]; intros [|y b]; cbn [map combine flat2]; auto. now rewrite IH. Qed.
Lemma slice_row0 {T} m (a b : list T) e : length a = m -> length b = m -> (Z.of_nat m <= e)%Z ->
  f_slice [0%Z; 0%Z] [1%Z; e] None (Tensor [2; m] (a ++ b)) = Some (Tensor [1; m] a).
Proof.
  intros La Lb He. unfold f_slice. cbn [shape length seq map]. change (norm_axes 2 _) with (Some [0; 1]). cbv beta iota. cbn [nodupb existsb Nat.eqb negb andb length].
  cbn [combine map slice_range assoc_nat Nat.eqb]. rewrite (clamp_max m e) by auto. change (clamp 2 0) with 0. change (clamp 2 1) with 1. rewrite clamp_0. cbn [map fst snd Nat.sub].
  rewrite Nat.sub_0_r. apply build_is; auto.
  - unfold wf. cbn [shape data]. rewrite !size_cons. change (size []) with 1. lia.
  - intros [|i [|j [|k ix]]] Ix; cbn in Ix; try tauto. destruct Ix as (Ii & Ij & _). cbn [addix]. unfold get. cbn [shape data ravel]. unfold size. cbn [fold_right].
    replace i with 0 by lia. rewrite nth_error_app1; [f_equal; lia|lia].
Qed.
Lemma slice_row1 {T} m (a b : list T) e : length a = m -> length b = m -> (Z.of_nat m <= e)%Z ->
  f_slice [1%Z; 0%Z] [2%Z; e] None (Tensor [2; m] (a ++ b)) = Some (Tensor [1; m] b).
Proof.
  intros La Lb He. unfold f_slice. cbn [shape length seq map]. change (norm_axes 2 _) with (Some [0; 1]). cbv beta iota. cbn [nodupb existsb Nat.eqb negb andb length].
  cbn [combine map slice_range assoc_nat Nat.eqb]. rewrite (clamp_max m e) by auto. change (clamp 2 2) with 2. change (clamp 2 1) with 1. rewrite clamp_0. cbn [map fst snd Nat.sub].
  rewrite Nat.sub_0_r. apply build_is; auto.
  - unfold wf. cbn [shape data]. rewrite !size_cons. change (size []) with 1. lia.
  - intros [|i [|j [|k ix]]] Ix; cbn in Ix; try tauto. destruct Ix as (Ii & Ij & _). cbn [addix]. unfold get. cbn [shape data ravel]. unfold size. cbn [fold_right].
    replace i with 0 by lia. rewrite nth_error_app2; [f_equal; lia|lia].
Qed.

Section Shared.
Context {A : Type} (zero : A) (opset : nat) (env : list (value A)).
Hypothesis Hop : 11 <= opset.
Notation ev := (eval zero opset env).
Lemma op10 : Nat.ltb opset 10 = false. Proof. apply Nat.ltb_ge. lia. Qed.
Lemma op11 : Nat.ltb opset 11 = false. Proof. apply Nat.ltb_ge. lia. Qed.

Lemma ev_slice3 x s e v ls le : ev x = Some v -> ev s = Some (I (tvec ls)) -> ev e = Some (I (tvec le)) ->
  ev (Op (Slice None) [x; s; e]) = lift (fun T => @f_slice T ls le None) v.
Proof. intros H1 H2 H3. rewrite (ev3 _ _ _ _ _ _ _ _ _ _ H1 H2 H3). cbn [apply]. now rewrite op10. Qed.
Lemma ev_slice4 x s e ax v ls le la : ev x = Some v -> ev s = Some (I (tvec ls)) -> ev e = Some (I (tvec le)) -> ev ax = Some (I (tvec la)) ->
  ev (Op (Slice None) [x; s; e; ax]) = lift (fun T => @f_slice T ls le (Some la)) v.
Proof. intros H1 H2 H3 H4. rewrite (ev4 _ _ _ _ _ _ _ _ _ _ _ _ H1 H2 H3 H4). cbn [apply]. now rewrite op10. Qed.
Lemma ev_reshape x s v l : ev x = Some v -> ev s = Some (I (tvec l)) -> ev (Op Reshape [x; s]) = lift (fun T => @f_reshape T l) v.
Proof. intros H1 H2. rewrite (ev2 _ _ _ _ _ _ _ _ H1 H2). reflexivity. Qed.

Context (block : list nat).
Notation m := (length block).
Lemma ev_bshape : ev (bshape block) = Some (I (tvec (znat block))). Proof. reflexivity. Qed.
Lemma ev_concat l es : es <> [] -> Forall2 (fun e l => ev e = Some (I (tvec l))) es l -> ev (Op (Concat 0) es) = Some (I (tvec (concat l))).
Proof.
  intros Ne H. cbn [eval]. assert (E : sequence (map ev es) = Some (map (fun l => I (tvec l)) l)).
  { clear Ne. induction H as [|e x es l He H IH]; auto. cbn [map sequence]. now rewrite He, IH. }
  rewrite E. cbn [obind]. assert (Q : apply zero opset (Concat 0) (map (fun l => I (tvec l)) l) = option_map I (f_concat 0 (map tvec l))).
  { destruct l as [|x l]; [inversion H; congruence|]. cbn [map apply].
    assert (AI : all_ints (@I A (tvec x) :: map (fun l => I (tvec l)) l) = Some (map (@tvec Z) (x :: l))).
    { change (@I A (tvec x) :: map (fun l => I (tvec l)) l) with (map (fun l => @I A (tvec l)) (x :: l)). generalize (x :: l). intro k.
      induction k as [|y k IH]; auto. cbn [map all_ints]. rewrite IH. reflexivity. }
    rewrite AI. reflexivity. }
  rewrite Q, concat_vecs; [reflexivity|]. intro C. subst. inversion H. congruence.
Qed.
Lemma ev_interleave a l : 1 <= m -> length l = m -> ev a = Some (I (tvec (znat l))) -> ev (interleave block a) = Some (I (tvec (znat (inter l block)))).
Proof.
  intros Hm Ll H. unfold interleave, blocklen.
  assert (E1 : ev (Op (Concat 0) [a; bshape block]) = Some (I (tvec (znat l ++ znat block ++ [])))).
  { apply (ev_concat [znat l; znat block]); [discriminate|]. repeat constructor; auto. }
  rewrite app_nil_r in E1.
  assert (E2 : ev (Op Reshape [Op (Concat 0) [a; bshape block]; vec [(-1)%Z; Z.of_nat m]]) = Some (I (Tensor [2; m] (znat l ++ znat block)))).
  { erewrite ev_reshape; [|exact E1|apply ev_vec]. cbn [lift]. change [(-1)%Z; Z.of_nat m] with (map Z.of_nat [] ++ (-1)%Z :: map Z.of_nat [m]).
    rewrite (reshape_infer [] 2 [m]); [reflexivity|constructor|repeat constructor; lia|]. cbn [tvec shape]. rewrite app_length. unfold znat. rewrite !map_length, !size_cons. change (size []) with 1. lia. }
  assert (E3 : ev (Op (Transpose None) [Op Reshape [Op (Concat 0) [a; bshape block]; vec [(-1)%Z; Z.of_nat m]]]) = Some (I (Tensor [m; 2] (znat (inter l block))))).
  { rewrite (ev1 _ _ _ _ _ _ E2). cbn [apply lift]. rewrite transpose_pair by (unfold znat; rewrite map_length; auto). cbn [option_map]. unfold znat. now rewrite flat2_map. }
  erewrite ev_reshape; [|exact E3|apply ev_vec]. cbn [lift]. rewrite reshape_flat; [reflexivity|].
  unfold wf. cbn [shape data]. unfold znat. rewrite map_length, inter_length by auto. rewrite !size_cons. change (size []) with 1. lia.
Qed.
Context (n : nat) (sp dp : list nat).
Hypothesis Lsp : length sp = m.
Hypothesis Rank : (Z.of_nat (1 + m + length dp) <= int64_max)%Z.
Lemma ev_spatial s : ev s = Some (I (tvec (znat (n :: sp ++ dp)))) -> ev (spatial_of block s) = Some (I (tvec (znat sp))).
Proof.
  intro H. unfold spatial_of. erewrite ev_slice3; [|exact H|apply ev_vec|apply ev_vec]. cbn [lift]. rewrite slice_vec. cbn [option_map]. do 3 f_equal. unfold blocklen.
  unfold znat. rewrite map_length. cbn [length]. rewrite app_length, Lsp. change 1%Z with (Z.of_nat 1). rewrite !clamp_nat by lia.
  cbn [map skipn]. replace (m + 1 - 1) with m by lia. rewrite map_app, firstn_app, map_length, Lsp, Nat.sub_diag. cbn [firstn]. rewrite app_nil_r. apply firstn_all2. rewrite map_length. lia.
Qed.
Lemma ev_depth s : ev s = Some (I (tvec (znat (n :: sp ++ dp)))) -> ev (depth_of block s) = Some (I (tvec (znat dp))).
Proof.
  intro H. unfold depth_of. erewrite ev_slice3; [|exact H|apply ev_vec|apply ev_vec]. cbn [lift]. rewrite slice_vec. cbn [option_map]. do 3 f_equal. unfold blocklen.
  unfold znat. rewrite map_length. cbn [length]. rewrite app_length, Lsp. rewrite !clamp_nat by lia. rewrite clamp_max by lia.
  replace (m + 1) with (S m) by lia. cbn [map skipn]. rewrite map_app, skipn_app, map_length, Lsp, Nat.sub_diag. rewrite skipn_all2 by (rewrite map_length; lia). cbn [skipn app].
  apply firstn_all2. rewrite map_length. lia.
Qed.
End Shared.
