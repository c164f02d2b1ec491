(** Proofs about DepthModel. *)
From Coq Require Import List Arith ZArith Bool Lia String.
From Verif Require Import Tensor FoldModel OnnxSpec TensorProofs TOps TOpsProofs TOpsProofs2 SpaceProofs2 DepthModel DepthSpec.
Import ListNotations.
Local Open Scope list_scope.
Local Notation length := List.length.

Lemma cf_perm : is_perm channels_first_perm 4.
Proof. apply incl_perm; auto. intros [|[|[|[|k]]]] Hk; cbn; auto 6; lia. Qed.
Lemma cl_perm : is_perm channels_last_perm 4.
Proof. apply incl_perm; auto. intros [|[|[|[|k]]]] Hk; cbn; auto 6; lia. Qed.
Lemma inb4 ix a b c d : inb ix [a; b; c; d] -> exists i j k l, ix = [i; j; k; l] /\ i < a /\ j < b /\ k < c /\ l < d.
Proof. destruct ix as [|i [|j [|k [|l [|]]]]]; cbn [inb]; try tauto. intro H. exists i, j, k, l. tauto. Qed.
Lemma to_first {T} (t : tensor T) n h w c : wf t -> shape t = [n; h; w; c] ->
  exists u, f_transpose (Some channels_first_perm) t = Some u /\ shape u = [n; c; h; w] /\ wf u /\
    forall i y x k, i < n -> y < h -> x < w -> k < c -> get u [i; k; y; x] = get t [i; y; x; k].
Proof.
  intros W S1. destruct (transpose_spec channels_first_perm t W) as (u & E & Su & Wu & Gu); [rewrite S1; apply cf_perm|].
  exists u. split; auto. rewrite S1 in *. split; [exact Su|]. split; auto. intros i y x k H1 H2 H3 H4. apply (Gu [i; y; x; k]). cbn [inb]. auto.
Qed.
Lemma to_last {T} (t : tensor T) n h w c : wf t -> shape t = [n; c; h; w] ->
  exists u, f_transpose (Some channels_last_perm) t = Some u /\ shape u = [n; h; w; c] /\ wf u /\
    forall i y x k, i < n -> y < h -> x < w -> k < c -> get u [i; y; x; k] = get t [i; k; y; x].
Proof.
  intros W S1. destruct (transpose_spec channels_last_perm t W) as (u & E & Su & Wu & Gu); [rewrite S1; apply cl_perm|].
  exists u. split; auto. rewrite S1 in *. split; [exact Su|]. split; auto. intros i y x k H1 H2 H3 H4. apply (Gu [i; k; y; x]). cbn [inb]. auto.
Qed.

Section Convert.
Context {A : Type} (zero : A) (opset : nat) (env : list (value A)) (x : tensor A).
Hypothesis (W : wf x).
Lemma convert_first fmt constant o e y : is_channels_last fmt = false -> (constant = Some x \/ constant = None) -> nth_error env 0 = Some (D x) ->
  convert_inputs fmt constant o = Some e -> apply zero opset o [D x] = Some (D y) -> eval zero opset env e = Some (D y).
Proof.
  intros F Hc He H Ha. unfold convert_inputs in H. rewrite F in H. injection H as <-. destruct Hc as [-> | ->].
  - now rewrite (ev1 zero opset env o (CD x) (D x) eq_refl).
  - now rewrite (ev1 zero opset env o (Inp 0) (D x) He).
Qed.
Lemma convert_last fmt constant o e u v y : is_channels_last fmt = true -> (constant = Some x \/ constant = None) -> nth_error env 0 = Some (D x) ->
  convert_inputs fmt constant o = Some e -> f_transpose (Some channels_first_perm) x = Some u -> apply zero opset o [D u] = Some (D v) ->
  f_transpose (Some channels_last_perm) v = Some y -> eval zero opset env e = Some (D y).
Proof.
  intros F Hc He H E1 E2 E3. unfold convert_inputs in H. rewrite F in H.
  assert (Q : forall e0, eval zero opset env e0 = Some (D u) -> eval zero opset env (Op (Transpose (Some channels_last_perm)) [Op o [e0]]) = Some (D y)).
  { intros e0 H0. assert (H1 : eval zero opset env (Op o [e0]) = Some (D v)) by now rewrite (ev1 zero opset env o e0 (D u) H0).
    rewrite (ev1 zero opset env _ _ _ H1). cbn [apply lift]. now rewrite E3. }
  destruct Hc as [-> | ->].
  - rewrite E1 in H. injection H as <-. now apply Q.
  - injection H as <-. apply Q. rewrite (ev1 zero opset env _ (Inp 0) (D x) He). cbn [apply lift]. now rewrite E1.
Qed.
End Convert.

Lemma s2d_first {A} b (t y : tensor A) : tf_space_to_depth NCHW b t = Some y -> f_space_to_depth b t = Some y.
Proof.
  unfold tf_space_to_depth, f_space_to_depth, pixel_of. destruct (shape t) as [|n [|c [|h [|w [|]]]]]; try discriminate.
  destruct (Nat.leb_spec 2 b); [|discriminate]. rewrite (proj2 (Nat.ltb_lt 0 b)) by lia. cbn [andb]. destruct (Nat.eqb (h mod b) 0 && Nat.eqb (w mod b) 0); [|discriminate].
  intro H1. destruct (build_spec _ _ _ H1) as (S1 & W1 & G1). cbn [at_pixel] in *. apply build_is; auto. intros ix Hi. rewrite G1 by auto.
  destruct (inb4 _ _ _ _ _ Hi) as (i & k & yy & xx & -> & _). cbv zeta. reflexivity.
Qed.
Lemma d2s_first {A} b (t y : tensor A) : tf_depth_to_space NCHW b t = Some y -> f_depth_to_space b t = Some y.
Proof.
  unfold tf_depth_to_space, f_depth_to_space, pixel_of. destruct (shape t) as [|n [|c [|h [|w [|]]]]]; try discriminate.
  destruct (Nat.leb_spec 2 b); [|discriminate]. rewrite (proj2 (Nat.ltb_lt 0 b)) by lia. cbn [andb]. destruct (Nat.eqb (c mod (b * b)) 0); [|discriminate]. cbv zeta.
  intro H1. destruct (build_spec _ _ _ H1) as (S1 & W1 & G1). cbn [at_pixel] in *. apply build_is; auto. intros ix Hi. rewrite G1 by auto.
  destruct (inb4 _ _ _ _ _ Hi) as (i & k & yy & xx & -> & _). reflexivity.
Qed.
Lemma s2d_bounds b h w c y x k : 2 <= b -> h mod b = 0 -> w mod b = 0 -> y < h / b -> x < w / b -> k < b * b * c ->
  y * b + k / c / b < h /\ x * b + (k / c) mod b < w /\ k mod c < c.
Proof.
  intros Hb H1 H2 Hy Hx Hk. assert (c <> 0) by nia. assert (k / c < b * b) by (apply Nat.div_lt_upper_bound; nia).
  assert (k / c / b < b) by (apply Nat.div_lt_upper_bound; nia). assert ((k / c) mod b < b) by (apply Nat.mod_upper_bound; lia).
  pose proof (Nat.div_mod h b ltac:(lia)). pose proof (Nat.div_mod w b ltac:(lia)). pose proof (Nat.mod_upper_bound k c ltac:(lia)). repeat split; nia.
Qed.
Lemma d2s_bounds b h w c y x k : 2 <= b -> c mod (b * b) = 0 -> y < h * b -> x < w * b -> k < c / (b * b) ->
  y / b < h /\ x / b < w /\ (y mod b * b + x mod b) * (c / (b * b)) + k < c.
Proof.
  intros Hb H1 Hy Hx Hk. pose proof (Nat.div_mod c (b * b) ltac:(nia)). pose proof (Nat.mod_upper_bound y b ltac:(lia)). pose proof (Nat.mod_upper_bound x b ltac:(lia)).
  repeat split; [apply Nat.div_lt_upper_bound; nia|apply Nat.div_lt_upper_bound; nia|]. set (d := c / (b * b)) in *.
  assert (y mod b * b + x mod b + 1 <= b * b) by nia. nia.
Qed.
(** NHWC: between the two Transposes *)
Lemma s2d_last {A} b (t y : tensor A) : wf t -> tf_space_to_depth NHWC b t = Some y ->
  exists u v, f_transpose (Some channels_first_perm) t = Some u /\ f_space_to_depth b u = Some v /\ f_transpose (Some channels_last_perm) v = Some y.
Proof.
  intros W H. unfold tf_space_to_depth, pixel_of in H. destruct (shape t) as [|n [|h [|w [|c [|]]]]] eqn:St; try discriminate.
  destruct (Nat.leb 2 b && Nat.eqb (h mod b) 0 && Nat.eqb (w mod b) 0) eqn:C; [|discriminate]. rewrite !andb_true_iff, Nat.leb_le, !Nat.eqb_eq in C. destruct C as [[Hb Hh] Hw].
  cbn [at_pixel] in H. destruct (build_spec _ _ _ H) as (Sy & Wy & Gy).
  destruct (to_first t n h w c W St) as (u & Eu & Su & Wu & Gu).
  assert (V : exists v, f_space_to_depth b u = Some v /\ wf v /\ shape v = [n; b * b * c; h / b; w / b] /\
    forall i yy xx k, i < n -> yy < h / b -> xx < w / b -> k < b * b * c -> get v [i; k; yy; xx] = get t [i; yy * b + k / c / b; xx * b + (k / c) mod b; k mod c]).
  { unfold f_space_to_depth. rewrite Su. rewrite (proj2 (Nat.ltb_lt 0 b)) by lia. rewrite Hh, Hw. cbn [Nat.eqb andb].
    match goal with |- exists z0, build ?sh ?f = Some z0 /\ _ => destruct (build_ex sh f) as (v & Ev & Wv & Sv & Gv) end.
    - intros ix Hi. destruct (inb4 _ _ _ _ _ Hi) as (i & k & yy & xx & -> & Hi1 & Hi2 & Hi3 & Hi4). destruct (s2d_bounds b h w c yy xx k) as (B1 & B2 & B3); auto. apply get_some; auto. rewrite Su. cbn [inb]. auto.
    - exists v. split; auto. split; auto. split; auto. intros i yy xx k H1 H2 H3 H4. rewrite Gv by (cbn [inb]; auto). destruct (s2d_bounds b h w c yy xx k) as (B1 & B2 & B3); auto. }
  destruct V as (v & Ev & Wv & Sv & Gv). destruct (to_last v n (h / b) (w / b) (b * b * c) Wv Sv) as (z & Ez & Sz & Wz & Gz).
  exists u, v. split; auto. split; auto. rewrite Ez. f_equal. apply tensor_ext; auto; [congruence|]. rewrite Sz. intros ix Hi. rewrite Gy by auto.
  destruct (inb4 _ _ _ _ _ Hi) as (i & yy & xx & k & -> & H1 & H2 & H3 & H4). rewrite Gz, Gv by auto. cbv zeta. reflexivity.
Qed.
Lemma d2s_last {A} b (t y : tensor A) : wf t -> tf_depth_to_space NHWC b t = Some y ->
  exists u v, f_transpose (Some channels_first_perm) t = Some u /\ f_depth_to_space b u = Some v /\ f_transpose (Some channels_last_perm) v = Some y.
Proof.
  intros W H. unfold tf_depth_to_space, pixel_of in H. destruct (shape t) as [|n [|h [|w [|c [|]]]]] eqn:St; try discriminate.
  destruct (Nat.leb 2 b && Nat.eqb (c mod (b * b)) 0) eqn:C; [|discriminate]. rewrite !andb_true_iff, Nat.leb_le, !Nat.eqb_eq in C. destruct C as [Hb Hc]. cbv zeta in H.
  cbn [at_pixel] in H. destruct (build_spec _ _ _ H) as (Sy & Wy & Gy).
  destruct (to_first t n h w c W St) as (u & Eu & Su & Wu & Gu).
  assert (V : exists v, f_depth_to_space b u = Some v /\ wf v /\ shape v = [n; c / (b * b); h * b; w * b] /\
    forall i yy xx k, i < n -> yy < h * b -> xx < w * b -> k < c / (b * b) -> get v [i; k; yy; xx] = get t [i; yy / b; xx / b; (yy mod b * b + xx mod b) * (c / (b * b)) + k]).
  { unfold f_depth_to_space. rewrite Su. rewrite (proj2 (Nat.ltb_lt 0 b)) by lia. rewrite Hc. cbn [Nat.eqb andb]. cbv zeta.
    match goal with |- exists z0, build ?sh ?f = Some z0 /\ _ => destruct (build_ex sh f) as (v & Ev & Wv & Sv & Gv) end.
    - intros ix Hi. destruct (inb4 _ _ _ _ _ Hi) as (i & k & yy & xx & -> & Hi1 & Hi2 & Hi3 & Hi4). destruct (d2s_bounds b h w c yy xx k) as (B1 & B2 & B3); auto. apply get_some; auto. rewrite Su. cbn [inb]. auto.
    - exists v. split; auto. split; auto. split; auto. intros i yy xx k H1 H2 H3 H4. rewrite Gv by (cbn [inb]; auto). destruct (d2s_bounds b h w c yy xx k) as (B1 & B2 & B3); auto. }
  destruct V as (v & Ev & Wv & Sv & Gv). destruct (to_last v n (h * b) (w * b) (c / (b * b)) Wv Sv) as (z & Ez & Sz & Wz & Gz).
  exists u, v. split; auto. split; auto. rewrite Ez. f_equal. apply tensor_ext; auto; [congruence|]. rewrite Sz. intros ix Hi. rewrite Gy by auto.
  destruct (inb4 _ _ _ _ _ Hi) as (i & yy & xx & k & -> & H1 & H2 & H3 & H4). rewrite Gz, Gv by auto. reflexivity.
Qed.
