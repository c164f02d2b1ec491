(** C82: FusedBatchNorm, tf2onnx/onnx_opset/nn.py:960-1052 (model: BnModel, specification: BnSpec). *)
From Coq Require Import Reals List Arith ZArith Bool Lia Lra.
From Verif Require Import Tensor FoldModel OnnxSpec TensorProofs TOps TOpsProofs BnSpec BnModel BnProofs.
Import ListNotations.
Local Open Scope R_scope.
Local Open Scope list_scope.

(** what the conversion knows of the shape of scale is true of it *)
Definition knows (st : statics) (scale : tensor R) : Prop :=
  match scale_shape st with None => True | Some l => Forall2 (fun d n => (d < 0)%Z \/ d = Z.of_nat n) l (shape scale) end.

(** The graph computes batch normalisation, for both layouts, inputs of rank 4 and 5 and any number of pictures, channels and places: with the
    statistics of the input in training mode, and with the given ones otherwise.  Not covered: training with an averaging factor (refuted below). *)
Theorem C82_batch_norm_is_batch_norm_partial last training factor_one eps st x scale offset mean variance y :
  (training = true -> factor_one = true) ->
  wf x -> wf scale -> wf offset -> knows st scale ->
  (training = false -> wf mean /\ wf variance /\ shape mean = shape scale /\ shape variance = shape scale) ->
  batch_norm last training factor_one eps st x scale offset mean variance = Some y ->
  tf_batch_norm last training eps x (data scale) (data offset) (data mean) (data variance) y.
Proof.
  intros Tf Wx Ws Wo K M E.
  assert (P : exists k, length (shape x) = S (S k) /\ (k = 2 \/ k = 3)%nat /\ exists xt yt m v, (if last then f_transpose (Some (channels_first k)) x else Some x) = Some xt /\
    f_batch_norm eps xt scale offset m v = Some yt /\
    (training = false -> resized (scale_shape st) (mean_shape st) (mean_const st) mean = Some m /\ resized (scale_shape st) (var_shape st) (var_const st) variance = Some v)).
  { unfold batch_norm in E. cbv zeta in E. destruct (negb _) eqn:R; [discriminate|]. apply negb_false_iff, orb_true_iff in R. rewrite !Nat.eqb_eq in R.
    exists (if Nat.eqb (length (shape x)) 4 then 2%nat else 3%nat). split; [destruct R as [-> | ->]; reflexivity|]. split; [destruct (Nat.eqb _ 4); auto|].
    destruct (if last then _ else _) as [xt|] eqn:E1 in E; [|discriminate]. cbn [obind] in E. destruct (if _ && _ then _ else _) as [[m v]|] eqn:E2 in E; [|discriminate]. cbn [obind fst snd] in E.
    destruct (f_batch_norm eps xt scale offset m v) as [yt|] eqn:E3; [|discriminate]. exists xt, yt, m, v. split; [exact E1|]. split; [exact E3|]. intros ->. cbn [andb] in E2.
    destruct (resized _ _ _ mean) as [m'|]; [|discriminate]. cbn [obind] in E2. destruct (resized _ _ _ variance) as [v'|]; [|discriminate]. cbn [obind] in E2. injection E2 as -> ->. auto. }
  destruct P as (k & Rk & K23 & xt & yt & m & v & E1 & E2 & E3).
  destruct (as_place last (shape x) k Rk) as (N & C & sp & Sh & Lk). subst k. destruct (holds_of last N C sp x Wx Sh) as [X H].
  assert (Hxt : exists xt', (if last then f_transpose (Some (channels_first (length sp))) x else Some x) = Some xt' /\ Holds false N C sp xt' X) by (destruct last; [now apply to_first|eauto]).
  destruct Hxt as (xt' & E1' & (_ & Sxt & _)). rewrite E1 in E1'. injection E1' as <-.
  destruct (norm_some _ _ _ _ _ _ _ E2) as (N' & C' & sp' & Sx' & Ss & So & Sm & Sv). rewrite Sxt in Sx'. cbn [place] in Sx'. injection Sx' as <- <- <-.
  destruct (graph_ok last training factor_one eps st N C sp x X scale offset mean variance Tf K23 H Ws Wo Ss So) as (y' & E' & Y).
  { intro T. destruct (M T) as (Wm & Wv & Sm' & Sv'). destruct (E3 T) as [Em Ev]. rewrite Ss in Sm', Sv'. repeat split; auto.
    - rewrite Em. f_equal. now apply (resized_same C _ _ _ mean m scale Wm Sm' Ss K Em).
    - rewrite Ev. f_equal. now apply (resized_same C _ _ _ variance v scale Wv Sv' Ss K Ev). }
  rewrite E in E'. injection E' as <-. exact Y.
Qed.
Print Assumptions C82_batch_norm_is_batch_norm_partial.

(** ... and it is built, and runs, for every input of rank 4 or 5 whose operands have one entry for each channel, if the static shapes of mean
    and variance are those of scale *)
Theorem C82_batch_norm_runs (last : bool) training factor_one eps st x scale offset mean variance C :
  (length (shape x) = 4 \/ length (shape x) = 5)%nat -> wf x -> C = (if last then List.last (shape x) 0%nat else nth 1 (shape x) 0%nat) ->
  (forall t, In t [scale; offset; mean; variance] -> wf t /\ shape t = [C]) -> (training = true -> factor_one = true) ->
  mean_shape st = scale_shape st -> var_shape st = scale_shape st ->
  exists y, batch_norm last training factor_one eps st x scale offset mean variance = Some y.
Proof.
  intros R Wx EC A Tf Em Ev.
  assert (P : exists k, length (shape x) = S (S k) /\ (k = 2 \/ k = 3)%nat) by (destruct R as [-> | ->]; eauto).
  destruct P as (k & Rk & K). destruct (as_place last (shape x) k Rk) as (N & C' & sp & Sh & Lk). subst k. destruct (holds_of last N C' sp x Wx Sh) as [X H].
  assert (C' = C). { rewrite EC, Sh. unfold place. destruct last; [|reflexivity]. change (N :: sp ++ [C']) with ((N :: sp) ++ [C']). now rewrite last_last. }
  subst C'. assert (Q : forall l, shape_eqb l l = true). { intros [l|]; [|reflexivity]. cbn [shape_eqb]. unfold zlist_eqb. now destruct (list_eq_dec Z.eq_dec l l). }
  destruct (A scale) as [Ws Ss]; [cbn; tauto|]. destruct (A offset) as [Wo So]; [cbn; tauto|]. destruct (A mean) as [Wm Sm]; [cbn; tauto|]. destruct (A variance) as [Wv Sv]; [cbn; tauto|].
  destruct (graph_ok last training factor_one eps st N C sp x X scale offset mean variance Tf K H Ws Wo Ss So) as (y & E & _); [|exists y; exact E].
  intros _. unfold resized. rewrite Em, Ev, Q. repeat split; auto.
Qed.
Print Assumptions C82_batch_norm_runs.

(** a picture of 1x1 values and one channel, in training mode, twice: the statistics are those of the two pictures *)
Example runs_somewhere : exists y, batch_norm true true true 1 (Statics (Some [1%Z]) (Some [1%Z]) (Some [1%Z]) false false)
  (Tensor [2; 1; 1; 1]%nat [1; 3]) (tvec [2]) (tvec [5]) (tvec [0]) (tvec [0]) = Some y.
Proof.
  apply C82_batch_norm_runs with (C := 1%nat); try reflexivity; auto. intros t I. cbn [In] in I. destruct I as [<-|[<-|[<-|[<-|[]]]]]; split; reflexivity.
Qed.

(** Training with an averaging factor other than 1: TensorFlow normalises with the statistics of the input; the conversion goes on (with a warning)
    and the graph uses the running averages instead.  One picture with the value 1, the averages 0 and 0, epsilon 1. *)
Theorem C82_averaging_factor_refuted : exists x scale offset mean variance y,
  wf x /\ batch_norm false true false 1 (Statics (Some [1%Z]) (Some [1%Z]) (Some [1%Z]) false false) x scale offset mean variance = Some y /\
  (exists y', tf_batch_norm false true 1 x (data scale) (data offset) (data mean) (data variance) y') /\
  ~ tf_batch_norm false true 1 x (data scale) (data offset) (data mean) (data variance) y.
Proof.
  set (x := Tensor [1; 1; 1; 1]%nat [1]). set (st := Statics (Some [1%Z]) (Some [1%Z]) (Some [1%Z]) false false).
  assert (Wx : wf x) by reflexivity.
  destruct (C82_batch_norm_runs false false true 1 st x (tvec [1]) (tvec [0]) (tvec [0]) (tvec [0]) 1) as [y E]; try reflexivity; auto; [intros t I; cbn [In] in I; destruct I as [<-|[<-|[<-|[<-|[]]]]]; split; reflexivity|].
  exists x, (tvec [1]), (tvec [0]), (tvec [0]), (tvec [0]), y. split; [exact Wx|]. split; [exact E|]. split.
  - destruct (C82_batch_norm_runs false true true 1 st x (tvec [1]) (tvec [0]) (tvec [0]) (tvec [0]) 1) as [y' E']; try reflexivity; auto; [intros t I; cbn [In] in I; destruct I as [<-|[<-|[<-|[<-|[]]]]]; split; reflexivity|].
    exists y'. eapply C82_batch_norm_is_batch_norm_partial with (7 := E'); try reflexivity; [|discriminate]. constructor; [now right|constructor].
  - assert (Y : tf_batch_norm false false 1 x [1] [0] [0] [0] y).
    { eapply (C82_batch_norm_is_batch_norm_partial false false true 1 st x (tvec [1]) (tvec [0]) (tvec [0]) (tvec [0])) with (7 := E); try reflexivity; [|intros _; repeat split; reflexivity]. constructor; [now right|constructor]. }
    destruct Y as (N & C & sp & _ & _ & Sh & _ & _ & _ & _ & Y). cbn [place shape x] in Sh. injection Sh as <- <- <-.
    destruct (Y 0%nat ltac:(lia)) as (vs & _ & Yv). cbv zeta in Yv. destruct (Yv 0%nat [0; 0]%nat ltac:(lia)) as (v & Gv & Gy); [cbn; lia|].
    intros (N & C & sp & _ & _ & Sh & _ & _ & _ & _ & Z). cbn [place shape x] in Sh. injection Sh as <- <- <-.
    destruct (Z 0%nat ltac:(lia)) as (ws & Fw & Zv). cbv zeta in Zv. destruct (Zv 0%nat [0; 0]%nat ltac:(lia)) as (w & Gw & Gz); [cbn; lia|].
    assert (Ev : v = 1) by (cbn in Gv; congruence). assert (Ew : w = 1) by (cbn in Gw; congruence). subst v w. rewrite Gy in Gz.
    assert (Q := f_equal (fun o => match o with Some q => q | None => 0 end) Gz). cbv beta iota in Q.
    assert (Ews : ws = [1]).
    { change (places 1 [1; 1]%nat) with [(0, [0; 0])%nat] in Fw. inversion Fw as [|p q l l' F1 F2]; subst. inversion F2; subst. cbn in F1. congruence. }
    subst ws. unfold average in Q. cbn [map sum fold_right length INR nth data] in Q.
    replace ((1 + 0) / 1) with 1 in Q by lra. replace (((1 - 1) * (1 - 1) + 0) / 1 + 1) with 1 in Q by lra. replace (0 + 1) with 1 in Q by lra. rewrite sqrt_1 in Q. cbn [tvec data nth] in Q. lra.
Qed.
Print Assumptions C82_averaging_factor_refuted.
