(** C18-C22: fusing consecutive nodes. *)
From Coq Require Import List Arith ZArith QArith Bool Lia Reals Lra.
From Verif Require Import Tensor OnnxSpec TensorProofs FoldFunProofs B2BModel B2BProofs ConvSpec CastSpec CastProofs.
Import ListNotations.
Local Open Scope nat_scope.
Local Open Scope list_scope.

(** C18: for every rank, element type and tensor: if the pair Transpose(t1), Transpose(t2) is defined on x, the
    fusion rule gives an answer, and the answer (no node, or one Transpose) relates x to z exactly when the pair does. *)
Theorem C18_transpose_fusion_exact :
  forall A (t1 t2 : list nat) (x z : tensor A),
    wf x -> is_perm t1 (length (shape x)) -> is_perm t2 (length (shape x)) ->
    exists r, fuse_transpose t1 t2 = Some r /\
      ((exists y, transpose_rel t1 x y /\ transpose_rel t2 y z) <->
       match r with None => z = x | Some p => transpose_rel p x z end).
Proof.
  intros A t1 t2 x z W P1 P2. destruct (transpose_exists t1 x W P1) as (y & T1). assert (Wy := proj1 (proj2 (proj2 T1))).
  destruct (transpose_exists t2 y Wy) as (z0 & T2); [rewrite (transpose_shape_len _ _ _ T1); exact P2|].
  destruct (fuse_transpose t1 t2) as [r|] eqn:E; [|exfalso; exact (fuse_transpose_total _ _ _ _ _ T1 T2 E)].
  exists r. split; auto. assert (F := fuse_transpose_spec _ _ _ _ _ _ E T1 T2). split.
  - intros (y' & T1' & T2'). exact (fuse_transpose_spec _ _ _ _ _ _ E T1' T2').
  - intro H. exists y. split; auto. destruct r as [p|]; [|congruence]. now rewrite (transpose_fun _ _ _ _ H F).
Qed.
Print Assumptions C18_transpose_fusion_exact.
Example C18_nchw_nhwc : fuse_transpose [0; 2; 3; 1] [0; 3; 1; 2] = Some None /\
  fuse_transpose [0; 2; 3; 1] [0; 2; 3; 1] = Some (Some [0; 3; 1; 2]) /\ is_perm [0; 2; 3; 1] 4.
Proof.
  split; [reflexivity|]. split; [reflexivity|]. apply incl_perm; auto. intros k Hk. destruct k as [|[|[|[|k]]]]; cbn; auto; lia.
Qed.

(** C19 is false: the value 16777217 of type int64, cast to float (24 bits) and back to int64, is not what the
    remaining single cast to int64 gives.  [round24]: the float nearest to an integer, ties to even. *)
Definition round24 (z : Z) : Z :=
  let a := Z.abs z in
  let e := (Z.log2 a - 23)%Z in
  if (e <=? 0)%Z then z
  else let m := (a / 2 ^ e)%Z in
       let r := (a mod 2 ^ e)%Z in
       let h := (2 ^ (e - 1))%Z in
       let m' := if (r <? h)%Z then m else if (h <? r)%Z then (m + 1)%Z else if Z.even m then m else (m + 1)%Z in
       (Z.sgn z * (m' * 2 ^ e))%Z.
Theorem C19_int64_float_int64_refuted :
  can_reduce TFloat TInt64 = true /\
  exists z, in_range (- 2 ^ 63) (2 ^ 63) (inject_Z z) /\ rep TFloat (inject_Z (round24 z)) /\ round24 z <> z.
Proof.
  split; [reflexivity|]. exists 16777217%Z. split; [exists 16777217%Z; split; [reflexivity|lia]|].
  split; [|vm_compute; discriminate]. exists 8388608%Z, 1%Z. vm_compute. intuition discriminate.
Qed.
Print Assumptions C19_int64_float_int64_refuted.
(** and it is false through an integer type towards bool: 1/2 becomes 0 and then false; the single remaining cast
    gives true.  [to_int] truncates, [to_bool] tests for zero, as ONNX prescribes. *)
Definition to_int (v : Q) : Q := inject_Z (Z.quot (Qnum v) (Zpos (Qden v))).
Definition to_bool (v : Q) : Q := if Qeq_bool v 0 then 0%Q else 1%Q.
Theorem C19_float_int_bool_refuted :
  can_reduce TInt32 TBool = true /\ rep TFloat (1 # 2) /\ (to_bool (to_int (1 # 2)) == 0)%Q /\ (to_bool (1 # 2) == 1)%Q.
Proof. split; [reflexivity|]. split; [|split; reflexivity]. exists 1%Z, (-1)%Z. vm_compute. intuition discriminate. Qed.
Print Assumptions C19_float_int_bool_refuted.
(** What holds (partial): for any cast that keeps the values a type can hold, bypassing the cast to t1 is exact
    for every value of the source type s whenever t1 can hold all values of s ([lossless_pair]), and casting twice
    to the same type is casting once. *)
Theorem C19_cast_fusion_exact_partial :
  forall (cast : dtype -> Q -> Q) s t1 t2 v,
    (forall t u w, u == w -> cast t u == cast t w)%Q -> (forall t u, rep t u -> cast t u == u)%Q ->
    lossless_pair s t1 = true -> rep s v -> (cast t2 (cast t1 v) == cast t2 v)%Q.
Proof. intros cast s t1 t2 v C I L R. apply C, I. exact (lossless_pair_sound s t1 L v R). Qed.
Print Assumptions C19_cast_fusion_exact_partial.
Theorem C19_lossless_pairs_partial :
  forall s t, lossless_pair s t = true -> forall v, rep s v -> rep t v.
Proof. intros s t H v. exact (lossless_pair_sound s t H v). Qed.
Print Assumptions C19_lossless_pairs_partial.
Example C19_pairs : lossless_pair TInt32 TDouble = true /\ lossless_pair TFloat TDouble = true /\ lossless_pair TInt16 TFloat = true /\
  lossless_pair TInt64 TFloat = false /\ lossless_pair TBool TInt8 = true /\ can_reduce TDouble TInt32 = true /\
  can_reduce TInt32 TFloat = false /\ can_reduce TBool TInt32 = false.
Proof. repeat split; reflexivity. Qed.

(** C20 is false: reshaping shape [2;3] to [3;2] and then with target [0;-1] gives shape [3;2]; without the first
    Reshape the 0 copies 2 and the result has shape [2;3]. *)
Theorem C20_reshape_zero_refuted :
  exists (x y z z' : tensor nat) t1 t2, reshape_rel false t1 x y /\ reshape_rel false t2 y z /\
    reshape_rel false t2 x z' /\ shape z <> shape z'.
Proof.
  exists (Tensor [2; 3] [1; 2; 3; 4; 5; 6]), (Tensor [3; 2] [1; 2; 3; 4; 5; 6]), (Tensor [3; 2] [1; 2; 3; 4; 5; 6]), (Tensor [2; 3] [1; 2; 3; 4; 5; 6]), [3; 2]%Z, [0; -1]%Z.
  assert (R : forall sh sh' t, size sh = 6 -> size sh' = 6 -> length (filter (Z.eqb (-1)) t) <= 1 -> length sh' = length t ->
    (forall k tt d, nth_error t k = Some tt -> nth_error sh' k = Some d -> dim_ok false sh k tt d) ->
    reshape_rel false t (Tensor sh [1; 2; 3; 4; 5; 6]) (Tensor sh' [1; 2; 3; 4; 5; 6])).
  { intros sh sh' t A1 A2 A3 A4 A5. unfold reshape_rel, wf. cbn [shape data]. rewrite A1, A2. do 6 (split; auto).
    intros ix jx _ _ E. unfold get. cbn [shape data]. now rewrite E. }
  split; [|split; [|split]].
  4: { cbn. discriminate. }
  all: apply R; auto; intros k tt d Ht Hd; destruct k as [|[|[|k]]]; cbn in Ht, Hd; try discriminate;
    injection Ht as <-; injection Hd as <-; unfold dim_ok; cbn; auto; try (right; right; split; [lia|reflexivity]).
Qed.
Print Assumptions C20_reshape_zero_refuted.
(** What holds: dropping the first Reshape is exact when the second target has no 0, or copies only dimensions the
    first Reshape left as they were. *)
Theorem C20_reshape_fusion_exact_partial :
  forall A az1 az2 t1 t2 (x y z : tensor A),
    reshape_rel az1 t1 x y -> reshape_rel az2 t2 y z ->
    (az2 = false -> forall k, nth_error t2 k = Some 0%Z -> nth_error (shape x) k = nth_error (shape y) k) ->
    reshape_rel az2 t2 x z.
Proof. intros A az1 az2 t1 t2 x y z. exact (reshape_reshape az1 az2 t1 t2 x y z). Qed.
Print Assumptions C20_reshape_fusion_exact_partial.

(** C21: a Squeeze followed by an Unsqueeze that the rule cancels (same axes, in whatever way they are given) is the
    identity on every tensor the pair accepts, and the pair accepts exactly the tensors with length 1 there. *)
Theorem C21_squeeze_unsqueeze_cancel_exact :
  forall A opset same (axes1 axes2 : list Z) (x y z : tensor A),
    cancel_squeeze opset same (Some axes1) (Some axes2) = true -> (same = true -> axes1 = axes2) ->
    squeeze_rel axes1 x y -> unsqueeze_rel axes2 y z -> z = x.
Proof.
  intros A opset same a1 a2 x y z C Hs S U.
  assert (E : a1 = a2).
  { unfold cancel_squeeze in C. destruct (Nat.leb opset 12).
    - destruct (list_eq_dec Z.eq_dec a1 a2); congruence.
    - apply orb_true_iff in C. destruct C as [C|C]; auto. destruct (list_eq_dec Z.eq_dec a1 a2); congruence. }
  subst a2. exact (squeeze_unsqueeze a1 x y z S U).
Qed.
Print Assumptions C21_squeeze_unsqueeze_cancel_exact.
Example C21_witness : cancel_squeeze 11 false (Some [0; -1]%Z) (Some [0; -1]%Z) = true /\
  squeeze_rel [0; -1]%Z (Tensor [1; 2; 1] [7; 8]) (Tensor [2] [7; 8]) /\ unsqueeze_rel [0; -1]%Z (Tensor [2] [7; 8]) (Tensor [1; 2; 1] [7; 8]).
Proof.
  split; [reflexivity|].
  assert (G : forall ix, inb ix [1; 2; 1] -> get (Tensor [2] [7; 8]) (drop_axes [0; 2] ix) = get (Tensor [1; 2; 1] [7; 8]) ix).
  { intros [|i [|j [|k [|? ?]]]] I; cbn in I; try tauto. assert (i = 0 /\ k = 0) as [-> ->] by lia. destruct I as (_ & I & _).
    destruct j as [|[|j]]; [reflexivity|reflexivity|lia]. }
  assert (O : forall a, In a [0; 2] -> nth a [1; 2; 1] 0 = 1) by (intros a [<-|[<-|[]]]; reflexivity).
  assert (N : NoDup [0; 2]) by (repeat constructor; cbn; intuition discriminate).
  split.
  - split; [reflexivity|]. split; [reflexivity|]. exists [0; 2]. cbn [shape]. auto.
  - split; [reflexivity|]. split; [reflexivity|]. split; [reflexivity|]. exists [0; 2]. cbn [shape]. split; [reflexivity|]. split; [exact N|].
    split; [exact O|]. split; [reflexivity|]. intros ix I. symmetry. apply G. exact I.
Qed.

(** C22: over the reals the fused Conv computes what Conv followed by BatchNormalization computes, for all weights,
    biases (or none), statistics, epsilon, strides, dilations, padding, groups and inputs. *)
Theorem C22_conv_batchnorm_fusion_exact :
  forall a w b scale offset mean var eps x o i j,
    conv a (weights_new w scale var eps) (Some (bias_new b scale offset mean var eps)) x o i j =
    batch_norm scale offset mean var eps (conv a w b x) o i j.
Proof.
  intros a w b scale offset mean var eps x o i j. unfold batch_norm, conv. cbn iota.
  set (k := scale_new scale var eps o).
  replace (rsum (in_per_group a) (fun c => rsum (kh a) (fun p => rsum (kw a) (fun q =>
     (weights_new w scale var eps o c p q * padded a x ((o / out_per_group a) * in_per_group a + c)%nat (i * stride_h a + p * dil_h a)%nat (j * stride_w a + q * dil_w a)%nat)%R))))
    with (rsum (in_per_group a) (fun c => rsum (kh a) (fun p => rsum (kw a) (fun q =>
     (w o c p q * padded a x ((o / out_per_group a) * in_per_group a + c)%nat (i * stride_h a + p * dil_h a)%nat (j * stride_w a + q * dil_w a)%nat)%R))) * k)%R.
  - unfold bias_new, bias_of. fold k. unfold k, scale_new, Rdiv. destruct b; ring.
  - rewrite <- rsum_scale. apply rsum_ext. intro c. rewrite <- rsum_scale. apply rsum_ext. intro p. rewrite <- rsum_scale. apply rsum_ext. intro q.
    unfold weights_new, back_t, weights_t. fold k. ring.
Qed.
Print Assumptions C22_conv_batchnorm_fusion_exact.
(** a concrete instance: one 1x1 kernel with weight 3, bias 1, statistics mean 2, var 3, epsilon 1, scale 4, offset 5 *)
Example C22_witness :
  weights_new (fun _ _ _ _ => 3%R) (fun _ => 4%R) (fun _ => 3%R) 1%R 0 0 0 0 = 6%R /\
  bias_new (Some (fun _ => 1%R)) (fun _ => 4%R) (fun _ => 5%R) (fun _ => 2%R) (fun _ => 3%R) 1%R 0 = 3%R.
Proof.
  unfold weights_new, bias_new, back_t, weights_t, bias_of, scale_new.
  replace (sqrt (3 + 1)) with 2%R; [split; lra|]. replace (3 + 1)%R with (2 * 2)%R by lra. symmetry. apply sqrt_square. lra.
Qed.
