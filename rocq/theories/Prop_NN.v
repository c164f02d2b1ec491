(** C32 padding, C33 layout, C47 convolution, C48 depthwise convolution, C49 pooling, C50 transposed convolution. *)
From Coq Require Import String List Arith ZArith Reals Bool Lia.
From Verif Require Import Tensor OnnxSpec TensorProofs ConvSpec NNModel NNSpec NNProofs.
Import ListNotations.
Local Open Scope nat_scope.
Local Open Scope list_scope.

Local Ltac desc := unfold describes; repeat first [apply Forall2_nil | apply Forall2_cons]; solve [left; reflexivity | right; reflexivity].
(** C32: whatever the (truthful) static knowledge of the shapes, the paddings set on the node give on every axis ONNX's output
    size and window start equal to TensorFlow's, for SAME, VALID and EXPLICIT padding. *)
Theorem C32_padding_matches_tf fmt pad p N C M ins outs ks ss ds begins ist ost kz dil :
  padding_attr (is_channels_last fmt) pad p -> axes tf_axis p ins ks ss ds outs begins ->
  describes ist (at_layout (is_channels_last fmt) N ins C) -> describes ost (at_layout (is_channels_last fmt) N outs M) ->
  (p = SAME -> forall i, i < length ins -> nthz kz i = Some (Z.of_nat (nth i ks 0))) ->
  match p with EXPLICIT bs _ => length bs = length ins | _ => True end ->
  dil = Some (map Z.of_nat ds) \/ (dil = None /\ ds = repeat 1 (length ds)) ->
  exists a op, add_padding (length ins) fmt pad (Some ist) (Some ost) kz (Some (map Z.of_nat ss)) dil = Some a /\
    pads_denote (length ins) a op /\ axes onnx_axis op ins ks ss ds outs begins.
Proof. exact (add_padding_spec fmt pad p N C M ins outs ks ss ds begins ist ost kz dil). Qed.
(** C32: SAME pads are non-negative and the end gets the odd element. *)
Theorem C32_same_pads_balanced spatial fmt ist ost kz st dil l : add_padding spatial fmt PSame ist ost kz st dil = Some (Pads l) ->
  length l = 2 * spatial /\ forall i, i < spatial -> (0 <= nth i l 0 <= nth (spatial + i) l 0 /\ nth (spatial + i) l 0 <= nth i l 0 + 1)%Z.
Proof. exact (same_pads_balanced spatial fmt ist ost kz st dil l). Qed.
Example C32_witness : axes tf_axis SAME [7; 5] [3; 2] [2; 3] [1; 2] [4; 2] [1; 0] /\
  add_padding 2 "NHWC" PSame (Some [1; 7; 5; 3]%Z) (Some [1; 4; 2; 8]%Z) [3; 2]%Z (Some [2; 3]%Z) (Some [1; 2]%Z) = Some (Pads [1; 0; 1; 1]%Z).
Proof. split; [|reflexivity]. do 9 (split; [reflexivity || (repeat constructor)|]). intros [|[|i]] I; cbn in I; [split; reflexivity|split; reflexivity|lia]. Qed.
(** C32, refuted: with a filter of statically unknown size the paddings are computed from the placeholder -1. *)
Theorem C32_unknown_kernel_refuted :
  exists ins ks ss ds outs begins ist ost kst a op, axes tf_axis SAME ins ks ss ds outs begins /\
    describes ist (at_layout true 1 ins 1) /\ describes ost (at_layout true 1 outs 1) /\ describes kst ks /\
    add_padding (length ins) "NHWC" PSame (Some ist) (Some ost) kst (Some (map Z.of_nat ss)) None = Some a /\ pads_denote (length ins) a op /\
    ~ axes onnx_axis op ins ks ss ds outs begins.
Proof.
  exists [5; 5], [3; 3], [1; 1], [1; 1], [5; 5], [1; 1], [1; 5; 5; 1]%Z, [1; 5; 5; 1]%Z, [-1; -1]%Z, (Pads [0; 0; 0; 0]%Z), (PADS [0; 0] [0; 0]).
  split. { do 9 (split; [reflexivity || (repeat constructor)|]). intros [|[|i]] I; cbn in I; [split; reflexivity|split; reflexivity|lia]. }
  split; [desc|]. split; [desc|]. split; [desc|]. split; [reflexivity|].
  split; [apply (pd_pads 2 [0; 0] [0; 0]); reflexivity|].
  intros (_ & _ & _ & _ & _ & _ & _ & _ & _ & H). destruct (H 0 ltac:(cbn; lia)) as (_ & E & _). cbn in E. discriminate.
Qed.

(** C33: the two layout permutations are permutations and inverse to each other, for every number of spatial axes. *)
Theorem C33_layout_perms_inverse n : is_perm (channels_first_perm n) (n + 2) /\ is_perm (channels_last_perm n) (n + 2) /\
  pick (channels_last_perm n) (channels_first_perm n) = seq 0 (n + 2) /\ pick (channels_first_perm n) (channels_last_perm n) = seq 0 (n + 2).
Proof. split; [apply cf_perm|]. split; [apply cl_perm|]. split; [apply cl_cf_inverse|apply cf_cl_inverse]. Qed.
(** C33: converting a tensor to channels first and back is lossless. *)
Theorem C33_layout_roundtrip {A} n (x y z : tensor A) : length (shape x) = n + 2 ->
  transpose_rel (channels_first_perm n) x y -> transpose_rel (channels_last_perm n) y z -> z = x.
Proof.
  intros L T1 T2. assert (T := transpose_back _ (channels_last_perm n) (n + 2) x y L (cl_perm n) (cl_cf_inverse n) T1). exact (transpose_fun _ _ _ _ T2 T).
Qed.
(** C33: elements go where the layouts say: [b, sp..., c] becomes [b, c, sp...]. *)
Theorem C33_channels_first_moves_channel b sp c : pick (channels_first_perm (length sp)) (at_layout true b sp c) = at_layout false b sp c /\
  pick (channels_last_perm (length sp)) (at_layout false b sp c) = at_layout true b sp c.
Proof. split; [apply pick_cf|apply pick_cl]. Qed.
(** C33: the shape helpers agree with what transposing does to the shape. *)
Theorem C33_shape_helper_first n (s : list nat) : length s = n + 2 -> make_shape_channels_first s = pick (channels_first_perm n) s.
Proof. exact (shape_cf_perm s n). Qed.
Theorem C33_spatial_map (s : list nat) p : is_perm p (length s) -> spatial_map (map Z.of_nat s) p = Some (map Z.of_nat (pick p s)).
Proof. intro P. apply spatial_map_perm. intros i I. apply (is_perm_in _ _ P). exact I. Qed.
(** C33, refuted: the channels-last shape helper duplicates the channel axis and drops the last spatial axis. *)
Theorem C33_shape_helper_last_refuted : exists n (s : list nat), length s = n + 2 /\ make_shape_channels_last s <> pick (channels_last_perm n) s.
Proof. exists 2, [1; 3; 4; 5]. split; [reflexivity|]. cbn. discriminate. Qed.

(** C47: for any number of spatial axes, data format, padding, strides, dilations and groups: when TensorFlow's convolution of x
    and w is y, the nodes the handler leaves (Transpose, Conv, Transpose) compute y. *)
Theorem C47_conv_conversion_partial n p ss ds x w y :
  conv_node n p ss ds x w y -> (p = SAME -> kernel_known n) ->
  (channels (is_channels_last (tf_fmt n)) (shape x) = nth (length ss) (shape w) 0 \/ channels_known n) ->
  tf_conv_rel (is_channels_last (tf_fmt n)) p ss ds x w y ->
  exists c, convert_conv n = Some c /\ converted_conv_rel (tf_spatial n) c x w y.
Proof. exact (convert_conv_correct n p ss ds x w y). Qed.

(** a grouped convolution (2 groups) on a 3x3 image with stride 2 *)
Definition x1 : tensor R := Tensor [1; 3; 3; 2] (map INR (seq 1 18)).
Definition w1 : tensor R := Tensor [2; 2; 1; 4] (map INR (seq 1 16)).
Definition y1 : tensor R := from_fun [1; 2; 2; 4] (fun ix =>
  let b := nth 0 ix 0 in let o := [nth 1 ix 0; nth 2 ix 0] in let m := nth 3 ix 0 in
  msum [2; 2] (fun t => rsum 1 (fun q => padded_value true x1 b (m / 2 * 1 + q)%nat (tap [3; 3] [2; 2] [1; 1] [0; 0] o t)%nat * value w1 (t ++ [q; m])))%R).
Definition n1 (ks : list Z) (fmt : string) (cl_shape : list Z) := TFConv 2 fmt PSame (Some [1; 2; 2; 1]%Z) None (Some cl_shape) (Some ks) (Some [1; 2; 2; 4]%Z).
Lemma y1_tf : tf_conv_rel true SAME [2; 2] [1; 1] x1 w1 y1.
Proof.
  exists 1, [3; 3], [2; 2], 1, 2, 2, [2; 2], [0; 0].
  repeat (split; [reflexivity || lia || (apply from_fun_wf)|]). split.
  - do 9 (split; [reflexivity || (repeat constructor)|]). intros [|[|i]] I; cbn in I; [split; reflexivity|split; reflexivity|lia].
  - intros b o m B O M. unfold y1. destruct o as [|o1 [|o2 [|? ?]]]; cbn in O; try tauto. rewrite get_from_fun; [reflexivity|]. cbn. lia.
Qed.
Example C47_witness : let n := n1 [2; 2; 1; 4]%Z "NHWC" [-1; 3; 3; 2]%Z in
  conv_node n SAME [2; 2] [1; 1] x1 w1 y1 /\ kernel_known n /\ channels_known n /\ tf_conv_rel true SAME [2; 2] [1; 1] x1 w1 y1.
Proof.
  cbn zeta. split; [|split; [|split; [|exact y1_tf]]].
  - split; [reflexivity|]. split; [constructor|]. split; [exact I|]. split; [reflexivity|]. split; [right; split; reflexivity|].
    split; [|split]; eexists; (split; [reflexivity|]); desc.
  - eexists. split; [reflexivity|]. intros [|[|i]] Hi; cbn in *; lia.
  - do 2 eexists. split; [reflexivity|]. split; [reflexivity|]. cbn. split; [lia|]. left. split; [reflexivity|lia].
Qed.
(** C47, refuted: when the channel count is not statically known a grouped convolution is exported with group = 1, which ONNX
    rejects (no output is possible for these shapes). *)
Theorem C47_unknown_channels_refuted :
  exists n p ss ds x w y, conv_node n p ss ds x w y /\ kernel_known n /\ tf_conv_rel (is_channels_last (tf_fmt n)) p ss ds x w y /\
    exists c, convert_conv n = Some c /\ forall z, ~ converted_conv_rel (tf_spatial n) c x w z.
Proof.
  exists (n1 [2; 2; 1; 4]%Z "NHWC" [1; 3; 3; -1]%Z), SAME, [2; 2], [1; 1], x1, w1, y1. split; [|split; [|split; [exact y1_tf|]]].
  - split; [reflexivity|]. split; [constructor|]. split; [exact I|]. split; [reflexivity|]. split; [right; split; reflexivity|].
    split; [|split]; eexists; (split; [reflexivity|]); desc.
  - eexists. split; [reflexivity|]. intros [|[|i]] Hi; cbn in *; lia.
  - eexists. split; [reflexivity|]. intros z (xt & w' & wt & yt & op & ss & ds & Tx & Ew & Tw & _ & _ & _ & _ & CR & _).
    cbn in Ew. subst w'. destruct CR as (N & ins & ks & cg & og & outs & begins & _ & _ & _ & _ & Sx & Sw & _).
    destruct Tx as (_ & _ & _ & Sxt & _). destruct Tw as (_ & _ & _ & Swt & _). rewrite Sx in Sxt. rewrite Sw in Swt. cbn in Sxt, Swt. inversion Sxt. inversion Swt. lia.
Qed.

(** C48: depthwise convolution (reshaped filter, one group per input channel). *)
Theorem C48_depthwise_conversion n p ss ds x w y :
  conv_node n p ss ds x w y -> length ss = 2 -> tf_k_shape n = Some (map Z.of_nat (shape w)) ->
  tf_depthwise_rel (is_channels_last (tf_fmt n)) p ss ds x w y ->
  exists c, convert_depthwise n = Some c /\ converted_conv_rel 2 c x w y.
Proof. exact (convert_depthwise_correct n p ss ds x w y). Qed.
Definition w2 : tensor R := Tensor [2; 2; 2; 3] (map INR (seq 1 24)).
Definition y2 : tensor R := from_fun [1; 2; 2; 6] (fun ix =>
  let b := nth 0 ix 0 in let o := [nth 1 ix 0; nth 2 ix 0] in let m := nth 3 ix 0 in
  msum [2; 2] (fun t => padded_value true x1 b (m / 3)%nat (tap [3; 3] [1; 1] [1; 1] [0; 0] o t)%nat * value w2 (t ++ [m / 3; m mod 3])%nat)%R).
Example C48_witness : let n := TFConv 2 "NHWC" PValid (Some [1; 1; 1; 1]%Z) None (Some [-1; 3; 3; 2]%Z) (Some [2; 2; 2; 3]%Z) (Some [-1; -1; 2; 6]%Z) in
  conv_node n VALID [1; 1] [1; 1] x1 w2 y2 /\ tf_depthwise_rel true VALID [1; 1] [1; 1] x1 w2 y2.
Proof.
  cbn zeta. split.
  - split; [reflexivity|]. split; [constructor|]. split; [exact I|]. split; [reflexivity|]. split; [right; split; reflexivity|].
    split; [|split]; eexists; (split; [reflexivity|]); desc.
  - exists 1, [3; 3], [2; 2], 2, 3, [2; 2], [0; 0].
    repeat (split; [reflexivity || lia || (apply from_fun_wf)|]). split.
    + do 9 (split; [reflexivity || (repeat constructor)|]). intros [|[|i]] I; cbn in I; [cbn; lia|cbn; lia|lia].
    + intros b o k q B O K Q. unfold y2. destruct o as [|o1 [|o2 [|? ?]]]; cbn in O; try tauto.
      rewrite get_from_fun by (cbn; lia). cbn [nth at_layout app]. rewrite Nat.div_add_l by lia. rewrite (Nat.div_small q 3) by lia. rewrite Nat.add_0_r.
      rewrite (Nat.add_comm (k * 3)), Nat.mod_add by lia. rewrite Nat.mod_small by lia. reflexivity.
Qed.

(** C49: max and average pooling, any aggregate of the non-padding elements of each window. *)
Theorem C49_pool_conversion {A} (agg : list A -> A) n p ks ss x y ist ost :
  let cl := is_channels_last (tp_fmt n) in
  tp_spatial n = length ss -> padding_attr cl (tp_padding n) p -> match p with EXPLICIT bs _ => length bs = length ss | _ => True end ->
  tp_ksize n = tf_dims cl ks -> tp_strides n = tf_dims cl ss ->
  tp_in_shape n = Some ist -> describes ist (shape x) -> tp_out_shape n = Some ost -> describes ost (shape y) ->
  tf_pool_rel agg cl p ks ss (repeat 1 (length ss)) x y ->
  exists c, convert_pool n = Some c /\ converted_pool_rel agg (tp_spatial n) c x y.
Proof. exact (convert_pool_correct agg n p ks ss x y ist ost). Qed.
(** maximum over 2x2 windows of a 3x3 image, SAME padding *)
Definition lmax (l : list nat) : nat := fold_right Nat.max 0 l.
Example C49_witness :
  tf_pool_rel lmax true SAME [2; 2] [2; 2] [1; 1] (Tensor [1; 3; 3; 1] [1; 9; 3; 4; 5; 6; 7; 8; 2]) (Tensor [1; 2; 2; 1] [9; 6; 8; 2]) /\
  describes [-1; 3; 3; 1]%Z [1; 3; 3; 1] /\ padding_attr true PSame SAME.
Proof.
  split; [|split; [desc|constructor]].
  exists 1, [3; 3], 1, [2; 2], [0; 0]. repeat (split; [reflexivity|]). split.
  - do 9 (split; [reflexivity || (repeat constructor)|]). intros [|[|i]] I; cbn in I; [split; reflexivity|split; reflexivity|lia].
  - intros b o c B O Cc. assert (b = 0) by lia. assert (c = 0) by lia. subst. destruct o as [|o1 [|o2 [|? ?]]]; cbn in O; try tauto. destruct O as (O1 & O2 & _).
    assert (C1 : o1 = 0 \/ o1 = 1) by lia. assert (C2 : o2 = 0 \/ o2 = 1) by lia.
    destruct C1 as [-> | ->], C2 as [-> | ->]; [exists [1; 9; 4; 5]|exists [3; 6]|exists [7; 8]|exists [2]]; split; reflexivity.
Qed.

(** C50: for SAME padding, when the output is not larger than the transposed convolution of the input, the explicit pads give TF's
    alignment and output size. *)
Theorem C50_conv_transpose_pads_partial inp k s d out b : 1 <= s -> 1 <= k -> 1 <= d -> 1 <= out -> out <= s * (inp - 1) + eff k d ->
  tf_axis SAME 0 out k s d inp b ->
  let pads := conv_transpose_pads (Z.of_nat inp) (Z.of_nat k) (Z.of_nat s) (Z.of_nat d) (Z.of_nat out) in
  fst pads = Z.of_nat b /\ (0 <= fst pads /\ 0 <= snd pads)%Z /\ onnx_conv_transpose_size inp k s d pads = Z.of_nat out.
Proof. exact (conv_transpose_same inp k s d out b). Qed.
Example C50_witness : 8 <= 2 * (4 - 1) + eff 3 1 /\ tf_axis SAME 0 8 3 2 1 4 0 /\ conv_transpose_pads 4 3 2 1 8 = (0, 1)%Z.
Proof. cbn. split; [lia|]. split; [split; reflexivity|reflexivity]. Qed.
(** C50, refuted: otherwise the pads become negative (ONNX requires them to be non-negative), also for VALID padding, and from
    stride 3 on the begin differs from TF's, so the output is shifted. *)
Theorem C50_conv_transpose_shift_refuted :
  (exists inp k s d out b, tf_axis SAME 0 out k s d inp b /\ 1 <= out /\
    fst (conv_transpose_pads (Z.of_nat inp) (Z.of_nat k) (Z.of_nat s) (Z.of_nat d) (Z.of_nat out)) <> Z.of_nat b) /\
  (exists inp k s d out b, tf_axis VALID 0 out k s d inp b /\ 1 <= out /\
    fst (conv_transpose_pads (Z.of_nat inp) (Z.of_nat k) (Z.of_nat s) (Z.of_nat d) (Z.of_nat out)) <> Z.of_nat b) /\
  (exists inp k s d out b, tf_axis VALID 0 out k s d inp b /\ 1 <= out /\
    (snd (conv_transpose_pads (Z.of_nat inp) (Z.of_nat k) (Z.of_nat s) (Z.of_nat d) (Z.of_nat out)) < 0)%Z).
Proof.
  split; [exists 1, 1, 3, 1, 3, 0|split; [exists 2, 3, 3, 1, 8, 0|exists 2, 1, 2, 1, 4, 0]]; cbn; repeat split; try lia; try discriminate.
Qed.
Print Assumptions C32_padding_matches_tf.
Print Assumptions C32_same_pads_balanced.
Print Assumptions C32_unknown_kernel_refuted.
Print Assumptions C33_layout_perms_inverse.
Print Assumptions C33_layout_roundtrip.
Print Assumptions C33_channels_first_moves_channel.
Print Assumptions C33_shape_helper_first.
Print Assumptions C33_spatial_map.
Print Assumptions C33_shape_helper_last_refuted.
Print Assumptions C47_conv_conversion_partial.
Print Assumptions C47_unknown_channels_refuted.
Print Assumptions C48_depthwise_conversion.
Print Assumptions C49_pool_conversion.
Print Assumptions C50_conv_transpose_pads_partial.
Print Assumptions C50_conv_transpose_shift_refuted.
