(** Specification of convolution and pooling in TensorFlow (tf.nn.convolution, tf.nn.max_pool / avg_pool, "Notes on padding" of
    tf.nn) and in ONNX (Conv, MaxPool, AveragePool), for any number of spatial axes.  Written from the two documentations. *)
From Coq Require Import String List Arith ZArith Reals Bool.
From Verif Require Import Tensor OnnxSpec ConvSpec NNModel.
Import ListNotations.
Local Open Scope nat_scope.
Local Open Scope list_scope.

(** size of a dilated kernel *)
Definition eff (k d : nat) : nat := d * (k - 1) + 1.
Definition ceil_div (a b : nat) : nat := (a + b - 1) / b.

(** ** one spatial axis: [out] output positions, window starting [begin] before the input *)
Inductive tf_padding_spec := SAME | VALID | EXPLICIT (begins ends : list nat).
(** axis number i of size [inp], kernel size k, stride s, dilation d *)
Definition tf_axis (p : tf_padding_spec) (i inp k s d out begin : nat) : Prop :=
  match p with
  | SAME => out = ceil_div inp s /\
      begin = (if inp mod s =? 0 then eff k d - s else eff k d - inp mod s) / 2
  | VALID => eff k d <= inp /\ out = ceil_div (inp - eff k d + 1) s /\ begin = 0
  | EXPLICIT bs es => eff k d <= inp + nth i bs 0 + nth i es 0 /\ out = (inp + nth i bs 0 + nth i es 0 - eff k d) / s + 1 /\ begin = nth i bs 0
  end.
Inductive onnx_padding := SAME_UPPER | PADS (begins ends : list nat).
Definition onnx_axis (p : onnx_padding) (i inp k s d out begin : nat) : Prop :=
  match p with
  | SAME_UPPER => out = ceil_div inp s /\ begin = ((out - 1) * s + eff k d - inp) / 2
  | PADS bs es => eff k d <= inp + nth i bs 0 + nth i es 0 /\ out = (inp + nth i bs 0 + nth i es 0 - eff k d) / s + 1 /\ begin = nth i bs 0
  end.
(** all axes *)
Definition axes {P} (axis : P -> nat -> nat -> nat -> nat -> nat -> nat -> nat -> Prop) (p : P) (ins ks ss ds outs begins : list nat) : Prop :=
  let n := length ins in
  length ks = n /\ length ss = n /\ length ds = n /\ length outs = n /\ length begins = n /\
  Forall (fun x => 1 <= x) ins /\ Forall (fun x => 1 <= x) ks /\ Forall (fun x => 1 <= x) ss /\ Forall (fun x => 1 <= x) ds /\
  forall i, i < n -> axis p i (nth i ins 0) (nth i ks 0) (nth i ss 0) (nth i ds 0) (nth i outs 0) (nth i begins 0).

(** ** windows *)
(** the input position of tap [t] of the window of output position [o], unless it lies in the padding *)
Fixpoint tap (ins ss ds begins o t : list nat) : option (list nat) :=
  match ins, ss, ds, begins, o, t with
  | [], [], [], [], [], [] => Some []
  | n :: ins', s :: ss', d :: ds', b :: begins', i :: o', k :: t' =>
      if (b <=? i * s + k * d) && (i * s + k * d - b <? n)
      then option_map (cons (i * s + k * d - b)) (tap ins' ss' ds' begins' o' t') else None
  | _, _, _, _, _, _ => None
  end.
(** position of batch b, spatial position sp, channel c *)
Definition at_layout (channels_last : bool) (b : nat) (sp : list nat) (c : nat) : list nat :=
  if channels_last then b :: sp ++ [c] else b :: c :: sp.
Definition value (t : tensor R) (ix : list nat) : R := match get t ix with Some v => v | None => 0%R end.
(** zero outside *)
Definition padded_value (cl : bool) (x : tensor R) (b c : nat) (pos : option (list nat)) : R :=
  match pos with Some sp => value x (at_layout cl b sp c) | None => 0%R end.
(** sum over all indices of a shape *)
Fixpoint msum (sh : list nat) (f : list nat -> R) : R :=
  match sh with [] => f [] | n :: sh' => rsum n (fun i => msum sh' (fun ix => f (i :: ix))) end.

(** TF: filter [spatial..., in channels per group, out channels] *)
Definition tf_conv_rel (cl : bool) (p : tf_padding_spec) (ss ds : list nat) (x w y : tensor R) : Prop :=
  exists N ins ks cg groups og outs begins,
    wf x /\ wf w /\ wf y /\ 1 <= groups /\ 1 <= cg /\ 1 <= og /\
    shape x = at_layout cl N ins (groups * cg) /\ shape w = ks ++ [cg; groups * og] /\ shape y = at_layout cl N outs (groups * og) /\
    axes tf_axis p ins ks ss ds outs begins /\
    forall b o m, b < N -> inb o outs -> m < groups * og ->
      get y (at_layout cl b o m) =
        Some (msum ks (fun t => rsum cg (fun q =>
          padded_value cl x b (m / og * cg + q) (tap ins ss ds begins o t) * value w (t ++ [q; m])))%R).
(** ONNX Conv: X [N, C, spatial...], W [M, C/group, kernel...]; attribute kernel_shape must agree with W when given *)
Definition onnx_conv_rel (group : nat) (kernel_shape : option (list nat)) (p : onnx_padding) (ss ds : list nat) (x w y : tensor R) : Prop :=
  exists N ins ks cg og outs begins,
    wf x /\ wf w /\ wf y /\ 1 <= group /\
    shape x = N :: group * cg :: ins /\ shape w = group * og :: cg :: ks /\ shape y = N :: group * og :: outs /\
    match kernel_shape with Some k => k = ks | None => True end /\
    axes onnx_axis p ins ks ss ds outs begins /\
    forall b m o, b < N -> m < group * og -> inb o outs ->
      get y (b :: m :: o) =
        Some (rsum cg (fun c => msum ks (fun t =>
          value w (m :: c :: t) * padded_value false x b (m / og * cg + c) (tap ins ss ds begins o t)))%R).
(** depthwise convolution: filter [spatial..., in channels, multiplier]; output channel k * multiplier + q *)
Definition tf_depthwise_rel (cl : bool) (p : tf_padding_spec) (ss ds : list nat) (x w y : tensor R) : Prop :=
  exists N ins ks C mult outs begins,
    wf x /\ wf w /\ wf y /\ 1 <= C /\ 1 <= mult /\
    shape x = at_layout cl N ins C /\ shape w = ks ++ [C; mult] /\ shape y = at_layout cl N outs (C * mult) /\
    axes tf_axis p ins ks ss ds outs begins /\
    forall b o k q, b < N -> inb o outs -> k < C -> q < mult ->
      get y (at_layout cl b o (k * mult + q)) =
        Some (msum ks (fun t => padded_value cl x b k (tap ins ss ds begins o t) * value w (t ++ [k; q]))%R).

(** ** pooling: some aggregate (maximum, mean) of the elements of the window that are not in the padding *)
Fixpoint indices (sh : list nat) : list (list nat) :=
  match sh with [] => [[]] | n :: sh' => flat_map (fun i => map (cons i) (indices sh')) (seq 0 n) end.
Definition window {A} (cl : bool) (x : tensor A) (ins ks ss ds begins : list nat) (b c : nat) (o : list nat) : list (option A) :=
  flat_map (fun t => match tap ins ss ds begins o t with Some sp => [get x (at_layout cl b sp c)] | None => [] end) (indices ks).
Definition pool_rel {A P} (axis : P -> nat -> nat -> nat -> nat -> nat -> nat -> nat -> Prop) (agg : list A -> A) (cl : bool) (p : P)
  (ks ss ds : list nat) (x y : tensor A) : Prop :=
  exists N ins C outs begins,
    wf x /\ wf y /\ shape x = at_layout cl N ins C /\ shape y = at_layout cl N outs C /\ axes axis p ins ks ss ds outs begins /\
    forall b o c, b < N -> inb o outs -> c < C ->
      exists els, window cl x ins ks ss ds begins b c o = map Some els /\ get y (at_layout cl b o c) = Some (agg els).
Definition tf_pool_rel {A} := @pool_rel A tf_padding_spec tf_axis.
(** ONNX pools are channels first *)
Definition onnx_pool_rel {A} (agg : list A -> A) := @pool_rel A onnx_padding onnx_axis agg false.

(** ** how TF node attributes and statically known shapes describe these quantities *)
Definition tf_dims (cl : bool) (l : list nat) : list Z :=
  map Z.of_nat (at_layout cl 1 l 1).
Definition describes (static : list Z) (sh : list nat) : Prop := Forall2 (fun z n => z = (-1)%Z \/ z = Z.of_nat n) static sh.
(** the padding attributes of a TF node *)
Definition flat_explicit (cl : bool) (bs es : list nat) : list Z :=
  let sp := flat_map (fun be => [Z.of_nat (fst be); Z.of_nat (snd be)]) (combine bs es) in
  if cl then [0; 0]%Z ++ sp ++ [0; 0]%Z else [0; 0; 0; 0]%Z ++ sp.
Definition channels (cl : bool) (sh : list nat) : nat := if cl then last sh 0 else nth 1 sh 0.
Inductive padding_attr (cl : bool) : NNModel.padding -> tf_padding_spec -> Prop :=
| pa_same : padding_attr cl PSame SAME
| pa_valid : padding_attr cl PValid VALID
| pa_explicit bs es : length bs = length es -> padding_attr cl (PExplicit (flat_explicit cl bs es)) (EXPLICIT bs es).
(** the meaning of the pads / auto_pad attributes of an ONNX node with n spatial axes: begins then ends, default 0 *)
Inductive pads_denote (n : nat) : pads_attr -> onnx_padding -> Prop :=
| pd_none : pads_denote n NoPads (PADS (repeat 0 n) (repeat 0 n))
| pd_auto : pads_denote n AutoPadSameUpper SAME_UPPER
| pd_pads bs es : length bs = n -> length es = n -> pads_denote n (Pads (map Z.of_nat (bs ++ es))) (PADS bs es).
(** an optional Transpose node *)
Definition opt_transpose {A} (p : option (list nat)) (x y : tensor A) : Prop :=
  match p with Some perm => transpose_rel perm x y | None => y = x end.
(** what the nodes left by the convolution handlers compute from the TF inputs x (data) and w (filter) *)
Definition converted_conv_rel (n : nat) (c : onnx_conv) (x w y : tensor R) : Prop :=
  exists xt w' wt yt op ss ds,
    opt_transpose (oc_in_perm c) x xt /\
    match oc_k_reshape c with Some target => reshape_rel false target w w' | None => w' = w end /\ transpose_rel (oc_k_perm c) w' wt /\
    pads_denote n (oc_pads c) op /\ oc_strides c = Some (map Z.of_nat ss) /\
    match oc_dilations c with Some d => d = map Z.of_nat ds | None => ds = repeat 1 n end /\
    (0 <= oc_group c)%Z /\ onnx_conv_rel (Z.to_nat (oc_group c)) (option_map (map Z.to_nat) (oc_kernel c)) op ss ds xt wt yt /\
    opt_transpose (oc_out_perm c) yt y.
Definition converted_pool_rel {A} (agg : list A -> A) (n : nat) (c : onnx_pool) (x y : tensor A) : Prop :=
  exists xt yt op ks ss ds,
    opt_transpose (op_in_perm c) x xt /\ pads_denote n (op_pads c) op /\ op_kernel c = map Z.of_nat ks /\ op_strides c = map Z.of_nat ss /\
    match op_dilations c with Some d => d = map Z.of_nat ds | None => ds = repeat 1 n end /\
    onnx_pool_rel agg op ks ss ds xt yt /\ opt_transpose (op_out_perm c) yt y.
(** [n] is a TF convolution node with data format, paddings p, strides ss and dilations ds, and its statically known shapes are
    right for the tensors x, w, y *)
Definition conv_node (n : tf_conv) (p : tf_padding_spec) (ss ds : list nat) (x w y : tensor R) : Prop :=
  let cl := is_channels_last (tf_fmt n) in
  tf_spatial n = length ss /\ padding_attr cl (tf_padding n) p /\ match p with EXPLICIT bs _ => length bs = length ss | _ => True end /\
  tf_strides n = Some (tf_dims cl ss) /\
  (tf_dilations n = Some (tf_dims cl ds) \/ (tf_dilations n = None /\ ds = repeat 1 (length ss))) /\
  (exists ist, tf_in_shape n = Some ist /\ describes ist (shape x)) /\
  (exists kst, tf_k_shape n = Some kst /\ describes kst (shape w)) /\
  (exists ost, tf_out_shape n = Some ost /\ describes ost (shape y)).
(** the spatial sizes of the filter are statically known *)
Definition kernel_known (n : tf_conv) : Prop :=
  exists kst, tf_k_shape n = Some kst /\ forall i, i < tf_spatial n -> nth i kst 0%Z <> (-1)%Z.
(** the channel counts of input and filter are statically known and the data format is one of the two-dimensional ones *)
Definition channels_known (n : tf_conv) : Prop :=
  exists ist kst, tf_in_shape n = Some ist /\ tf_k_shape n = Some kst /\ nth (length kst - 2) kst 0%Z <> (-1)%Z /\
    ((tf_fmt n = "NHWC"%string /\ last ist 0%Z <> (-1)%Z) \/ (tf_fmt n = "NCHW"%string /\ nth 1 ist 0%Z <> (-1)%Z)).

(** ** transposed convolution (one axis): out[q] = sum of in[i] * w[t] over i, t with i * s + t * d - begin = q, q < out.  In
    TensorFlow (Conv2DBackpropInput) the begin is the one of the forward convolution from size [out] to size [inp]; ONNX
    ConvTranspose with explicit pads has begin = pads[0] and output size s * (inp - 1) + eff - pads[0] - pads[1], pads >= 0. *)
Definition onnx_conv_transpose_size (inp k s d : nat) (pads : Z * Z) : Z :=
  (Z.of_nat s * (Z.of_nat inp - 1) + Z.of_nat (eff k d) - fst pads - snd pads)%Z.
