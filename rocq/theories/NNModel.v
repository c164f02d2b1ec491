(** Models of tf2onnx/onnx_opset/nn.py: layout helpers, explicit padding, and the Conv / DepthwiseConv2d / pooling handlers.
    Shapes and attributes are lists of integers, -1 is an unknown dimension, [None] results are raised exceptions. *)
From Coq Require Import String ZArith List Bool.
From Verif Require Import FlexModel.
Import ListNotations.
Local Open Scope Z_scope.
Local Open Scope list_scope.

Definition nthz (l : list Z) (i : nat) : option Z := nth_error l i.
Fixpoint traverse {A B} (f : A -> option B) (l : list A) : option (list B) :=
  match l with [] => Some [] | a :: l' => do b <- f a; do r <- traverse f l'; Some (b :: r) end.

(** nn.py:24-28 spatial_map: new_shape[i] = shape[perm[i]] for the i in perm (the perms used are permutations of all axes) *)
Definition spatial_map (shape : list Z) (perm : list nat) : option (list Z) := traverse (nthz shape) perm.
(** nn.py:31-34 *)
Definition is_channels_last (data_format : string) : bool := negb (String.prefix "NC" data_format).
(** nn.py:37-46; s[-1:], s[1:-1] and s[1:2] of a list of length n *)
Definition make_shape_channels_first {A} (s : list A) : list A :=
  firstn 1 s ++ skipn (length s - 1) s ++ firstn (length s - 2) (skipn 1 s).
Definition make_shape_channels_last {A} (s : list A) : list A :=
  firstn 1 s ++ firstn (length s - 2) (skipn 1 s) ++ firstn 1 (skipn 1 s).
(** nn.py:49-58 *)
Definition channels_first_perm (spatial : nat) : list nat := [0%nat; (spatial + 1)%nat] ++ seq 1 spatial.
Definition channels_last_perm (spatial : nat) : list nat := [0%nat] ++ seq 2 spatial ++ [1%nat].
(** nn.py:121 *)
Definition kernel_perm (spatial : nat) : list nat := [(spatial + 1)%nat; spatial] ++ seq 0 spatial.

Inductive padding := PAbsent | PSame | PValid | PExplicit (explicit_paddings : list Z) | POther.
(** what is set on the node: nothing, auto_pad=SAME_UPPER, or pads *)
Inductive pads_attr := NoPads | AutoPadSameUpper | Pads (l : list Z).

(** nn.py:242-253: total padding of one axis and its distribution *)
Definition same_pad (input output kernel stride dilation : Z) : Z :=
  Z.max ((output - 1) * stride + dilation * (kernel - 1) + 1 - input) 0.
(** nn.py:199-272 add_padding; shape arguments as the graph has them (None = unknown rank) *)
Definition add_padding (spatial : nat) (fmt : string) (pad : padding) (in_shape out_shape : option (list Z))
  (kernel : list Z) (strides : option (list Z)) (dilations : option (list Z)) : option pads_attr :=
  let dil := match dilations with Some d => d | None => repeat 1 spatial end in
  match pad with
  | PAbsent => Some NoPads
  | PSame =>
      do i0 <- in_shape; do o0 <- out_shape;
      if negb (Nat.eqb (length i0) (spatial + 2)) then None
      else if negb (Nat.eqb (length o0) (spatial + 2)) then None
      else
        let i1 := if is_channels_last fmt then make_shape_channels_first i0 else i0 in
        let o1 := if is_channels_last fmt then make_shape_channels_first o0 else o0 in
        if existsb (fun i => (nth (i + 2) i1 0 =? -1) || (nth (i + 2) o1 0 =? -1)) (seq 0 spatial) then Some AutoPadSameUpper
        else
          do ps <- traverse (fun i => do inp <- nthz i1 (i + 2); do out <- nthz o1 (i + 2); do sl <- strides; do s <- nthz sl i;
                                      do k <- nthz kernel i; do d <- nthz dil i; Some (same_pad inp out k s d)) (seq 0 spatial);
          Some (Pads (map (fun p => p / 2) ps ++ map (fun p => p - p / 2) ps))
  | PValid => Some NoPads
  | PExplicit l =>
      let d := if is_channels_last fmt then 1%nat else 2%nat in
      do bs <- traverse (fun i => nthz l ((d + i) * 2)) (seq 0 spatial);
      do es <- traverse (fun i => nthz l ((d + i) * 2 + 1)) (seq 0 spatial);
      Some (Pads (bs ++ es))
  | POther => None
  end.

(** nn.py:274-284 parse_dims_attr *)
Definition parse_dims_attr (fmt : string) (dims : list Z) (spatial : nat) : list Z :=
  if Nat.eqb (length dims) spatial then dims
  else if is_channels_last fmt then firstn (length dims - 2) (skipn 1 dims) else skipn 2 dims.
(** nn.py:286-303 conv_dims_attr: the value set on the node and returned *)
Definition conv_dims_attr (fmt : string) (attr : option (list Z)) (spatial : nat) : option (list Z) :=
  option_map (fun dims => parse_dims_attr fmt dims spatial) attr.
(** nn.py:306-321 conv_kernel_shape: (returned value, value of the kernel_shape attribute) *)
Definition conv_kernel_shape (kshape : list Z) (spatial : nat) : option (list Z * option (list Z)) :=
  if negb (Nat.eqb (length kshape) (spatial + 2)) then None
  else let k := firstn spatial kshape in Some (k, if forallb (fun d => 0 <? d) k then Some k else None).

(** The nodes a handler leaves behind: Transpose (or transposed constant) on the data input, Reshape and Transpose on the
    kernel, the Conv with its attributes, Transpose on the output. *)
Record onnx_conv := OnnxConv { oc_in_perm : option (list nat); oc_k_reshape : option (list Z); oc_k_perm : list nat; oc_kernel : option (list Z);
  oc_strides : option (list Z); oc_dilations : option (list Z); oc_pads : pads_attr; oc_group : Z; oc_out_perm : option (list nat) }.
Record tf_conv := TFConv { tf_spatial : nat; tf_fmt : string; tf_padding : padding; tf_strides : option (list Z); tf_dilations : option (list Z);
  tf_in_shape : option (list Z); tf_k_shape : option (list Z); tf_out_shape : option (list Z) }.
(** nn.py:380-391: the number of groups *)
Definition conv_groups (n : tf_conv) : option Z :=
  do shape_dim <- (if String.eqb (tf_fmt n) "NHWC" then do s <- tf_in_shape n; nthz s (length s - 1)
                   else if String.eqb (tf_fmt n) "NCHW" then do s <- tf_in_shape n; nthz s 1
                   else Some (-1));
  if shape_dim =? -1 then Some 1 else
  do k <- tf_k_shape n; do fin <- nthz k (length k - 2);
  if fin =? -1 then Some 1 else if fin =? 0 then None else Some (shape_dim / fin).
(** nn.py:61-197 conv_convert_inputs: which transposes the handler inserts (for a constant with no other consumer the
    transposition is applied to the value, which is the same function of the value) *)
Definition in_perm_of (n_fmt : string) (spatial : nat) : option (list nat) :=
  if is_channels_last n_fmt then Some (channels_first_perm spatial) else None.
Definition out_perm_of (n_fmt : string) (spatial : nat) : option (list nat) :=
  if is_channels_last n_fmt then Some (channels_last_perm spatial) else None.
(** nn.py:347-396 ConvOp.any_version.  Not modelled: the extra Unsqueeze for inputs without a batch axis (such nodes raise here). *)
Definition convert_conv (n : tf_conv) : option onnx_conv :=
  do ks <- tf_k_shape n;
  do kk <- conv_kernel_shape ks (tf_spatial n);
  let strides := conv_dims_attr (tf_fmt n) (tf_strides n) (tf_spatial n) in
  let dilations := conv_dims_attr (tf_fmt n) (tf_dilations n) (tf_spatial n) in
  do pads <- add_padding (tf_spatial n) (tf_fmt n) (tf_padding n) (tf_in_shape n) (tf_out_shape n) (fst kk) strides dilations;
  do g <- conv_groups n;
  Some (OnnxConv (in_perm_of (tf_fmt n) (tf_spatial n)) None (kernel_perm (tf_spatial n)) (snd kk) strides dilations pads g
                 (out_perm_of (tf_fmt n) (tf_spatial n))).
(** nn.py:624-664 DepthwiseConv2d.version_1 without the depth_multiplier attribute (TF has no such attribute) *)
Definition convert_depthwise (n : tf_conv) : option onnx_conv :=
  do is <- tf_in_shape n; do ks <- tf_k_shape n;
  if negb (Nat.eqb (length is) 4) then None else
  match ks with
  | [k_h; k_w; k_in; k_mul] =>
      if k_in <? 1 then None else
      let strides := conv_dims_attr (tf_fmt n) (tf_strides n) 2 in
      let dilations := conv_dims_attr (tf_fmt n) (tf_dilations n) 2 in
      do pads <- add_padding 2 (tf_fmt n) (tf_padding n) (tf_in_shape n) (tf_out_shape n) ks strides dilations;
      Some (OnnxConv (in_perm_of (tf_fmt n) 2) (Some [k_h; k_w; 1; k_in * k_mul]) (kernel_perm 2)
                     (if (0 <? k_h) && (0 <? k_w) then Some [k_h; k_w] else None) strides dilations pads k_in (out_perm_of (tf_fmt n) 2))
  | _ => None
  end.
(** nn.py:683-724 PoolOp._convert (floating point types): kernel and strides come from the attributes ksize and strides *)
Record onnx_pool := OnnxPool { op_in_perm : option (list nat); op_kernel : list Z; op_strides : list Z; op_dilations : option (list Z);
  op_pads : pads_attr; op_out_perm : option (list nat) }.
Record tf_pool := TFPool { tp_spatial : nat; tp_fmt : string; tp_padding : padding; tp_ksize : list Z; tp_strides : list Z;
  tp_in_shape : option (list Z); tp_out_shape : option (list Z) }.
Definition convert_pool (n : tf_pool) : option onnx_pool :=
  let k := parse_dims_attr (tp_fmt n) (tp_ksize n) (tp_spatial n) in
  let s := parse_dims_attr (tp_fmt n) (tp_strides n) (tp_spatial n) in
  do pads <- add_padding (tp_spatial n) (tp_fmt n) (tp_padding n) (tp_in_shape n) (tp_out_shape n) k (Some s) None;
  Some (OnnxPool (in_perm_of (tp_fmt n) (tp_spatial n)) k s None pads (out_perm_of (tp_fmt n) (tp_spatial n))).
(** nn.py:496-518 ConvTranspose with constant output shape: pads of one axis; int(t / 2) truncates towards zero *)
Definition conv_transpose_pads (input kernel stride dilation out_size : Z) : Z * Z :=
  let total := stride * (input - 1) + ((kernel - 1) * dilation + 1) - out_size in
  (Z.quot total 2, total - Z.quot total 2).
