(** C68: SpaceToDepth and DepthToSpace become ONNX expressions with the same value. *)
From Coq Require Import List Arith ZArith Bool Lia String.
From Verif Require Import Tensor FoldModel OnnxSpec TensorProofs TOps TOpsProofs DepthModel DepthSpec DepthProofs.
Import ListNotations.
Local Open Scope list_scope.
Local Notation length := List.length.

(** the value of the attribute data_format *)
Definition format_name (f : format) : string := match f with NHWC => "NHWC" | NCHW => "NCHW" end.
(** Every element type, tensor, block size, format, opset; the tensor computed, or a constant that is transposed in place. *)
Theorem C68_space_to_depth :
  forall (A : Type) (zero : A) opset f b (constant : option (tensor A)) (x y : tensor A) e others,
    wf x -> (constant = Some x \/ constant = None) ->
    tf_space_to_depth f b x = Some y -> space_to_depth (format_name f) b constant = Some e ->
    eval zero opset (D x :: others) e = Some (D y).
Proof.
  intros A zero opset f b c x y e others W Hc TF H. destruct f.
  - destruct (s2d_last b x y W TF) as (u & v & E1 & E2 & E3). apply (convert_last zero opset (D x :: others) x "NHWC" c (SpaceToDepth b) e u v y); auto. cbn [apply lift]. now rewrite E2.
  - apply (convert_first zero opset (D x :: others) x "NCHW" c (SpaceToDepth b) e y); auto. cbn [apply lift]. now rewrite (s2d_first b x y TF).
Qed.
Theorem C68_depth_to_space :
  forall (A : Type) (zero : A) opset f b (constant : option (tensor A)) (x y : tensor A) e others,
    wf x -> (constant = Some x \/ constant = None) ->
    tf_depth_to_space f b x = Some y -> depth_to_space (format_name f) b constant = Some e ->
    eval zero opset (D x :: others) e = Some (D y).
Proof.
  intros A zero opset f b c x y e others W Hc TF H. destruct f.
  - destruct (d2s_last b x y W TF) as (u & v & E1 & E2 & E3). apply (convert_last zero opset (D x :: others) x "NHWC" c (DepthToSpace b) e u v y); auto. cbn [apply lift]. now rewrite E2.
  - apply (convert_first zero opset (D x :: others) x "NCHW" c (DepthToSpace b) e y); auto. cbn [apply lift]. now rewrite (d2s_first b x y TF).
Qed.
(** Nothing that TensorFlow accepts is refused. *)
Theorem C68_accepted :
  forall (A : Type) f b (constant : option (tensor A)) (x y : tensor A),
    wf x -> (constant = Some x \/ constant = None) ->
    (tf_space_to_depth f b x = Some y -> exists e, space_to_depth (format_name f) b constant = Some e) /\
    (tf_depth_to_space f b x = Some y -> exists e, depth_to_space (format_name f) b constant = Some e).
Proof.
  intros A f b c x y W Hc. unfold space_to_depth, depth_to_space, convert_inputs. destruct f; cbn [format_name].
  - change (is_channels_last "NHWC") with true. destruct Hc as [-> | ->]; [|split; eauto].
    split; intro TF.
    + destruct (s2d_last b x y W TF) as (u & v & E1 & E2 & E3). rewrite E1. eauto.
    + destruct (d2s_last b x y W TF) as (u & v & E1 & E2 & E3). rewrite E1. eauto.
  - change (is_channels_last "NCHW") with false. split; eauto.
Qed.
(** ** Non-vacuity *)
Definition img : tensor nat := Tensor [1; 2; 4; 2] (seq 0 16).
Example s2d_case : exists y e, tf_space_to_depth NHWC 2 img = Some y /\ shape y = [1; 1; 2; 8] /\ data y = [0; 1; 2; 3; 8; 9; 10; 11; 4; 5; 6; 7; 12; 13; 14; 15] /\
  space_to_depth "NHWC" 2 (Some img) = Some e /\ eval 0 9 [D img] e = Some (D y).
Proof. do 2 eexists. split; [reflexivity|]. split; [reflexivity|]. split; [reflexivity|]. split; [reflexivity|]. vm_compute. reflexivity. Qed.
Definition deep : tensor nat := Tensor [1; 1; 2; 8] (seq 0 16).
Example d2s_case : exists y e, tf_depth_to_space NHWC 2 deep = Some y /\ shape y = [1; 2; 4; 2] /\ data y = [0; 1; 2; 3; 8; 9; 10; 11; 4; 5; 6; 7; 12; 13; 14; 15] /\
  depth_to_space "NHWC" 2 None = Some e /\ eval 0 9 [D deep] e = Some (D y).
Proof. do 2 eexists. split; [reflexivity|]. split; [reflexivity|]. split; [reflexivity|]. split; [reflexivity|]. vm_compute. reflexivity. Qed.

Print Assumptions C68_space_to_depth.
Print Assumptions C68_depth_to_space.
Print Assumptions C68_accepted.
