(** ONNX Conv with the optional bias B [M]: added to every element of output channel m. *)
From Coq Require Import List Arith Reals.
From Verif Require Import Tensor NNModel NNSpec.
Import ListNotations.
Local Open Scope nat_scope.
Local Open Scope list_scope.
Definition onnx_conv_bias_rel (group : nat) (kernel_shape : option (list nat)) (p : onnx_padding) (ss ds : list nat) (x w b y : tensor R) : Prop :=
  exists z, onnx_conv_rel group kernel_shape p ss ds x w z /\ wf y /\ wf b /\ shape y = shape z /\ shape b = [nth 1 (shape z) 0] /\
    forall ix, inb ix (shape z) -> get y ix = Some (value z ix + value b [nth 1 ix 0%nat])%R.
