(** Model of the handler of LRN, tf2onnx/onnx_opset/math.py:341-366. *)
From Coq Require Import Reals List Arith ZArith Bool.
From Verif Require Import Tensor FoldModel OnnxSpec TOps BnSpec LrnSpec BnModel.
Import ListNotations.
Local Open Scope R_scope.
Local Open Scope list_scope.

(** the attributes as they are in the graph; None: left out, because it has the default value (TensorFlow strips these when it saves a model) *)
Record lrn_attrs := LrnAttrs { depth_radius : option nat; bias : option R; alpha : option R; beta : option R }.
Definition default {T} (d : T) (o : option T) : T := match o with Some v => v | None => d end.
(** what TensorFlow takes for an attribute that is left out *)
Definition tf_radius a := default 5%nat (depth_radius a).
Definition tf_bias a := default 1 (bias a).
Definition tf_alpha a := default 1 (alpha a).
Definition tf_beta a := default (1 / 2) (beta a).
(** 349-353: size and alpha are set, bias and beta stay as they are; the conversion fails (AttributeError) without alpha *)
Definition lrn_size (a : lrn_attrs) : nat := (default 5 (depth_radius a) * 2 + 1)%nat.
Definition lrn_alpha (a : lrn_attrs) : option R := option_map (fun v => INR (lrn_size a) * v) (alpha a).
(** 358-366 and the operator; ONNX takes 1 and 0.75 for a bias and a beta that are left out *)
Definition lrn (a : lrn_attrs) (x : tensor R) : option (tensor R) :=
  obind (lrn_alpha a) (fun al =>
  obind (f_transpose (Some (channels_first 2)) x) (fun xt =>
  obind (f_lrn (lrn_size a) (default 1 (bias a)) al (default (3 / 4) (beta a)) xt) (fun y =>
  f_transpose (Some (channels_last 2)) y))).
