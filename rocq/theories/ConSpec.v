(** Contrast over the real numbers, from the documentation of TensorFlow's AdjustContrastv2: "for each channel, the operation computes the mean of the image
    pixels in the channel and then adjusts each component of each pixel to (x - mean) * contrast_factor + mean". *)
From Coq Require Import Reals List Arith ZArith Bool.
From Verif Require Import Tensor.
From Verif Require BnSpec.
Import ListNotations.
Local Open Scope R_scope.
Local Open Scope list_scope.

(** [lead]: the axes before height, width and channels *)
Definition tf_adjust_contrast (lead : list nat) (h w c : nat) (x : tensor R) (factor : R) (y : tensor R) : Prop :=
  wf x /\ wf y /\ shape x = lead ++ [h; w; c] /\ shape y = shape x /\
  forall p k, inb p lead -> (k < c)%nat -> exists pixels,
    Forall2 (fun ij v => get x (p ++ [fst ij; snd ij; k]) = Some v) (list_prod (seq 0 h) (seq 0 w)) pixels /\
    let mean := BnSpec.average pixels in
    forall i j, (i < h)%nat -> (j < w)%nat -> exists v, get x (p ++ [i; j; k]) = Some v /\ get y (p ++ [i; j; k]) = Some ((v - mean) * factor + mean).
