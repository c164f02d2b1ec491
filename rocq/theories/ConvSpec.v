(** ONNX Conv (two spatial axes) and BatchNormalization (inference) over the reals, from the operator documentation. *)
From Coq Require Import List Arith ZArith Reals.
Import ListNotations.
Local Open Scope R_scope.

Definition rsum (n : nat) (f : nat -> R) : R := fold_right (fun k s => f k + s) 0 (seq 0 n).
Record conv_attrs := { groups : nat; in_per_group : nat; out_per_group : nat; kh : nat; kw : nat;
  stride_h : nat; stride_w : nat; dil_h : nat; dil_w : nat; pad_h : nat; pad_w : nat; in_h : nat; in_w : nat }.
(** the input with zero padding, at padded position (i,j) *)
Definition padded (a : conv_attrs) (x : nat -> nat -> nat -> R) (c i j : nat) : R :=
  if (Nat.leb (pad_h a) i && Nat.ltb (i - pad_h a) (in_h a) && Nat.leb (pad_w a) j && Nat.ltb (j - pad_w a) (in_w a))%bool
  then x c (i - pad_h a)%nat (j - pad_w a)%nat else 0.
(** output channel o at position (i,j), for one sample x[channel][row][column] *)
Definition conv (a : conv_attrs) (w : nat -> nat -> nat -> nat -> R) (b : option (nat -> R))
  (x : nat -> nat -> nat -> R) (o i j : nat) : R :=
  rsum (in_per_group a) (fun c => rsum (kh a) (fun p => rsum (kw a) (fun q =>
    w o c p q * padded a x ((o / out_per_group a) * in_per_group a + c)
                           (i * stride_h a + p * dil_h a) (j * stride_w a + q * dil_w a))))
  + match b with Some f => f o | None => 0 end.
Definition batch_norm (scale offset mean var : nat -> R) (eps : R) (x : nat -> nat -> nat -> R) (c i j : nat) : R :=
  (x c i j - mean c) / sqrt (var c + eps) * scale c + offset c.
