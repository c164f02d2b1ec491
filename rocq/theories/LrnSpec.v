(** Local response normalisation (tf.nn.lrn) over the real numbers, and ONNX LRN. *)
From Coq Require Import Reals List Arith ZArith Bool.
From Verif Require Import Tensor FoldModel OnnxSpec TOps BnSpec.
Import ListNotations.
Local Open Scope R_scope.
Local Open Scope list_scope.

(** the channels within a distance of r *)
Definition near (channels r c : nat) : list nat := filter (fun k => Nat.leb c (k + r) && Nat.leb k (c + r))%nat (seq 0 channels).
Definition squares (l : list R) : R := sum (map (fun v => v * v) l).
(** TensorFlow: NHWC; x / (bias + alpha * sum of squares) ^ beta *)
Definition tf_lrn (radius : nat) (bias alpha beta : R) (x y : tensor R) : Prop :=
  exists n h w channels, shape x = [n; h; w; channels] /\ wf x /\ wf y /\ shape y = shape x /\
    forall b i j c, inb [b; i; j; c] (shape x) -> exists v vs,
      get x [b; i; j; c] = Some v /\ Forall2 (fun k u => get x [b; i; j; k] = Some u) (near channels radius c) vs /\
      get y [b; i; j; c] = Some (v / Rpower (bias + alpha * squares vs) beta).
(** ONNX: NCHW; the window of c goes from c - floor((size - 1) / 2) to c + ceil((size - 1) / 2) *)
Definition f_lrn (size : nat) (bias alpha beta : R) (x : tensor R) : option (tensor R) :=
  match shape x with
  | _ :: channels :: _ =>
      build (shape x) (fun ix => match ix with
        | b :: c :: s =>
            let lo := (c - (size - 1) / 2)%nat in let hi := Nat.min (channels - 1) (c + size / 2) in
            match get x ix, sequence (map (fun k => get x (b :: k :: s)) (seq lo (S hi - lo))) with
            | Some v, Some vs => Some (v / Rpower (bias + alpha / INR size * squares vs) beta)
            | _, _ => None
            end
        | _ => None
        end)
  | _ => None
  end.
