(** Positions of maxima: MaxPool of ONNX on (N, C, H, W) flattens them one way, MaxPoolWithArgmax of TensorFlow on (N, H, W, C) another. *)
From Coq Require Import List Arith ZArith Bool.
From Verif Require Import Tensor.
Import ListNotations.

Section Index.
Variables (H W C : nat).
(** the second output of ONNX MaxPool: position within the whole input (N, C, H, W) *)
Definition onnx_index (n c h w : nat) : nat := ((n * C + c) * H + h) * W + w.
(** TensorFlow: ((n * H + h) * W + w) * C + c, the batch left out unless include_batch_in_index *)
Definition tf_index (include_batch : bool) (n c h w : nat) : nat := if include_batch then ((n * H + h) * W + w) * C + c else (h * W + w) * C + c.
End Index.
(** [t], with dimensions (N, OH, OW, C), has [f n oh ow c] everywhere *)
Definition tensor_of (N OH OW C : nat) (t : tensor Z) (f : nat -> nat -> nat -> nat -> nat) : Prop :=
  wf t /\ shape t = [N; OH; OW; C] /\ forall n i j c, n < N -> i < OH -> j < OW -> c < C -> get t [n; i; j; c] = Some (Z.of_nat (f n i j c)).
(** what is known of a shape: nothing, or each dimension or -1 *)
Definition agrees (guess : option (list Z)) (sh : list nat) : Prop :=
  match guess with None => True | Some g => Forall2 (fun z d => z = (-1)%Z \/ z = Z.of_nat d) g sh end.
