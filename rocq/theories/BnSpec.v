(** Batch normalisation (tf.nn.fused_batch_norm) over the real numbers, and the ONNX operators used for it. *)
From Coq Require Import Reals List Arith ZArith Bool.
From Verif Require Import Tensor FoldModel OnnxSpec TOps ReduceSpec.
Import ListNotations.
Local Open Scope R_scope.
Local Open Scope list_scope.

Definition sum (l : list R) : R := fold_right Rplus 0 l.
Definition average (l : list R) : R := sum l / INR (length l).
(** ** TensorFlow.  The index of the value of picture n, channel c, place s: channels last (NHWC, NDHWC) or first (NCHW, NCDHW) *)
Definition place (last : bool) (n c : nat) (s : list nat) : list nat := if last then n :: s ++ [c] else n :: c :: s.
(** the places of a channel *)
Definition places (pictures : nat) (sp : list nat) : list (nat * list nat) := list_prod (seq 0 pictures) (indices sp).
Definition tf_batch_norm (last training : bool) (eps : R) (x : tensor R) (scale offset mean variance : list R) (y : tensor R) : Prop :=
  exists pictures channels sp,
    wf x /\ wf y /\ shape x = place last pictures channels sp /\ shape y = shape x /\
    length scale = channels /\ length offset = channels /\ (training = false -> length mean = channels /\ length variance = channels) /\
    forall c, (c < channels)%nat -> exists vs,
      Forall2 (fun ns v => get x (place last (fst ns) c (snd ns)) = Some v) (places pictures sp) vs /\
      let m := if training then average vs else nth c mean 0 in
      let var := if training then average (map (fun v => (v - m) * (v - m)) vs) else nth c variance 0 in
      forall n s, (n < pictures)%nat -> inb s sp -> exists v, get x (place last n c s) = Some v /\
        get y (place last n c s) = Some ((v - m) / sqrt (var + eps) * nth c scale 0 + nth c offset 0).

(** ** ONNX *)
(** ReduceMean, ReduceSumSquare and the like: [g] of the elements that are reduced together *)
Definition f_reduce (g : list R -> R) (axes : list Z) (keep : bool) (t : tensor R) : option (tensor R) :=
  match norm_axes (length (shape t)) axes with
  | None => None
  | Some ax =>
      match build (kept ax (shape t)) (fun ix => option_map g (sequence (lane t ax ix))) with
      | Some u => Some (if keep then u else Tensor (drop_axes ax (shape t)) (data u))
      | None => None
      end
  end.
Definition sum_square (l : list R) : R := sum (map (fun v => v * v) l).
(** BatchNormalization (not in training mode): channels are axis 1 *)
Definition f_batch_norm (eps : R) (x scale b mean var : tensor R) : option (tensor R) :=
  match shape x with
  | _ :: c :: _ =>
      if forallb (fun t => list_eqb (shape t) [c]) [scale; b; mean; var] then
        build (shape x) (fun ix => let k := [nth 1 ix 0%nat] in
          match get x ix, get scale k, get b k, get mean k, get var k with
          | Some v, Some s, Some o, Some m, Some w => Some ((v - m) / sqrt (w + eps) * s + o)
          | _, _, _, _, _ => None
          end)
      else None
  | _ => None
  end.
