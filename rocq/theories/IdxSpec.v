(** tf.slice and tf.gather, from the TensorFlow documentation. *)
From Coq Require Import List Arith ZArith Bool.
From Verif Require Import Tensor FoldModel OnnxSpec.
Import ListNotations.
Local Open Scope list_scope.

(** slice: on every axis begin is inside [0, dim], size is -1 (everything that is left) or at most what is left *)
Definition slice_len (d : nat) (b s : Z) : option nat :=
  if (0 <=? b)%Z && (b <=? Z.of_nat d)%Z then
    if Z.eqb s (-1) then Some (Z.to_nat (Z.of_nat d - b))
    else if (0 <=? s)%Z && (b + s <=? Z.of_nat d)%Z then Some (Z.to_nat s) else None
  else None.
Fixpoint slice_lens (sh : list nat) (begin size : list Z) : option (list nat) :=
  match sh, begin, size with
  | [], [], [] => Some []
  | d :: sh', b :: bs, s :: ss =>
      match slice_len d b s, slice_lens sh' bs ss with Some n, Some l => Some (n :: l) | _, _ => None end
  | _, _, _ => None
  end.
Fixpoint plus_ix (begin : list Z) (ix : list nat) : list nat :=
  match begin, ix with b :: bs, i :: ix' => Z.to_nat b + i :: plus_ix bs ix' | _, _ => [] end.
Definition tf_slice {A} (begin size : list Z) (x : tensor A) : option (tensor A) :=
  match slice_lens (shape x) begin size with
  | Some lens => build lens (fun ix => get x (plus_ix begin ix))
  | None => None
  end.

(** gather: result[b, a, i, c] = x[b, a, idx[b, i], c], where b are the batch_dims first axes, a the axes up to [axis];
    a negative batch_dims counts from the rank of the indices; every index used must be inside its axis *)
Definition tf_gather {A} (axis batch_dims : Z) (x : tensor A) (idx : tensor Z) : option (tensor A) :=
  let q := length (shape idx) in
  let bz := if (batch_dims <? 0)%Z then (batch_dims + Z.of_nat q)%Z else batch_dims in
  let n := Z.to_nat bz in
  match norm_axis (length (shape x)) axis with
  | None => None
  | Some ax =>
      if (0 <=? bz)%Z && Nat.leb n q && Nat.leb n ax && list_eqb (firstn n (shape idx)) (firstn n (shape x)) then
        build (firstn ax (shape x) ++ skipn n (shape idx) ++ skipn (S ax) (shape x))
              (fun ix => match get idx (firstn n ix ++ firstn (q - n) (skipn ax ix)) with
                         | Some v => if (0 <=? v)%Z && Z.ltb v (Z.of_nat (nth ax (shape x) 0))
                                     then get x (firstn ax ix ++ Z.to_nat v :: skipn (ax + (q - n)) ix) else None
                         | None => None
                         end)
      else None
  end.
