(** tf.batch_to_space / BatchToSpaceND and tf.space_to_batch_nd / SpaceToBatchND, from the TensorFlow documentation.
    The input has shape [batch] ++ spatial ++ remaining with one spatial axis per entry of block_shape.
    Independent of the code under study. *)
From Coq Require Import List Arith ZArith Bool.
From Verif Require Import Tensor FoldModel.
Import ListNotations.
Local Open Scope list_scope.

(** the matrix [[c_0, d_0], [c_1, d_1], ...] given as input 2 *)
Definition matrix (rows : list (nat * nat)) : tensor Z :=
  Tensor [length rows; 2] (concat (map (fun '(c, d) => [Z.of_nat c; Z.of_nat d]) rows)).

Definition map2 (f : nat -> nat -> nat) (a b : list nat) : list nat := map (fun '(x, y) => f x y) (combine a b).

(** batch_to_space: batch = prod(block) * N; spatial axis i is multiplied by block_i, and crops_i entries are cut off at
    either end.  Element (n, t, r) of the result, with u = t + crop_start, is element (k * N + n, u / block, r) of the
    input, where k is the row-major position of (u mod block) in the block *)
Definition tf_batch_to_space {A} (block : list nat) (crops : list (nat * nat)) (x : tensor A) : option (tensor A) :=
  match shape x with
  | batch :: rest =>
      let m := length block in
      let spatial := firstn m rest in
      let remaining := skipn m rest in
      let big := map2 Nat.mul spatial block in
      if Nat.leb m (length rest) && Nat.eqb (length crops) m && forallb (Nat.ltb 0) block && Nat.eqb (batch mod size block) 0
         && forallb (fun '(b, (c, d)) => Nat.leb (c + d) b) (combine big crops)
      then
        let n := batch / size block in
        build (n :: map2 Nat.sub big (map (fun '(c, d) => c + d) crops) ++ remaining)
              (fun ix => match ix with
                         | i :: jx =>
                             let u := map2 Nat.add (firstn m jx) (map fst crops) in
                             get x (ravel block (map2 Nat.modulo u block) * n + i :: map2 Nat.div u block ++ skipn m jx)
                         | [] => None
                         end)
      else None
  | [] => None
  end.

(** space_to_batch: the spatial axes are padded with zeros by paddings_i at either end and must then be multiples of
    block_i.  Element (k * N + n, s, r) of the result is element (n, s * block + o, r) of the padded input, where k is
    the row-major position of o in the block *)
Fixpoint unpad (t dims befores : list nat) : option (list nat) :=
  match t, dims, befores with
  | v :: t', d :: dims', b :: bs' =>
      if Nat.leb b v && Nat.ltb (v - b) d then option_map (cons (v - b)) (unpad t' dims' bs') else None
  | _, _, _ => Some []
  end.
Definition tf_space_to_batch {A} (zero : A) (block : list nat) (paddings : list (nat * nat)) (x : tensor A) : option (tensor A) :=
  match shape x with
  | n :: rest =>
      let m := length block in
      let spatial := firstn m rest in
      let remaining := skipn m rest in
      let padded := map2 Nat.add spatial (map (fun '(c, d) => c + d) paddings) in
      if Nat.leb m (length rest) && Nat.eqb (length paddings) m && forallb (Nat.ltb 0) block
         && forallb (fun '(p, b) => Nat.eqb (p mod b) 0) (combine padded block)
      then
        build (size block * n :: map2 Nat.div padded block ++ remaining)
              (fun ix => match ix with
                         | i :: jx =>
                             let o := unravel block (i / n) in
                             match unpad (map2 Nat.add (map2 Nat.mul (firstn m jx) block) o) spatial (map fst paddings) with
                             | Some t => get x (i mod n :: t ++ skipn m jx)
                             | None => Some zero
                             end
                         | [] => None
                         end)
      else None
  | [] => None
  end.
