(** Model of the handler of CTCGreedyDecoder, tf2onnx/onnx_opset/nn.py:2000-2094.  Tensors of two dimensions (and the class scores of three) are
    functions of their indices, next to their sizes; flattened tensors are lists. *)
From Coq Require Import Reals List Arith ZArith Bool.
From Verif Require Import CtcSpec.
Import ListNotations.
Local Open Scope R_scope.
Local Open Scope list_scope.

(** ** operators *)
(** TopK with k = 1: the largest entry and the lowest index that has it *)
Definition largest (l : list R) : R := match l with [] => 0 | v :: l' => fold_left Rmax l' v end.
Fixpoint find_index (v : R) (l : list R) : nat := match l with [] => 0%nat | u :: l' => if Req_EM_T u v then 0%nat else S (find_index v l') end.
Definition top1 (l : list R) : R * Z := (largest l, Z.of_nat (find_index (largest l) l)).
(** Reshape of a matrix to [-1] *)
Definition flat {A} (rows cols : nat) (m : nat -> nat -> A) : list A := flat_map (fun i => map (m i) (seq 0 cols)) (seq 0 rows).
Definition transpose {A} (m : nat -> nat -> A) : nat -> nat -> A := fun i j => m j i.
Definition cast01 (b : bool) : Z := if b then 1%Z else 0%Z.
(** CumSum with exclusive along the second axis *)
Definition cum_sum (m : nat -> nat -> Z) : nat -> nat -> Z := fun i j => fold_right Z.add 0%Z (map (m i) (seq 0 j)).
(** Compress along axis 0 *)
Definition compress {A} (l : list A) (keep : list bool) : list A := map fst (filter snd (combine l keep)).
(** Concat along axis 1, of a single column and a matrix *)
Definition concat_col {A} (col m : nat -> nat -> A) : nat -> nat -> A := fun i j => if Nat.ltb j 1 then col i j else m i (j - 1)%nat.
(** ReduceMax of the rows: nothing to be had from no rows *)
Definition reduce_max (l : list (Z * Z)) : option (Z * Z) :=
  match l with [] => None | p :: l' => Some (fold_left (fun a b => (Z.max (fst a) (fst b), Z.max (snd a) (snd b))) l' p) end.

Section Graph.
Variables (max_time num_batch num_classes : nat) (inp : nat -> nat -> list R) (seq_lens : nat -> nat).
(** nn.py:2003-2094; [merge_repeated] is the attribute, false if left out; no other attribute is read *)
Definition ctc_greedy (merge_repeated : bool) : option decoded :=
  let blank_label := (Z.of_nat num_classes - 1)%Z in
  let valid_elts := fun time batch => Nat.ltb time (seq_lens batch) in
  let valid_mask := fun t b => if valid_elts t b then 1 else 0 in
  let valid_inp := fun t b => map (fun v => v * valid_mask t b) (inp t b) in
  let max_val := fun t b => fst (top1 (valid_inp t b)) in
  let max_idx := fun t b => snd (top1 (valid_inp t b)) in
  let sum_max := map (fun b => fold_right Rplus 0 (map (fun t => max_val t b) (seq 0 max_time))) (seq 0 num_batch) in
  let sum_max_neg := map Ropp sum_max in
  let max_idx_trans := transpose max_idx in
  let valid_elts_trans := transpose valid_elts in
  let keep_idx := fun b t => (Z.ltb (max_idx_trans b t) blank_label && valid_elts_trans b t)%bool in
  let keep_idx :=
    if merge_repeated then
      let neg_ones := fun _ _ => (-1)%Z in
      let max_idx_cut := max_idx_trans in (* without the last column *)
      let max_idx_shift := concat_col neg_ones max_idx_cut in
      let repeat_elts := fun b t => Z.eqb (max_idx_shift b t) (max_idx_trans b t) in
      fun b t => (keep_idx b t && negb (repeat_elts b t))%bool
    else keep_idx in
  let batch_expand := fun b (t : nat) => Z.of_nat b in
  let keep_idx_int := fun b t => cast01 (keep_idx b t) in
  let filtered_time := cum_sum keep_idx_int in
  let idx_flat := flat num_batch max_time max_idx_trans in
  let keep_idx_flat := flat num_batch max_time keep_idx in
  let time_flat := flat num_batch max_time filtered_time in
  let batch_flat := flat num_batch max_time batch_expand in
  let sparse_idx := combine batch_flat time_flat in
  let idx_compress := compress idx_flat keep_idx_flat in
  let sparse_idx_compress := compress sparse_idx keep_idx_flat in
  match reduce_max sparse_idx_compress with
  | None => None
  | Some max_sparse_idx =>
      let max_time_inc := (snd max_sparse_idx + 1)%Z in
      Some (Decoded sparse_idx_compress idx_compress (Z.of_nat num_batch, max_time_inc) sum_max_neg)
  end.
End Graph.
