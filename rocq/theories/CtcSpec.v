(** The greedy decoder of connectionist temporal classification, as in TensorFlow's core/kernels/ctc_decoder_ops.cc, over the real numbers. *)
From Coq Require Import Reals List Arith ZArith Bool.
Import ListNotations.
Local Open Scope R_scope.
Local Open Scope list_scope.

(** what a converted model must output *)
Record decoded := Decoded { indices : list (Z * Z); values : list Z; dense_shape : Z * Z; neg_sum_logits : list R }.

Section Decoder.
(** rows of class scores for each time and picture of the batch; sequences are cut off at their length *)
Variables (max_time batch classes : nat) (inputs : nat -> nat -> list R) (len : nat -> nat).
Definition good_input : Prop :=
  (0 < classes)%nat /\ forall b, (b < batch)%nat -> (len b <= max_time)%nat /\ forall t, (t < max_time)%nat -> length (inputs t b) = classes.
(** RowMax: the first of the largest entries, found by going through the row once *)
Fixpoint row_max (best : R) (best_class : nat) (c : nat) (row : list R) : R * nat :=
  match row with
  | [] => (best, best_class)
  | v :: row' => if Rlt_dec best v then row_max v c (S c) row' else row_max best best_class (S c) row'
  end.
Definition RowMax (row : list R) : R * nat := match row with [] => (0, 0%nat) | v :: row' => row_max v 0 1 row' end.
(** one sequence: no blanks, and no repetitions of the class of the time before if these are merged *)
Fixpoint decode (merge : bool) (blank : nat) (prev : option nat) (rows : list (list R)) : list nat :=
  match rows with
  | [] => []
  | row :: rows' =>
      let c := snd (RowMax row) in
      let again := match prev with Some p => Nat.eqb c p | None => false end in
      (if negb (Nat.eqb c blank) && negb (merge && again) then [c] else []) ++ decode merge blank (Some c) rows'
  end.
Definition rows_of (b : nat) : list (list R) := map (fun t => inputs t b) (seq 0 (len b)).
(** [blank_index]: as the attribute says, the last class for -1 *)
Definition tf_ctc (merge : bool) (blank : nat) : decoded :=
  let sequence b := decode merge blank None (rows_of b) in
  let all := seq 0 batch in
  Decoded (flat_map (fun b => map (fun p => (Z.of_nat b, Z.of_nat p)) (seq 0 (length (sequence b)))) all)
          (flat_map (fun b => map Z.of_nat (sequence b)) all)
          (Z.of_nat batch, Z.of_nat (fold_right Nat.max 0%nat (map (fun b => length (sequence b)) all)))
          (map (fun b => - fold_right Rplus 0 (map (fun row => fst (RowMax row)) (rows_of b))) all).
End Decoder.
