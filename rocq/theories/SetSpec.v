(** DenseToDenseSetOperation, as in TensorFlow's core/kernels/set_kernels.cc: the rows along the last axis of two tensors are taken as sets;
    the outcome is a sparse tensor with, for every row, the members of the resulting set in increasing order. *)
From Coq Require Import String List Arith ZArith Bool Sorted.
From Verif Require Import Tensor.
Import ListNotations.
Local Open Scope list_scope.

(** the sparse tensor that comes out *)
Record sparse := Sparse { sp_indices : list (list Z); sp_values : list Z; sp_shape : list Z }.

(** the positions of a shape, the last coordinate going fastest *)
Fixpoint row_major (sh : list nat) : list (list nat) :=
  match sh with [] => [[]] | d :: sh' => flat_map (fun i => map (cons i) (row_major sh')) (seq 0 d) end.
(** [v] is one of the [n] entries of row [ix] *)
Definition in_row (t : tensor Z) (n : nat) (ix : list nat) (v : Z) : Prop := exists k, k < n /\ get t (ix ++ [k]) = Some v.
(** what each operation puts in the resulting set *)
Definition member (op : string) (in_a in_b : Prop) : Prop :=
  if String.eqb op "a-b" then in_a /\ ~ in_b
  else if String.eqb op "b-a" then in_b /\ ~ in_a
  else if String.eqb op "intersection" then in_a /\ in_b
  else if String.eqb op "union" then in_a \/ in_b
  else False.
Definition operation (op : string) : Prop := In op ["a-b"; "b-a"; "intersection"; "union"]%string.

(** [a] has shape prefix ++ [n], [b] prefix ++ [m]; [res] is the resulting set of each row, as an increasing list *)
Definition set_result (op : string) (prefix : list nat) (n m : nat) (a b : tensor Z) (res : list nat -> list Z) : Prop :=
  forall ix, inb ix prefix -> StronglySorted Z.lt (res ix) /\ forall v, In v (res ix) <-> member op (in_row a n ix v) (in_row b m ix v).
(** the sparse tensor with these sets as rows *)
Definition sparse_of (prefix : list nat) (res : list nat -> list Z) : sparse :=
  Sparse (flat_map (fun ix => map (fun k => map Z.of_nat (ix ++ [k])) (seq 0 (length (res ix)))) (row_major prefix))
         (flat_map res (row_major prefix))
         (map Z.of_nat (prefix ++ [fold_right Nat.max 0 (map (fun ix => length (res ix)) (row_major prefix))])).
