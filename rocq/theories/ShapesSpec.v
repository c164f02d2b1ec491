(** Specification: runtime shapes and what it means that a static shape is right about one. *)
From Coq Require Import List ZArith.
From Verif Require Import ShapesModel.
Import ListNotations.
Local Open Scope Z_scope.

(** Runtime shape: list of non-negative integers. *)
Definition cshape := list Z.

(** A static dim is a claim about a runtime dim.  [claims] is the reading of utils.py, in
    which only positive ints are claims; in the TensorFlow reading ([claims_tf]) -1 and None are the
    only unknowns, so 0 is a claim too. *)
Definition claims (d : dim) (c : Z) : Prop :=
  match d with None => True | Some z => 0 < z -> c = z end.
Definition claims_tf (d : dim) (c : Z) : Prop :=
  match d with None => True | Some z => z <> -1 -> c = z end.

Definition shape_claims (s : shape) (c : cshape) : Prop :=
  match s with None => True | Some l => Forall2 claims l c end.
Definition shape_claims_tf (s : shape) (c : cshape) : Prop :=
  match s with None => True | Some l => Forall2 claims_tf l c end.

(** numpy / ONNX multidirectional broadcasting of runtime shapes, aligned at the last axis: stated on
    reversed shapes. *)
Inductive bcast_dim : Z -> Z -> Z -> Prop :=
| bd_eq d : bcast_dim d d d
| bd_l d : bcast_dim 1 d d
| bd_r d : bcast_dim d 1 d.
Inductive bcast_rev : cshape -> cshape -> cshape -> Prop :=
| br_nil_l b : bcast_rev [] b b
| br_nil_r a : bcast_rev a [] a
| br_cons x a y b z c : bcast_dim x y z -> bcast_rev a b c -> bcast_rev (x :: a) (y :: b) (z :: c).
Definition broadcasts (a b c : cshape) : Prop := bcast_rev (rev a) (rev b) (rev c).

(** Runtime shapes of structural ops (axes already normalised, 0 <= axis). *)
(** stacking n tensors of shape c along a new axis: position [a] of the result is n, the positions
    before are c's, the positions after are c's shifted by one. *)
Definition pack_shape (a : nat) (n : Z) (c r : cshape) : Prop :=
  (a <= length c)%nat /\ length r = S (length c) /\
  nth a r 0 = n /\
  (forall i, (i < a)%nat -> nth i r 0 = nth i c 0) /\
  (forall i, (a <= i)%nat -> (i < length c)%nat -> nth (S i) r 0 = nth i c 0).
Definition unpack_shape (a : nat) (c r : cshape) : Prop :=
  (a < length c)%nat /\ length c = S (length r) /\
  (forall i, (i < a)%nat -> nth i r 0 = nth i c 0) /\
  (forall i, (a <= i)%nat -> (i < length r)%nat -> nth i r 0 = nth (S i) c 0).
(** reduction with kept dims *)
Definition reduce_keep_shape (axes : list nat) (c r : cshape) : Prop :=
  length r = length c /\
  forall i, (i < length c)%nat -> nth i r 0 = if in_dec Nat.eq_dec i axes then 1 else nth i c 0.
(** reduction dropping dims: the result is the sub-list of non-reduced positions *)
Definition reduce_drop_shape (axes : list nat) (c r : cshape) : Prop :=
  r = map (fun i => nth i c 0)
          (filter (fun i => if in_dec Nat.eq_dec i axes then false else true) (seq 0 (length c))).
