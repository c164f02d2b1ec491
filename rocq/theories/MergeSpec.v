(** When equal-looking nodes may be merged: the conditions under which C16 holds. *)
From Coq Require Import String List.
From Verif Require Import FGraph FGraphSpec.
Import ListNotations.
Local Open Scope string_scope.

Definition constant (n : fnode) : Prop := f_op n = "Const" \/ f_op n = "ConstV2".

Section S.
Variable const_eq : list (string * attr) -> list (string * attr) -> bool.
Context {V : Type}.
Variable op_rel : string -> string -> list (string * attr) -> nat -> list V ->
                  list (list V -> list V -> Prop) -> list V -> Prop.

(** nodes of the same operator with the same attributes, or two constants found equal *)
Definition look_alike (n m : fnode) : Prop :=
  f_op n = f_op m /\ (f_attrs n = f_attrs m \/ constant n /\ constant m /\ const_eq (f_attrs n) (f_attrs m) = true).
Record mergeable (g : fgraph) : Prop := {
  (** they belong to the same operator set, and list the same number of outputs unless this number is
      irrelevant for what the operator computes *)
  mg_same : forall n m, In n (f_nodes g) -> In m (f_nodes g) -> look_alike n m ->
    f_dom n = f_dom m /\
    (length (f_out n) = length (f_out m) \/
     forall k k' ins bs vs, op_rel (f_op n) (f_dom n) (f_attrs n) k ins bs vs <-> op_rel (f_op n) (f_dom n) (f_attrs n) k' ins bs vs);
  (** constants found equal are equal, and have no bodies *)
  mg_const : forall n m, In n (f_nodes g) -> In m (f_nodes g) -> f_op n = f_op m -> constant n -> constant m ->
    const_eq (f_attrs n) (f_attrs m) = true ->
    forall dom k ins bs vs, op_rel (f_op n) dom (f_attrs n) k ins bs vs <-> op_rel (f_op n) dom (f_attrs m) k ins bs vs;
  mg_flat : forall n, In n (f_nodes g) -> constant n -> f_bodies n = [] }.
End S.
