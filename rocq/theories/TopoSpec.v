(** Specification of sorting by dependencies. *)
From Coq Require Import String List Permutation.
From Verif Require Import TopoModel.
Import ListNotations.

(** [depends d x y]: x directly depends on y. *)
Definition depends (d : deps_t) (x y : string) : Prop :=
  exists ys, dlookup x d = Some ys /\ In y ys.

(** transitive closure *)
Inductive tc {A} (R : A -> A -> Prop) : A -> A -> Prop :=
| tc_step x y : R x y -> tc R x y
| tc_trans x y z : R x y -> tc R y z -> tc R x z.

Definition cyclic {A} (R : A -> A -> Prop) : Prop := exists x, tc R x x.

(** [before l y x]: y occurs in l strictly before x. *)
Definition before {A} (l : list A) (y x : A) : Prop :=
  exists l1 l2 l3, l = l1 ++ y :: l2 ++ x :: l3.

(** every dependency is itself an item *)
Definition closed (d : deps_t) : Prop := forall x y, depends d x y -> In y (map fst d).

(** [resolvable d x]: x is an item and, hereditarily, so are all its dependencies, without any cycle
    (a finite derivation). *)
Inductive resolvable (d : deps_t) : string -> Prop :=
| res_intro x ys : dlookup x d = Some ys -> (forall y, In y ys -> resolvable d y) -> resolvable d x.

(** [produces prod a t]: the node named a is the producer of tensor t;
    node b uses t through an explicit input or a sub graph. *)
Definition uses (b : tnode) (t : string) : Prop :=
  t <> ""%string /\ (In t (t_inputs b) \/ In t (t_implicit b)).
Definition feeds (prod : string -> option string) (ops : list tnode) (a b : tnode) : Prop :=
  In a ops /\ In b ops /\ exists t, uses b t /\ prod t = Some (t_name a).
