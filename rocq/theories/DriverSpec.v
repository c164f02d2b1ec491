(** What optimizers may do, and what the driver should amount to, on graph contents only. *)
From Coq Require Import List Arith Bool.
From Verif Require Import DriverModel.
Import ListNotations.

Section S.
Variable G : Type.
(** An optimizer as a function of the iteration number and the graph contents: it fails, or yields a new graph (or
    none) and says whether it changed anything. *)
Inductive effect := Fails | Yields (g : option G) (changed : bool).
Definition behaviour := nat -> G -> effect.

(** [o] realises [b]: its effect depends on the graph it is given, and it touches only that graph object and objects it
    creates itself.  Nothing is said about what it leaves in the given object when it fails. *)
Definition realises (o : optimizer G) (b : behaviour) : Prop :=
  forall it h r g, obj G h r = Some g -> r < next G h ->
    let '(h', out) := o it h r in
    next G h <= next G h' /\ (forall k, k < next G h -> k <> r -> obj G h' k = obj G h k) /\
    match b it g, out with
    | Fails, Raised => True
    | Yields None ch, Returned None ch' => ch' = ch
    | Yields (Some g') ch, Returned (Some r') ch' =>
        ch' = ch /\ obj G h' r' = Some g' /\ r' < next G h' /\ (r' = r \/ next G h <= r')
    | _, _ => False
    end.
(** the specification: a failing optimizer is skipped *)
Definition run_one (it : nat) (b : behaviour) (st : G * bool) : G * bool :=
  match b it (fst st) with
  | Fails => st
  | Yields None ch => (fst st, snd st || ch)
  | Yields (Some g') ch => (g', snd st || ch)
  end.
Definition run_round (it : nat) (bs : list behaviour) (g : G) : G * bool :=
  fold_left (fun st b => run_one it b st) bs (g, false).
Inductive runs (bs : list behaviour) : nat -> G -> G -> Prop :=
| runs_stop it g g' : run_round it bs g = (g', false) -> runs bs it g g'
| runs_more it g g1 g' : run_round it bs g = (g1, true) -> runs bs (S it) g1 g' -> runs bs it g g'.
(** with errors passed on: every optimizer must succeed *)
Definition strict_one (it : nat) (b : behaviour) (st : option (G * bool)) : option (G * bool) :=
  match st with
  | None => None
  | Some (g, fl) => match b it g with Yields (Some g') ch => Some (g', fl || ch) | _ => None end
  end.
Definition strict_round (it : nat) (bs : list behaviour) (g : G) : option (G * bool) :=
  fold_left (fun st b => strict_one it b st) bs (Some (g, false)).
(** sorting changes only the object it is given, keeps it a graph related to the old one by [same] *)
Definition sorts (same : G -> G -> Prop) (ts : heap G -> nat -> heap G * bool) : Prop :=
  forall h r g, obj G h r = Some g -> next G (fst (ts h r)) = next G h /\
    (forall k, k <> r -> obj G (fst (ts h r)) k = obj G h k) /\
    exists g', obj G (fst (ts h r)) r = Some g' /\ same g g'.
End S.
