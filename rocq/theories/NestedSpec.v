(** Specification of edits on graphs with sub graphs. *)
From Coq Require Import String List.
From Verif Require Import GraphModel GraphSpec NestedModel.
Import ListNotations.

(** [below w root d]: d is root or a sub graph of it, at any depth. *)
Inductive below (w : world) (root : nat) : nat -> Prop :=
| below_refl x : w root = Some x -> below w root root
| below_step d x p : w d = Some x -> parent x = Some p -> below w root p -> below w root d.

(** node i of graph d uses tensor t *)
Definition uses_at (w : world) (d i : nat) (t : string) : Prop :=
  exists x n, w d = Some x /\ node_at (wg x) i n /\ In t (n_in n).

(** a world of empty graphs, with parents nested less deep than [F] *)
Definition fresh_world (F : nat) (w : world) : Prop :=
  (forall d x, w d = Some x -> wg x = empty_graph /\ in2g x = mempty) /\
  exists rank : nat -> nat,
    (forall d x p, w d = Some x -> parent x = Some p -> rank p < rank d /\ exists xp, w p = Some xp) /\
    (forall d x, w d = Some x -> rank d < F).

(** histories without node removal: clean edits and global replacements *)
Definition no_removal (e : edit) : Prop :=
  match e with ERemove _ => False | ERemoveInput _ _ None => False | EReplaceAll _ _ _ => False | _ => True end.
Inductive w_history (F : nat) : world -> world -> Prop :=
| wh_nil w : w_history F w w
| wh_edit w1 w2 w3 gid x e : w_history F w1 w2 -> w2 gid = Some x -> named e -> no_removal e ->
    clean (wg x) e -> w_edit F w2 gid e = Some w3 -> w_history F w1 w3
| wh_replace w1 w2 w3 gid old new : w_history F w1 w2 ->
    w_replace_all F F w2 gid old new = Some w3 -> w_history F w1 w3.
