(** Which nodes a graph's outputs need. *)
From Coq Require Import String List.
From Verif Require Import FGraph FGraphSpec.
Import ListNotations.
Local Open Scope string_scope.

(** t is the name of a tensor that is computed on the way to the outputs: n produces an output of the
    graph, or a tensor that a needed node reads, itself or inside its bodies. *)
Inductive needed (g : fgraph) : fnode -> Prop :=
| needed_out n o : In n (f_nodes g) -> In o (f_outs g) -> In o (f_out n) -> needed g n
| needed_in n m t : In n (f_nodes g) -> needed g m -> In t (fv_node m) -> In t (f_out n) -> needed g n.

(** no unnamed outputs *)
Definition named_outputs (g : fgraph) : Prop := forall h n, within g h -> In n (f_nodes h) -> ~ In "" (f_out n).
(** no body graphs *)
Definition flat (g : fgraph) : Prop := forall n, In n (f_nodes g) -> f_bodies n = [].
