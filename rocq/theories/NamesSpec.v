(** Specification vocabulary for the naming properties (no proofs). *)
From Coq Require Import List String Ascii NArith Bool.
From Verif Require Import NamesModel.
Import ListNotations.
Local Open Scope string_scope.

(** optional port suffix *)
Definition port_suffix (p : option N) : string :=
  match p with None => "" | Some n => ":" ++ str_of_N n end.

(** character occurs in string *)
Fixpoint has_char (c : ascii) (s : string) : bool :=
  match s with EmptyString => false | String d r => Ascii.eqb d c || has_char c r end.

(** [graph_in h g]: h is g itself or nested in it through node attributes *)
Inductive graph_in : pgraph -> pgraph -> Prop :=
| gi_self g : graph_in g g
| gi_sub g n sub h : In n (pg_nodes g) -> In sub (pn_graphs n) -> graph_in h sub -> graph_in h g.

(** node and node output names occurring anywhere in a model *)
Definition scanned_name (m : pgraph) (s : string) : Prop :=
  exists g n, graph_in g m /\ In n (pg_nodes g) /\ (s = pn_name n \/ In s (pn_outputs n)).

(** data of a location in a storage *)
Definition read_location {D} (s : storage D) (l : location D) : option D :=
  match l with Inline d => Some d | External k => assoc_str k (st_data s) end.

(** node identity determines the node's data *)
Definition coherent {D} (ns : list (const_node D)) : Prop :=
  forall a b, In a ns -> In b ns -> cn_id a = cn_id b -> cn_data a = cn_data b.

(** every name occurring in a model: nodes, outputs, initializers and graph inputs *)
Definition model_name (m : pgraph) (s : string) : Prop :=
  scanned_name m s \/
  exists g, graph_in g m /\ (In s (pg_inits g) \/ In s (pg_inputs g)).
