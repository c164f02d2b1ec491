(** When a function graph can be inlined, and what inlining it should mean. *)
From Coq Require Import String List Bool.
From Verif Require Import FGraph.
Import ListNotations.
Local Open Scope string_scope.
Local Open Scope list_scope.

Definition placeholder (n : fnode) : Prop := In (f_op n) ["Placeholder"; "PlaceholderWithDefault"; "PlaceholderV2"].
(** the function as a set of equations: its nodes without the parameters *)
Definition equations (g : fgraph) : fgraph :=
  FGraph (filter (fun n => negb (mem (f_op n) ["Placeholder"; "PlaceholderWithDefault"; "PlaceholderV2"])) (f_nodes g)) (f_ins g) (f_outs g).
Definition outputs_of (ns : list fnode) : list string := concat (map f_out ns).

(** a binding of parameters to tensors; the first entry counts; the empty name and "@@ALLOC" stand for no tensor *)
Inductive binds : list (string * string) -> string -> string -> Prop :=
| binds_here i p l : p <> "" -> p <> "@@ALLOC" -> binds ((i, p) :: l) i p
| binds_later i j q p l : i <> j -> binds l i p -> binds ((j, q) :: l) i p.
(** the arguments are the values of the bound tensors, anything for parameters without a tensor *)
Definition arguments {V} (r : string -> V) (binding : list (string * string)) (params : list string) (args : list V) : Prop :=
  Forall2 (fun i a => forall p, binds binding i p -> a = r p) params args.

(** names in a scope *)
Definition in_scope (scope t : string) : Prop := exists s, t = (scope ++ "_" ++ s)%string.

(** The function graphs and bindings of the theorem. *)
Record inlinable (scope : string) (binding : list (string * string)) (g : fgraph) : Prop := {
  (* the parameters are the outputs of the Placeholder nodes *)
  i_placeholder : forall n, In n (f_nodes g) -> placeholder n -> f_bodies n = [] /\ exists i, f_out n = [i] /\ In i (f_ins g);
  i_param : forall i, In i (f_ins g) -> exists n, In n (f_nodes g) /\ placeholder n /\ f_out n = [i];
  i_params : NoDup (f_ins g);
  (* every tensor is produced once and has a name *)
  i_ssa : NoDup (outputs_of (f_nodes g));
  i_named : ~ In "" (outputs_of (f_nodes g));
  (* the node list is in execution order *)
  i_order : forall l1 n l2 t, f_nodes g = l1 ++ n :: l2 -> ~ placeholder n -> In t (f_in n) -> ~ In t (outputs_of (n :: l2));
  (* a bound tensor does not have the name of a tensor of the function listed before the parameter *)
  i_target : forall l1 n l2 i p, f_nodes g = l1 ++ n :: l2 -> f_out n = [i] -> In i (f_ins g) -> binds binding i p -> ~ In p (outputs_of l1);
  (* only operators of the default domain *)
  i_domain : forall n, In n (f_nodes g) -> ~ placeholder n -> f_dom n = "";
  (* the results are distinct tensors of the function, parameters without a tensor are not used *)
  i_results : NoDup (f_outs g);
  i_result : forall o, In o (f_outs g) -> In o (outputs_of (f_nodes g)) /\ (In o (f_ins g) -> exists p, binds binding o p);
  i_unbound : forall i n, In i (f_ins g) -> (forall p, ~ binds binding i p) -> In n (f_nodes g) -> ~ In i (fv_node n);
  (* body graphs return their own tensors and hide no tensor of the function *)
  i_bodies : forall n b, In n (f_nodes g) -> In b (f_bodies n) -> closed_graph b /\ forall t, In t (alldefs b) -> ~ In t (outputs_of (f_nodes g));
  (* no name of the scope is in use *)
  i_scope : scope <> "";
  i_fresh_read : forall n t, In n (f_nodes g) -> In t (fv_node n) -> ~ in_scope scope t;
  i_fresh_body : forall n b t, In n (f_nodes g) -> In b (f_bodies n) -> In t (alldefs b) -> ~ in_scope scope t;
  i_fresh_target : forall i p, binds binding i p -> ~ in_scope scope p }.
(** no name of the scope is in use in the parent graph *)
Definition fresh_in (scope : string) (parent : fgraph) : Prop :=
  forall n t, In n (f_nodes parent) -> In t (fv_node n) \/ In t (f_out n) -> ~ in_scope scope t.
