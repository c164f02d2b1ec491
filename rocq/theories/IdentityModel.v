(** Model of tf2onnx/optimizer/identity_optimizer.py and the recursion of optimizer_base.py. *)
From Coq Require Import String List Bool Arith.
From Verif Require Import FGraph.
Import ListNotations.
Local Open Scope string_scope.
Local Open Scope list_scope.

(** graph.py:1455-1456: the circle test of replace_all_inputs, in the graph and in its sub graphs *)
Fixpoint circ_node (old new : string) (n : fnode) : bool :=
  match n with
  | FNode _ _ _ _ ins outs bodies => (mem old ins && mem new outs) || existsb (circ_graph old new) bodies
  end
with circ_graph (old new : string) (g : fgraph) : bool :=
  match g with FGraph ns _ _ => existsb (circ_node old new) ns end.

(** graph.py:1436-1466 replace_all_inputs(old, new, ops=graph.get_nodes()) through all sub graphs (the
    completeness of the index _input_to_graph is C11); [None] = RuntimeError. *)
Definition replace_all (old new : string) (ns : list fnode) : option (list fnode) :=
  if String.eqb old new then Some ns
  else if existsb (circ_node old new) ns then None else Some (map (subst_node old new) ns).

(** graph.py:693-725 remove_node *)
Definition without (nm : string) (ns : list fnode) : list fnode :=
  filter (fun n => negb (String.eqb (f_name n) nm)) ns.

(** identity_optimizer.py:68-69: the producer lists the new name in the place of the old one.  (The code does
    this for the producer only; no other node lists the name.) *)
Definition ren_out (x y : string) (n : fnode) : fnode :=
  match n with
  | FNode nm op dom at_ ins outs bodies => FNode nm op dom at_ ins (map (sub x y) outs) bodies
  end.

(** identity_optimizer.py:41-46 *)
Definition handle_non_output (g : fgraph) (n : fnode) (x y : string) : option (fgraph * bool) :=
  match replace_all y x (f_nodes g) with
  | None => None
  | Some ns => Some (FGraph (without (f_name n) ns) (f_ins g) (f_outs g), true)
  end.

(** identity_optimizer.py:48-75.  An input that is not produced in this graph is taken to come from a
    parent graph (52); the look up of a producer that exists nowhere would raise instead.  Shapes and types
    (63-64, 72-73) are not modelled. *)
Definition handle_output (g : fgraph) (n : fnode) (x y : string) : option (fgraph * bool) :=
  if negb (mem x (concat (map f_out (f_nodes g)) ++ f_ins g)) then Some (g, false)
  else if mem x (f_ins g) then Some (g, false)
  else if mem x (f_outs g) then Some (g, false)
  else
    match replace_all x y (map (ren_out x y) (without (f_name n) (f_nodes g))) with
    | None => None
    | Some ns => Some (FGraph ns (f_ins g) (f_outs g), true)
    end.

(** identity_optimizer.py:31-36; [None] also for an Identity without input or output (IndexError). *)
Definition handle (g : fgraph) (n : fnode) : option (fgraph * bool) :=
  match f_in n, f_out n with
  | x :: _, y :: _ =>
      if existsb (fun o => mem o (f_outs g)) (f_out n) then handle_output g n x y else handle_non_output g n x y
  | _, _ => None
  end.

Definition get_node (g : fgraph) (nm : string) : option fnode :=
  find (fun n => String.eqb (f_name n) nm) (f_nodes g).

(** identity_optimizer.py:25-38: one round; [upd] is has_update, overwritten at each node (36). *)
Fixpoint pass (g : fgraph) (names : list string) (upd : bool) : option (fgraph * bool) :=
  match names with
  | [] => Some (g, upd)
  | nm :: names' =>
      match get_node g nm with
      | None => pass g names' upd
      | Some n => match handle g n with
                  | None => None
                  | Some (g', ret) => pass g' names' ret
                  end
      end
  end.
Definition is_identity (n : fnode) : bool := String.eqb (f_op n) "Identity".
Definition identities (g : fgraph) : list fnode := filter is_identity (f_nodes g).
(** identity_optimizer.py:22-39: the while loop; running out of [fuel] gives [None]. *)
Fixpoint rounds (fuel : nat) (g : fgraph) : option fgraph :=
  match fuel with
  | O => None
  | S fuel' =>
      match pass g (map f_name (identities g)) false with
      | None => None
      | Some (g', true) => rounds fuel' g'
      | Some (g', false) => Some g'
      end
  end.
Definition optimize_level (g : fgraph) : option fgraph := rounds (S (length (identities g))) g.

Fixpoint mapo {A B} (f : A -> option B) (l : list A) : option (list B) :=
  match l with
  | [] => Some []
  | x :: l' => match f x, mapo f l' with Some y, Some ys => Some (y :: ys) | _, _ => None end
  end.
(** nesting depth *)
Fixpoint depth_node (n : fnode) : nat :=
  match n with FNode _ _ _ _ _ _ bodies => fold_right (fun b m => Nat.max (depth b) m) 0 bodies end
with depth (g : fgraph) : nat :=
  match g with FGraph ns _ _ => S (fold_right (fun n m => Nat.max (depth_node n) m) 0 ns) end.
(** optimizer_base.py:58-75 _apply_optimization: this graph first, then the bodies of its nodes. *)
Fixpoint apply_opt (level : fgraph -> option fgraph) (d : nat) (g : fgraph) : option fgraph :=
  match d with
  | O => None
  | S d' =>
      match level g with
      | None => None
      | Some (FGraph ns gi go) =>
          match mapo (fun n => match n with
                               | FNode nm op dom at_ ins outs bodies =>
                                   match mapo (apply_opt level d') bodies with
                                   | None => None
                                   | Some bs => Some (FNode nm op dom at_ ins outs bs)
                                   end
                               end) ns with
          | None => None
          | Some ns' => Some (FGraph ns' gi go)
          end
      end
  end.
Definition identity_optimizer (g : fgraph) : option fgraph := apply_opt optimize_level (depth g) g.
