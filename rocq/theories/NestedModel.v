(** Graphs with sub graphs: the parent pointers and the index [_input_to_graph] of graph.py. *)
From Coq Require Import String List Bool Arith.
From Verif Require Import GraphModel.
Import ListNotations.

(** Graph.parent_graph (graph.py:484) and Graph._input_to_graph (461): tensor name -> sub graphs
    (Python: a dict keyed by id(graph)). *)
Record wgraph := mkW { wg : graph; parent : option nat; in2g : smap (list nat) }.
Definition world := nat -> option wgraph.
Definition wset (i : nat) (x : wgraph) (w : world) : world := fun j => if Nat.eqb j i then Some x else w j.
Definition memb (x : nat) (l : list nat) : bool := existsb (Nat.eqb x) l.
Definition nadd (x : nat) (l : list nat) : list nat := if memb x l then l else x :: l.
Definition in2g_get (x : wgraph) (t : string) : list nat := match in2g x t with Some l => l | None => [] end.

(** graph.py:1411-1415: the recursion of [_register_input_name] through the parents.  [fuel] bounds the
    nesting depth. *)
Fixpoint reg_up (fuel : nat) (w : world) (gid : nat) (t : string) : world :=
  match fuel with
  | O => w
  | S fuel' =>
      match w gid with
      | None => w
      | Some x =>
          match parent x with
          | None => w
          | Some p =>
              match w p with
              | None => w
              | Some xp => reg_up fuel' (wset p (mkW (wg xp) (parent xp) (mset t (nadd gid (in2g_get xp t)) (in2g xp))) w) p t
              end
          end
      end
  end.
Definition reg_up_all (fuel : nat) (w : world) (gid : nat) (ts : list string) : world :=
  fold_left (fun w t => reg_up fuel w gid t) ts w.

(** graph.py:1425-1430: the recursion of [_unregister_input_name]: the entry of this sub graph is deleted
    although another node of the sub graph may still use the tensor. *)
Fixpoint unreg_up (fuel : nat) (w : world) (gid : nat) (t : string) : world :=
  match fuel with
  | O => w
  | S fuel' =>
      match w gid with
      | None => w
      | Some x =>
          match parent x with
          | None => w
          | Some p =>
              match w p with
              | None => w
              | Some xp =>
                  if memb gid (in2g_get xp t)
                  then unreg_up fuel' (wset p (mkW (wg xp) (parent xp)
                         (mset t (filter (fun j => negb (Nat.eqb gid j)) (in2g_get xp t)) (in2g xp))) w) p t
                  else w
              end
          end
      end
  end.

(** The tensors an edit registers (calls of [_register_input_name] in make_node 643-644/878-879,
    replace_input 1494, replace_inputs 1510, reset_nodes 750-751). *)
Definition registers (g : graph) (e : edit) : list string :=
  match e with
  | EMake _ _ _ ins _ => ins
  | EReplaceInput _ _ new _ => [new]
  | EReplaceInputs _ news => news
  | EReset ops => concat (map (fun i => match heap g i with Some n => n_in n | None => [] end) ops)
  | _ => []
  end.
(** The tensors it unregisters (remove_node 722, remove_input 1306). *)
Definition unregisters (g : graph) (e : edit) : list string :=
  match e with
  | ERemove name => match by_name g name with
                    | Some i => match heap g i with
                                | Some n => filter (fun t => negb (String.eqb t "")) (n_in n)
                                | None => []
                                end
                    | None => []
                    end
  | ERemoveInput i t None => [t]
  | _ => []
  end.

(** An edit (other than the global replacement) on graph [gid] of the world. *)
Definition w_edit (fuel : nat) (w : world) (gid : nat) (e : edit) : option world :=
  match w gid with
  | None => None
  | Some x =>
      match apply_edit (wg x) e with
      | None => None
      | Some g' =>
          let w1 := wset gid (mkW g' (parent x) (in2g x)) w in
          let w2 := reg_up_all fuel w1 gid (registers (wg x) e) in
          Some (fold_left (fun w t => unreg_up fuel w gid t) (unregisters (wg x) e) w2)
      end
  end.

(** graph.py:356-362 [set_body_graph_as_attr]: only the parent pointer is set. *)
Definition attach (w : world) (child p : nat) : option world :=
  match w child with
  | None => None
  | Some x => Some (wset child (mkW (wg x) (Some p) (in2g x)) w)
  end.

(** graph.py:1436-1466 [replace_all_inputs] with ops=None, through the sub graphs (1463-1466).  The
    registrations of [new] made in this graph (1457, 1494) climb to the parents; [up] and [fuel] bound the nesting depth
    (running out of [fuel] is an error). *)
Fixpoint w_replace_all (up fuel : nat) (w : world) (gid : nat) (old new : string) : option world :=
  match fuel with
  | O => None
  | S fuel' =>
      match w gid with
      | None => None
      | Some x =>
          if String.eqb old new then Some w
          else
            match replace_all_inputs (wg x) old new None with
            | None => None
            | Some g' =>
                let targets := match consumers (wg x) old with
                               | Some names => found_nodes (wg x) names
                               | None => []
                               end in
                let w1 := wset gid (mkW g' (parent x) (in2g x)) w in
                let w2 := if match targets with [] => true | _ => false end then w1
                          else reg_up up w1 gid new in
                (fix go (subs : list nat) (w : world) : option world :=
                   match subs with
                   | [] => Some w
                   | s :: subs' => match w_replace_all up fuel' w s old new with
                                   | None => None
                                   | Some w' => go subs' w'
                                   end
                   end) (in2g_get x old) w2
            end
      end
  end.

(** graph.py:1382-1403 [find_output_consumers] through the sub graphs: (graph, node) pairs. *)
Fixpoint w_find_consumers (fuel : nat) (w : world) (gid : nat) (t : string) : list (nat * nat) :=
  match fuel with
  | O => []
  | S fuel' =>
      match w gid with
      | None => []
      | Some x => map (fun i => (gid, i)) (find_output_consumers (wg x) t) ++
                  concat (map (fun s => w_find_consumers fuel' w s t) (in2g_get x t))
      end
  end.
