(** Models of the three topological sorts of the code base:
    utils.py [topological_sort], tf_loader.py [resolve_functions.toposort] and
    graph.py [Graph.topological_sort]. *)
From Coq Require Import String List Bool Arith.
Import ListNotations.

(** Outcome of a sort. [ECycle]: ValueError for cycles; [EKey]: Python KeyError; [EMissing]:
    make_sure failure for a missing producer; [EFuel]: model artefact, proved unreachable. *)
Inductive topo_err := ECycle | EKey | EMissing | EFuel.
Inductive topo_res (A : Type) := TOk (l : list A) | TErr (e : topo_err).
Arguments TOk {A}. Arguments TErr {A}.

Definition mem (x : string) (l : list string) : bool := existsb (String.eqb x) l.
Definition remove_str (x : string) (l : list string) : list string :=
  filter (fun y => negb (String.eqb x y)) l.

Definition deps_t := list (string * list string).
Fixpoint dlookup (x : string) (d : deps_t) : option (list string) :=
  match d with
  | [] => None
  | (k, v) :: d' => if String.eqb x k then Some v else dlookup x d'
  end.

(** The for loop utils.py:338-342: [None] = cyclic; otherwise the dependencies pushed (in order). *)
Fixpoint push_deps (visiting visited : list string) (ys : list string) (stack : list string)
  : option (list string) :=
  match ys with
  | [] => Some stack
  | y :: ys' =>
      if mem y visiting then None
      else if mem y visited then push_deps visiting visited ys' stack
      else push_deps visiting visited ys' (y :: stack)
  end.

(** utils.py:327-342: one stack machine iteration per unit of fuel.  The Python stack's end is the
    head of [stack]; [ordered] is kept reversed. *)
Fixpoint usort_loop (fuel : nat) (d : deps_t) (stack visiting visited ordered : list string)
  : topo_res string :=
  match stack with
  | [] => TOk (rev ordered)
  | x :: stack' =>
      match fuel with
      | O => TErr EFuel
      | S fuel' =>
          if mem x visited then usort_loop fuel' d stack' visiting visited ordered
          else if mem x visiting then
            usort_loop fuel' d stack' (remove_str x visiting) (x :: visited) (x :: ordered)
          else
            match dlookup x d with
            | None => TErr EKey
            | Some ys =>
                match push_deps (x :: visiting) visited ys (x :: stack') with
                | None => TErr ECycle
                | Some stack'' => usort_loop fuel' d stack'' (x :: visiting) visited ordered
                end
            end
      end
  end.

Definition usort_fuel (d : deps_t) : nat :=
  length d + fold_right (fun kv acc => 2 + length (snd kv) + acc) 0 d.

(** utils.py:318-343 [topological_sort]. *)
Definition topological_sort (d : deps_t) : topo_res string :=
  usort_loop (usort_fuel d) d (rev (map fst d)) [] [] [].

(** tf_loader.py:893-899 [toposort], flattened as in lines 920-921.  [data]: item -> dependency set.
    A Python set has no order; the model emits each level in key order. *)
Fixpoint levels (fuel : nat) (data : deps_t) : list string :=
  match fuel with
  | O => []
  | S fuel' =>
      let ordered := map fst (filter (fun kv => match snd kv with [] => true | _ => false end) data) in
      match ordered with
      | [] => []
      | _ => ordered ++
             levels fuel' (map (fun kv => (fst kv, filter (fun y => negb (mem y ordered)) (snd kv)))
                             (filter (fun kv => negb (mem (fst kv) ordered)) data))
      end
  end.
Definition resolve_functions_order (data : deps_t) : list string := levels (S (length data)) data.

(** ** Graph.topological_sort, graph.py:1026-1083 *)

(** A node as seen by the sort: name, explicit inputs, implicit inputs of its sub graphs, outputs. *)
Record tnode := mkT { t_name : string; t_inputs : list string; t_implicit : list string;
                      t_outputs : list string }.

(** [ops.sort(key=lambda op: op.name)]: stable insertion sort on the name. *)
Fixpoint insert_op (o : tnode) (l : list tnode) : list tnode :=
  match l with
  | [] => [o]
  | p :: l' => if String.leb (t_name o) (t_name p) then o :: l else p :: insert_op o l'
  end.
Definition sort_ops (l : list tnode) : list tnode := fold_right insert_op [] l.

(** [op_name_to_index], later entries win. *)
Fixpoint index_of_name (name : string) (ops : list tnode) (i : nat) (acc : option nat) : option nat :=
  match ops with
  | [] => acc
  | o :: ops' => index_of_name name ops' (S i) (if String.eqb name (t_name o) then Some i else acc)
  end.

(** Edges producer -> consumer for op number [i].  [prod inp] is the name of the node
    get_node_by_output finds in this graph or, for a sub graph, in its parents. *)
Fixpoint edges_of (prod : string -> option string) (has_parent : bool) (ops : list tnode)
                  (i : nat) (inps : list string) : topo_err + list (nat * nat) :=
  match inps with
  | [] => inr []
  | inp :: inps' =>
      if String.eqb inp "" then edges_of prod has_parent ops i inps'
      else match prod inp with
           | None => inl EMissing
           | Some j =>
               match index_of_name j ops 0 None with
               | Some k => match edges_of prod has_parent ops i inps' with
                           | inl e => inl e
                           | inr es => inr ((k, i) :: es)
                           end
               | None => if has_parent then edges_of prod has_parent ops i inps' else inl EKey
               end
           end
  end.
(** graph.py:1050-1063.  Simplification: the set/sorted order of the inputs of one op is not modelled
    (it only affects the order of the adjacency entries of the *same* consumer i). *)
Fixpoint all_edges (prod : string -> option string) (has_parent : bool) (ops rest : list tnode) (i : nat)
  : topo_err + list (nat * nat) :=
  match rest with
  | [] => inr []
  | o :: rest' =>
      match edges_of prod has_parent ops i (t_inputs o ++ t_implicit o) with
      | inl e => inl e
      | inr es => match all_edges prod has_parent ops rest' (S i) with
                  | inl e => inl e
                  | inr es' => inr (es ++ es')
                  end
      end
  end.
Definition children (es : list (nat * nat)) (j : nat) : list nat :=
  map snd (filter (fun e => Nat.eqb (fst e) j) es).

Definition memn (x : nat) (l : list nat) : bool := existsb (Nat.eqb x) l.

(** graph.py:1071-1080: the DFS.  [finished] collects nodes in reverse order of finishing; since the
    labels handed out are n-1, n-2, ..., 0, sorting by label (line 1082) gives exactly this list. *)
Fixpoint dfs_loop (fuel : nat) (ch : nat -> list nat) (stack not_visited finished : list nat)
  : topo_res nat :=
  match fuel with
  | O => TErr EFuel
  | S fuel' =>
      match stack with
      | [] => match not_visited with
              | [] => TOk finished
              | n :: _ => dfs_loop fuel' ch [n] not_visited finished
              end
      | top :: stack' =>
          match find (fun c => memn c not_visited) (ch top) with
          | Some c => if memn c stack then TErr ECycle
                      else dfs_loop fuel' ch (c :: stack) not_visited finished
          | None => dfs_loop fuel' ch stack'
                      (filter (fun y => negb (Nat.eqb top y)) not_visited) (top :: finished)
          end
      end
  end.

Definition dflt_node : tnode := mkT "" [] [] [].
(** graph.py:1026-1083 [Graph.topological_sort] (without the final reset_nodes). *)
Definition graph_topological_sort (prod : string -> option string) (has_parent : bool) (ops0 : list tnode)
  : topo_res tnode :=
  let ops := sort_ops ops0 in
  let n := length ops in
  match all_edges prod has_parent ops ops 0 with
  | inl e => TErr e
  | inr es =>
      match dfs_loop (S (2 * n)) (children es) [] (seq 0 n) [] with
      | TOk l => TOk (map (fun i => nth i ops dflt_node) l)
      | TErr e => TErr e
      end
  end.
