(** Model of the mutable graph data structure of tf2onnx/graph.py: the node list, the name index,
    the producer index and the consumer index, and the editing operations on them.

    Python objects (Node) live in a heap addressed by identity; the graph holds references. *)
From Coq Require Import String List Bool Arith.
Import ListNotations.
Local Open Scope string_scope.
Local Open Scope list_scope.

(** Python dict with string keys. *)
Definition smap (A : Type) := string -> option A.
Definition mempty {A} : smap A := fun _ => None.
Definition mset {A} (k : string) (v : A) (m : smap A) : smap A :=
  fun x => if String.eqb x k then Some v else m x.
Definition mdel {A} (k : string) (m : smap A) : smap A :=
  fun x => if String.eqb x k then None else m x.

Definition smem (x : string) (l : list string) : bool := existsb (String.eqb x) l.
(** Python set add / remove *)
Definition sadd (x : string) (l : list string) : list string := if smem x l then l else x :: l.
Definition srem (x : string) (l : list string) : list string := filter (fun y => negb (String.eqb x y)) l.

(** graph.py:33-59 class Node.  [n_payload] stands for everything else (attributes, domain, bodies). *)
Record node := mkNode { n_name : string; n_op : string; n_payload : nat;
                        n_in : list string; n_out : list string }.

(** graph.py:457-485: the fields of Graph used by the edit operations. *)
Record graph := mkGraph {
  heap : nat -> option node;          (* Node objects by identity *)
  next : nat;                         (* allocation pointer (model only) *)
  nodes : list nat;                   (* _nodes *)
  by_name : smap nat;                 (* _nodes_by_name *)
  out2node : smap string;             (* _output_to_node_name *)
  consumers : smap (list string);     (* _output_to_consumers *)
  g_inputs : list nat;                (* inputs *)
  g_outputs : list string }.          (* outputs *)

Definition set_heap (g : graph) h := mkGraph h (next g) (nodes g) (by_name g) (out2node g) (consumers g) (g_inputs g) (g_outputs g).
Definition set_consumers (g : graph) c := mkGraph (heap g) (next g) (nodes g) (by_name g) (out2node g) c (g_inputs g) (g_outputs g).
Definition set_out2node (g : graph) o := mkGraph (heap g) (next g) (nodes g) (by_name g) o (consumers g) (g_inputs g) (g_outputs g).

Definition hset (i : nat) (n : node) (h : nat -> option node) : nat -> option node :=
  fun j => if Nat.eqb j i then Some n else h j.

(** graph.py:868-871 [get_node_by_name] *)
Definition get_node_by_name (g : graph) (name : string) : option nat := by_name g name.
(** graph.py:860-866 [get_node_by_output_in_current_graph]; the test [if name:] treats "" as missing. *)
Definition get_node_by_output (g : graph) (o : string) : option nat :=
  match out2node g o with
  | None => None
  | Some name => if String.eqb name "" then None else by_name g name
  end.

(** graph.py:1405-1412 [_register_input_name] (the part on this graph; the parent part is in
    NestedModel.v). *)
Definition register (g : graph) (t name : string) : graph :=
  set_consumers g (mset t (sadd name (match consumers g t with Some l => l | None => [] end)) (consumers g)).
Definition register_all (g : graph) (ts : list string) (name : string) : graph :=
  fold_left (fun g t => register g t name) ts g.

(** graph.py:1418-1424 [_unregister_input_name]: KeyError if the tensor has no entry; the code tests
    whether the *tensor* name is in the set of *node* names. *)
Definition unregister (g : graph) (t name : string) : option graph :=
  match consumers g t with
  | None => None
  | Some l => Some (if smem t l then set_consumers g (mset t (srem name l) (consumers g)) else g)
  end.

(** graph.py:607-679 [make_node] with an explicit name and outputs: the existence checks (635-639), the
    registration of the inputs (643-644), Node.__init__ -> set_node_by_name (873-879) and the append
    (678).  [None] = exception.  Not modelled: shape and dtype tables. *)
Definition make_node (g : graph) (name op : string) (payload : nat) (ins outs : list string)
  : option (graph * nat) :=
  match get_node_by_name g name with
  | Some _ => None
  | None =>
      if existsb (fun o => match get_node_by_output g o with Some _ => true | None => false end) outs
      then None
      else
        let g1 := register_all g ins name in
        let i := next g1 in
        let g2 := mkGraph (hset i (mkNode name op payload ins outs) (heap g1)) (S i) (nodes g1 ++ [i])
                    (mset name i (by_name g1))
                    (fold_left (fun m o => mset o name m) outs (out2node g1))
                    (consumers g1) (g_inputs g1) (g_outputs g1) in
        Some (register_all g2 ins name, i)
  end.

(** [del self._output_to_node_name[o]] for the non empty outputs, graph.py:706-709; KeyError if absent. *)
Fixpoint del_outputs (outs : list string) (m : smap string) : option (smap string) :=
  match outs with
  | [] => Some m
  | o :: outs' =>
      if String.eqb o "" then del_outputs outs' m
      else match m o with None => None | Some _ => del_outputs outs' (mdel o m) end
  end.
(** graph.py:716-722 *)
Fixpoint unregister_all (g : graph) (ins : list string) (name : string) : option graph :=
  match ins with
  | [] => Some g
  | t :: ins' => if String.eqb t "" then unregister_all g ins' name
                 else match unregister g t name with
                      | None => None
                      | Some g' => unregister_all g' ins' name
                      end
  end.
Fixpoint remove_first (i : nat) (l : list nat) : list nat :=
  match l with [] => [] | j :: l' => if Nat.eqb i j then l' else j :: remove_first i l' end.
(** graph.py:693-725 [remove_node] *)
Definition remove_node (g : graph) (name : string) : option graph :=
  match by_name g name with
  | None => None
  | Some i =>
      match heap g i with
      | None => None
      | Some n =>
          match del_outputs (n_out n) (out2node g) with
          | None => None
          | Some m =>
              let g1 := mkGraph (heap g) (next g) (nodes g) (mdel name (by_name g)) m (consumers g)
                          (remove_first i (g_inputs g)) (g_outputs g) in
              match unregister_all g1 (n_in n) name with
              | None => None
              | Some g2 => Some (mkGraph (heap g2) (next g2) (remove_first i (nodes g2)) (by_name g2)
                                   (out2node g2) (consumers g2) (g_inputs g2) (g_outputs g2))
              end
          end
      end
  end.

Fixpoint list_set {A} (k : nat) (x : A) (l : list A) : list A :=
  match k, l with
  | _, [] => []
  | O, _ :: l' => x :: l'
  | S k', y :: l' => y :: list_set k' x l'
  end.
Definition subst_in (old new : string) (l : list string) : list string :=
  map (fun t => if String.eqb t old then new else t) l.
Definition with_in (n : node) (ins : list string) : node :=
  mkNode (n_name n) (n_op n) (n_payload n) ins (n_out n).

(** graph.py:1467-1496 [replace_input]; [i] is the node object. *)
Definition replace_input (g : graph) (i : nat) (old new : string) (idx : option nat) : option graph :=
  match heap g i with
  | None => None
  | Some n =>
      let fin (ins : list string) :=
        let g1 := set_heap g (hset i (with_in n ins) (heap g)) in
        let g2 := match consumers g1 old with
                  | None => g1
                  | Some l => if smem (n_name n) l
                              then set_consumers g1 (mset old (srem (n_name n) l) (consumers g1)) else g1
                  end in
        Some (register g2 new (n_name n)) in
      match idx with
      | None => fin (subst_in old new (n_in n))
      | Some k => match nth_error (n_in n) k with
                  | Some t => if String.eqb t old then fin (list_set k new (n_in n)) else None
                  | None => None
                  end
      end
  end.

(** graph.py:1498-1515 [replace_inputs]; line 1503-1506 removes the *tensor* name from the consumer set. *)
Fixpoint drop_old (c : smap (list string)) (olds : list string) : smap (list string) :=
  match olds with
  | [] => c
  | t :: olds' =>
      drop_old (match c t with
                | Some l => if smem t l then mset t (srem t l) c else c
                | None => c
                end) olds'
  end.
Definition replace_inputs (g : graph) (i : nat) (news : list string) : option graph :=
  match heap g i with
  | None => None
  | Some n =>
      let g1 := register_all (set_consumers g (drop_old (consumers g) (n_in n))) news (n_name n) in
      Some (set_heap g1 (hset i (with_in n news) (heap g1)))
  end.

(** graph.py:1459-1461: the loop over the inputs of one node (indices [k..]). *)
Fixpoint replace_slots (g : graph) (i : nat) (old new : string) (k todo : nat) : option graph :=
  match todo with
  | O => Some g
  | S todo' =>
      match heap g i with
      | None => None
      | Some n =>
          match nth_error (n_in n) k with
          | None => Some g
          | Some t =>
              if String.eqb t old then
                match replace_input g i old new (Some k) with
                | None => None
                | Some g' => replace_slots g' i old new (S k) todo'
                end
              else replace_slots g i old new (S k) todo'
          end
      end
  end.
(** graph.py:1453-1461: the loop over the nodes. *)
Fixpoint replace_in_ops (g : graph) (ops : list nat) (old new : string) : option graph :=
  match ops with
  | [] => Some g
  | i :: ops' =>
      match heap g i with
      | None => None
      | Some n =>
          if smem old (n_in n) && smem new (n_out n) then None
          else match replace_slots (register g new (n_name n)) i old new 0 (length (n_in n)) with
               | None => None
               | Some g' => replace_in_ops g' ops' old new
               end
      end
  end.
Fixpoint found_nodes (g : graph) (names : list string) : list nat :=
  match names with
  | [] => []
  | n :: ns => match get_node_by_name g n with Some i => i :: found_nodes g ns | None => found_nodes g ns end
  end.
(** graph.py:1436-1466 [replace_all_inputs] in one graph (sub graphs: NestedModel.v). *)
Definition replace_all_inputs (g : graph) (old new : string) (ops : option (list nat)) : option graph :=
  if String.eqb old new then Some g
  else
    let g1 := match consumers g new with
              | None => set_consumers g (mset new [] (consumers g))
              | Some _ => g
              end in
    let l := match ops with
             | Some l => l
             | None => match consumers g1 old with
                       | Some names => found_nodes g1 names
                       | None => []
                       end
             end in
    replace_in_ops g1 l old new.

(** graph.py:1382-1403 [find_output_consumers] in one graph. *)
Definition find_output_consumers (g : graph) (t : string) : list nat :=
  match consumers g t with
  | None => []
  | Some names => filter (fun i => match heap g i with Some n => smem t (n_in n) | None => false end)
                         (found_nodes g names)
  end.

(** graph.py:73-84: the setter of Node.output. *)
Fixpoint del_keys (outs : list string) (m : smap string) : option (smap string) :=
  match outs with
  | [] => Some m
  | o :: outs' => match m o with None => None | Some _ => del_keys outs' (mdel o m) end
  end.
Fixpoint add_keys (outs : list string) (name : string) (m : smap string) : option (smap string) :=
  match outs with
  | [] => Some m
  | o :: outs' => match m o with Some _ => None | None => add_keys outs' name (mset o name m) end
  end.
Definition set_output (g : graph) (i : nat) (outs : list string) : option graph :=
  if existsb (Nat.eqb i) (nodes g) then
    match heap g i with
    | None => None
    | Some n =>
        match del_keys (n_out n) (out2node g) with
        | None => None
        | Some m =>
            match add_keys outs (n_name n) m with
            | None => None
            | Some m' => Some (set_out2node (set_heap g (hset i (mkNode (n_name n) (n_op n) (n_payload n) (n_in n) outs) (heap g))) m')
            end
        end
    end
  else None.

(** graph.py:727-763 [reset_nodes].  Fails if an op is not a live object, or a graph input or output is
    missing (lines 754-759; that the second one raises AttributeError instead is not visible here). *)
Fixpoint reset_loop (g : graph) (ops : list nat) : option graph :=
  match ops with
  | [] => Some g
  | i :: ops' =>
      match heap g i with
      | None => None
      | Some n => reset_loop (register_all (set_out2node g (fold_left (fun m o => mset o (n_name n) m) (n_out n) (out2node g)))
                                (n_in n) (n_name n)) ops'
      end
  end.
Definition index_names (h : nat -> option node) (ops : list nat) : smap nat :=
  fold_left (fun m i => match h i with Some n => mset (n_name n) i m | None => m end) ops mempty.
Definition reset_nodes (g : graph) (ops : list nat) : option graph :=
  match reset_loop (mkGraph (heap g) (next g) ops (index_names (heap g) ops) mempty mempty (g_inputs g) (g_outputs g)) ops with
  | None => None
  | Some g' =>
      if forallb (fun i => existsb (Nat.eqb i) ops) (g_inputs g) &&
         forallb (fun o => match out2node g' o with Some _ => true | None => false end) (g_outputs g)
      then Some g' else None
  end.

(** graph.py:1293-1308 [remove_input] *)
Fixpoint remove_nth {A} (k : nat) (l : list A) : list A :=
  match k, l with
  | _, [] => []
  | O, _ :: l' => l'
  | S k', y :: l' => y :: remove_nth k' l'
  end.
Fixpoint index_of (x : string) (l : list string) : option nat :=
  match l with
  | [] => None
  | y :: l' => if String.eqb x y then Some 0 else option_map S (index_of x l')
  end.
(** graph.py:1282-1308 [remove_input]: with an index the node is dropped from the consumer set without
    looking at its other inputs; without index a repeated input is refused. *)
Definition remove_input (g : graph) (i : nat) (t : string) (idx : option nat) : option graph :=
  match heap g i with
  | None => None
  | Some n =>
      match idx with
      | Some k =>
          match nth_error (n_in n) k with
          | Some t' =>
              if String.eqb t' t then
                let g1 := match consumers g t with
                          | Some l => if smem (n_name n) l
                                      then set_consumers g (mset t (srem (n_name n) l) (consumers g)) else g
                          | None => g
                          end in
                Some (set_heap g1 (hset i (with_in n (remove_nth k (n_in n))) (heap g1)))
              else None
          | None => None
          end
      | None =>
          match index_of t (n_in n) with
          | None => Some g
          | Some k =>
              if Nat.leb (count_occ string_dec (n_in n) t) 1 then
                match unregister g t (n_name n) with
                | None => None
                | Some g1 => Some (set_heap g1 (hset i (with_in n (remove_nth k (n_in n))) (heap g1)))
                end
              else None
          end
      end
  end.

(** ** Edit histories *)
Inductive edit :=
| EMake (name op : string) (payload : nat) (ins outs : list string)
| ERemove (name : string)
| EReplaceInput (i : nat) (old new : string) (idx : option nat)
| EReplaceInputs (i : nat) (news : list string)
| EReplaceAll (old new : string) (ops : option (list nat))
| ERemoveInput (i : nat) (t : string) (idx : option nat)
| ESetOutput (i : nat) (outs : list string)
| EReset (ops : list nat)
| EAddInput (i : nat)
| EAddOutput (o : string).

Definition live (g : graph) (i : nat) : bool := existsb (Nat.eqb i) (nodes g).
Fixpoint nodupb (l : list nat) : bool :=
  match l with [] => true | x :: l' => negb (existsb (Nat.eqb x) l') && nodupb l' end.

(** One API call on a graph; [None] = it raises.  Calls that take Node objects are given nodes of this
    graph, reset_nodes is given distinct ones. *)
Definition apply_edit (g : graph) (e : edit) : option graph :=
  match e with
  | EMake name op payload ins outs => option_map fst (make_node g name op payload ins outs)
  | ERemove name => remove_node g name
  | EReplaceInput i old new idx => if live g i then replace_input g i old new idx else None
  | EReplaceInputs i news => if live g i then replace_inputs g i news else None
  | EReplaceAll old new ops =>
      if match ops with Some l => forallb (live g) l | None => true end
      then replace_all_inputs g old new ops else None
  | ERemoveInput i t idx => if live g i then remove_input g i t idx else None
  | ESetOutput i outs => set_output g i outs
  | EReset ops => if forallb (live g) ops && nodupb ops then reset_nodes g ops else None
  | EAddInput i => if live g i then Some (mkGraph (heap g) (next g) (nodes g) (by_name g) (out2node g)
                                            (consumers g) (g_inputs g ++ [i]) (g_outputs g)) else None
  | EAddOutput o => match out2node g o with
                    | None => None
                    | Some _ => if smem o (g_outputs g) then None
                                else Some (mkGraph (heap g) (next g) (nodes g) (by_name g) (out2node g)
                                            (consumers g) (g_inputs g) (g_outputs g ++ [o]))
                    end
  end.
Fixpoint run (g : graph) (es : list edit) : option graph :=
  match es with
  | [] => Some g
  | e :: es' => match apply_edit g e with None => None | Some g' => run g' es' end
  end.
Definition empty_graph : graph :=
  mkGraph (fun _ => None) 0 [] mempty mempty mempty [] [].
