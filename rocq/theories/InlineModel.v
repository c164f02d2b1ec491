(** Model of tf2onnx/onnx_opset/controlflow.py: parameter_binding, prefix_graph, inline_subgraph and wire_if_branch.

    A function graph is an [fgraph] whose node list contains its Placeholder nodes; [f_ins] are the first outputs of the
    nodes in g.inputs (Graph.input_names, graph.py:554-556).  [None] = an exception.
    Simplifications: shapes and dtypes are not modelled; body graphs are values, and a replacement of a name reaches the
    inputs of all nodes in a body graph at every depth (graph.py:1462-1466); the nodes of g.inputs are found in the node
    list by their output name. *)
From Coq Require Import String List Bool NArith.
From Verif Require Import FGraph.
From Verif Require NamesModel.
Import ListNotations.
Local Open Scope string_scope.
Local Open Scope list_scope.

(** graph.py:200-201 is_graph_input *)
Definition is_graph_input (n : fnode) : bool := mem (f_op n) ["Placeholder"; "PlaceholderWithDefault"; "PlaceholderV2"].

(** a Python dict with string values: later entries win *)
Definition dict := list (string * string).
Definition dict_get (d : dict) (k : string) : option string := option_map snd (find (fun p => String.eqb (fst p) k) d).
Definition dict_set (d : dict) (k v : string) : dict := (k, v) :: d.

(** controlflow.py:759-769 parameter_binding; [inputs] is consumed from the front (the code counts an index i) *)
Fixpoint bind_loop (names inputs : list string) (state_vars : dict) (binding : dict) : option dict :=
  match names with
  | [] => match inputs with [] => Some binding | _ => None end
  | k :: names' =>
      match dict_get state_vars k with
      | Some v => bind_loop names' inputs state_vars (dict_set binding k v)
      | None => match inputs with
                | v :: inputs' => bind_loop names' inputs' state_vars (dict_set binding k v)
                | [] => None
                end
      end
  end.
Definition parameter_binding (g : fgraph) (inputs : list string) (state_vars : dict) : option dict :=
  bind_loop (f_ins g) inputs state_vars [].

(** controlflow.py:722, 698: the tensor an input is bound to, if any *)
Definition bound (binding : dict) (i : string) : option string :=
  match dict_get binding i with
  | Some p => if String.eqb p "" || String.eqb p "@@ALLOC" then None else Some p
  | None => None
  end.
(** 721-729 (and 697-706): a bound input becomes an Identity of the bound tensor, an unbound one is removed *)
Definition bind_node (binding : dict) (ins : list string) (n : fnode) : list fnode :=
  match f_out n with
  | o :: _ => if mem o ins then
                match bound binding o with
                | Some p => [FNode (f_name n) "Identity" (f_dom n) (f_attrs n) [p] (f_out n) (f_bodies n)]
                | None => []
                end
              else [n]
  | [] => [n]
  end.
Definition bind_inputs (binding : dict) (g : fgraph) : list fnode := flat_map (bind_node binding (f_ins g)) (f_nodes g).

(** graph.py:624-630 (make_node): the name in a scope, the names of the outputs *)
Definition scoped (scope name : string) : string := if String.eqb scope "" then name else (scope ++ "_" ++ name)%string.
Definition output_names (name : string) (count : nat) : list string := map (fun i => NamesModel.port_name name (N.of_nat i)) (seq 0 count).
(** the body graphs of a made node are those of the old one: replacements reach them through either node *)
Definition subst_bodies (a b : string) (n : fnode) : fnode :=
  match n with FNode nm op dom at_ ins outs bodies => FNode nm op dom at_ ins outs (map (subst_graph a b) bodies) end.
(** controlflow.py:789-792: only the first occurrence in the outputs is replaced *)
Fixpoint replace_first (a b : string) (l : list string) : list string :=
  match l with
  | [] => []
  | x :: l' => if String.eqb x a then b :: l' else x :: replace_first a b l'
  end.
Record prefix_state := PState { p_kept : list fnode; p_todo : list fnode; p_new : list fnode; p_outs : list string }.
(** 788-793 for one output *)
Definition rename_output (s : prefix_state) (p : string * string) : prefix_state :=
  let '(a, b) := p in
  PState (map (subst_node a b) (p_kept s)) (map (subst_node a b) (p_todo s)) (map (subst_bodies a b) (p_new s))
         (replace_first a b (p_outs s)).
(** 785-787 and graph.py:641-645: make_node in the scope; the domain is not passed on; None when a name exists already *)
Definition make_scoped (scope : string) (names outs : list string) (new : list fnode) (n : fnode) : option fnode :=
  let name := scoped scope (f_name n) in
  let os := output_names name (length (f_out n)) in
  if mem name (names ++ map f_name new) || existsb (fun o => mem o (outs ++ concat (map f_out new))) os then None
  else Some (FNode name (f_op n) "" (f_attrs n) (f_in n) os (f_bodies n)).
(** 772-796 prefix_graph; [names] and [outs]: node names and output names of the graph before.  A node that is already
    copied is only removed at the end, and replacements in its inputs have no effect. *)
Fixpoint prefix_loop (scope : string) (names outs : list string) (fuel : nat) (s : prefix_state) : option prefix_state :=
  match fuel, p_todo s with
  | _, [] => Some s
  | O, _ => None
  | S fuel', n :: todo =>
      if is_graph_input n then prefix_loop scope names outs fuel' (PState (p_kept s ++ [n]) todo (p_new s) (p_outs s))
      else match make_scoped scope names outs (p_new s) n with
           | None => None
           | Some n' => prefix_loop scope names outs fuel'
                          (fold_left rename_output (combine (f_out n) (f_out n')) (PState (p_kept s) todo (p_new s ++ [n']) (p_outs s)))
           end
  end.
Definition prefix_graph (scope : string) (nodes : list fnode) (gouts : list string) : option (list fnode * list string) :=
  match prefix_loop scope (map f_name nodes) (concat (map f_out nodes)) (length nodes) (PState [] nodes [] gouts) with
  | Some s => Some (p_kept s ++ p_new s, p_outs s)
  | None => None
  end.

(** 717-756 inline_subgraph: the parent graph afterwards and the names of the results.  The names of the new nodes are
    not compared with those of the parent (graph.py:727-763 reset_nodes) *)
Definition inline_subgraph (parent g : fgraph) (scope : string) (binding : dict) : option (fgraph * list string) :=
  match prefix_graph scope (bind_inputs binding g) (f_outs g) with
  | Some (ns, outs) => Some (FGraph (f_nodes parent ++ ns) (f_ins parent) (f_outs parent), outs)
  | None => None
  end.
(** 693-714 wire_if_branch: the branch graph afterwards; it has no inputs and reads the bound tensors from the parent *)
Definition wire_if_branch (g : fgraph) (inputs : list string) (scope : string) : option fgraph :=
  match parameter_binding g inputs [] with
  | Some binding => match prefix_graph scope (bind_inputs binding g) (f_outs g) with
                    | Some (ns, outs) => Some (FGraph ns [] outs)
                    | None => None
                    end
  | None => None
  end.
