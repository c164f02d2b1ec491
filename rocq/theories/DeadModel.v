(** Model of dead node removal: graph.py:393-418 get_implicit_inputs, 1516-1585 extract_sub_graph_nodes and
    delete_unused_nodes. *)
From Coq Require Import String List Bool Arith.
From Verif Require Import FGraph.
Import ListNotations.
Local Open Scope string_scope.
Local Open Scope list_scope.

(** graph.py:398-414: the inputs of all nodes and the outputs of all nodes of a body graph, at any depth
    (recursive=True).  Body inputs are Placeholder nodes in the code, so they count as outputs. *)
Fixpoint uses_node (n : fnode) : list string :=
  match n with FNode _ _ _ _ ins _ bodies => ins ++ concat (map uses bodies) end
with uses (g : fgraph) : list string :=
  match g with FGraph ns _ _ => concat (map uses_node ns) end.
Fixpoint prods_node (n : fnode) : list string :=
  match n with FNode _ _ _ _ _ outs bodies => outs ++ concat (map prods bodies) end
with prods (g : fgraph) : list string :=
  match g with FGraph ns gi _ => gi ++ concat (map prods_node ns) end.
(** graph.py:393-418 get_implicit_inputs: one set of outputs for all bodies together (417). *)
Definition implicit_inputs (n : fnode) : list string :=
  filter (fun t => negb (mem t (concat (map prods (f_bodies n))))) (concat (map uses (f_bodies n))).

(** get_node_by_output(t, search_in_parent_graphs=False) *)
Definition producer (g : fgraph) (t : string) : option fnode :=
  find (fun n => mem t (f_out n)) (f_nodes g).
(** membership in a Python set of Node objects; a node is identified by its name *)
Definition has (n : fnode) (l : list fnode) : bool := existsb (fun m => String.eqb (f_name n) (f_name m)) l.

(** graph.py:1533-1543: the loop over the inputs of one node (no input_checker). *)
Fixpoint add_inputs (g : fgraph) (ts : list string) (res todo : list fnode) : list fnode :=
  match ts with
  | [] => todo
  | t :: ts' =>
      match producer g t with
      | None => add_inputs g ts' res todo
      | Some m => if has m res || has m todo then add_inputs g ts' res todo else add_inputs g ts' res (m :: todo)
      end
  end.
(** graph.py:1528-1544: the worklist loop; [todo] is processing_set (any element may be popped). *)
Fixpoint extract (fuel : nat) (g : fgraph) (todo res : list fnode) : list fnode :=
  match todo, fuel with
  | n :: todo', S fuel' =>
      extract fuel' g (add_inputs g (f_in n ++ implicit_inputs n) (n :: res) todo') (n :: res)
  | _, _ => res
  end.
(** graph.py:1516-1545 _extract_sub_graph_nodes *)
Definition extract_one (g : fgraph) (o : string) : list fnode :=
  match producer g o with None => [] | Some n => extract (length (f_nodes g)) g [n] [] end.
(** graph.py:1547-1568 extract_sub_graph_nodes(outputs).  Graph inputs are no nodes here and need nothing,
    so keeping them (1559-1562) adds no node; a placeholder with a default value is not modelled. *)
Definition extract_sub_graph_nodes (g : fgraph) (outs : list string) : list fnode :=
  concat (map (extract_one g) outs).

(** graph.py:1570-1585 delete_unused_nodes(graph.outputs): the nodes to keep are determined first, then the
    bodies of these nodes are cleaned.  The code's set has no order; the model keeps the node order. *)
Fixpoint clean_node (n : fnode) : fnode :=
  match n with
  | FNode nm op dom at_ ins outs bodies => FNode nm op dom at_ ins outs (map delete_unused bodies)
  end
with delete_unused (g : fgraph) : fgraph :=
  match g with
  | FGraph ns gi go =>
      match go with
      | [] => g
      | _ => FGraph (filter (fun n => has n (extract_sub_graph_nodes (FGraph ns gi go) go)) (map clean_node ns)) gi go
      end
  end.
