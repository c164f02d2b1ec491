(** Model of tf2onnx/tfonnx.py transpose_inputs/transpose_outputs (options inputs_as_nchw/outputs_as_nchw) and of
    the part of graph.py Graph.__init__ that cuts a graph at its inputs and puts an Identity behind each output. *)
From Coq Require Import String List Bool Arith ZArith.
From Verif Require Import FGraph IdentityModel DeadModel.
Import ListNotations.
Local Open Scope string_scope.
Local Open Scope list_scope.

(** constants.py:43-44 *)
Definition NCHW_TO_NHWC : list Z := [0; 2; 3; 1]%Z.
Definition NHWC_TO_NCHW : list Z := [0; 3; 1; 2]%Z.

(** graph.py:1343-1383 insert_new_node_on_output: a new node reads x and produces t; all consumers of x except the
    new node read t instead, in sub graphs too; the list of graph outputs is not touched.  The new node is appended
    (make_node, graph.py:607-679).  The circle test of replace_all_inputs cannot fail: t is a new name. *)
Definition insert_on_output (nm op : string) (at_ : list (string * attr)) (x t : string) (g : fgraph) : fgraph :=
  FGraph (map (subst_node x t) (f_nodes g) ++ [FNode nm op "" at_ [x] [t] []]) (f_ins g) (f_outs g).

(** graph.py _output_shapes; None = unknown; -1 = unknown dimension *)
Definition shapes := string -> option (list Z).
Definition set_shape (x : string) (s : list Z) (sh : shapes) : shapes := fun y => if String.eqb y x then Some s else sh y.
(** np.array(shape)[perm] *)
Definition index_perm (s perm : list Z) : list Z := map (fun i => nth (Z.to_nat i) s 0%Z) perm.
(** utils.py port_name *)
Definition port0 (nm : string) : string := String.append nm ":0".

(** tfonnx.py:309-330, one output_name; [fresh x] is utils.make_name(node.name) for the node that produces x.
    None = the TypeError of len(None).  The code also lists nodes twice in reset_nodes (the node in question, and the
    transposes because the list grows while it is iterated); the duplicates are dropped by delete_unused_nodes, and in a
    set of equations they make no difference: not modelled. *)
Definition transpose_input (fresh : string -> string) (named : list string) (st : option (fgraph * shapes)) (x : string)
  : option (fgraph * shapes) :=
  match st with
  | None => None
  | Some (g, sh) =>
      if mem x named then
        match sh x with
        | None => None
        | Some s =>
            if Nat.eqb (length s) (length NCHW_TO_NHWC) then
              let t := port0 (fresh x) in
              Some (insert_on_output (fresh x) "Transpose" [("perm", AInts NCHW_TO_NHWC)] x t g,
                    set_shape x (index_perm s NHWC_TO_NCHW) (set_shape t s sh))
            else Some (g, sh)
        end
      else Some (g, sh)
  end.
(** tfonnx.py:309-330: all outputs of all nodes; Placeholder nodes are the graph inputs here and come first *)
Definition transpose_inputs (fresh : string -> string) (named : list string) (g : fgraph) (sh : shapes) : option (fgraph * shapes) :=
  fold_left (transpose_input fresh named) (f_ins g ++ concat (map f_out (f_nodes g))) (Some (g, sh)).

(** tfonnx.py:332-355, one output_name; node.input[0] of a Placeholder or a node without input is an IndexError *)
Definition transpose_output (fresh : string -> string) (named : list string) (st : option (fgraph * shapes)) (o : string)
  : option (fgraph * shapes) :=
  match st with
  | None => None
  | Some (g, sh) =>
      if mem o named then
        match sh o with
        | None => None
        | Some s =>
            if Nat.eqb (length s) (length NHWC_TO_NCHW) then
              match producer g o with
              | Some n =>
                  match f_in n with
                  | x :: _ =>
                      let t := port0 (fresh o) in
                      Some (insert_on_output (fresh o) "Transpose" [("perm", AInts NHWC_TO_NCHW)] x t g,
                            set_shape o (index_perm s NHWC_TO_NCHW) (set_shape t (index_perm s NHWC_TO_NCHW) sh))
                  | [] => None
                  end
              | None => None
              end
            else Some (g, sh)
        end
      else Some (g, sh)
  end.
Definition transpose_outputs (fresh : string -> string) (named : list string) (g : fgraph) (sh : shapes) : option (fgraph * shapes) :=
  fold_left (transpose_output fresh named) (f_ins g ++ concat (map f_out (f_nodes g))) (Some (g, sh)).

(** ** Graph.__init__ *)
(** graph.py:486-493: an output of a node that is listed in input_names is renamed, and a Placeholder gives the
    name instead.  [alloc x] is the make_name("@@ALLOC") of that output. *)
Definition cut_node (alloc : string -> string) (names : list string) (n : fnode) : fnode :=
  match n with
  | FNode nm op dom at_ ins outs bodies =>
      FNode nm op dom at_ ins (map (fun o => if mem o names then alloc o else o) outs) bodies
  end.
(** graph.py:495-499: self.inputs in the order of input_names; further Placeholder nodes are appended when the model
    is written (make_graph, graph.py:1108-1117).  None = KeyError of input_nodes[n] for a name nothing produces. *)
Definition cut_inputs (alloc : string -> string) (names : list string) (g : fgraph) : option fgraph :=
  if forallb (fun x => mem x (f_ins g ++ concat (map f_out (f_nodes g)))) names
  then Some (FGraph (map (cut_node alloc names) (f_nodes g)) (names ++ filter (fun x => negb (mem x names)) (f_ins g)) (f_outs g))
  else None.

(** graph.py:503-537, one output o that is not a graph input: its producer gets the new output name [raw], all reads
    of o become reads of raw, an Identity gives o.  [raw o] is port_name(n.name + "_" + make_name("raw_output_")),
    [nm o] the name of the Identity.  None = no producer (AttributeError). *)
Definition wrap_output (raw nm : string -> string) (st : option fgraph) (o : string) : option fgraph :=
  match st with
  | None => None
  | Some g =>
      if mem o (f_ins g) then Some g
      else match producer g o with
           | None => None
           | Some n =>
               let ns := without (f_name n) (f_nodes g) ++ [ren_out o (raw o) n] in
               Some (FGraph (map (subst_node o (raw o)) ns ++ [FNode (nm o) "Identity" "" [] [raw o] [o] []]) (f_ins g) (f_outs g))
           end
  end.
Definition wrap_outputs (raw nm : string -> string) (g : fgraph) : option fgraph :=
  fold_left (wrap_output raw nm) (f_outs g) (Some g).
Definition graph_init (alloc raw nm : string -> string) (names : list string) (g : fgraph) : option fgraph :=
  match cut_inputs alloc names g with None => None | Some g' => wrap_outputs raw nm g' end.
