(** Model of tf2onnx/optimizer/transpose_optimizer.py: how a Transpose and the node behind it change places in the
    graph, and which attributes are rewritten on the way. *)
From Coq Require Import String List Arith ZArith Bool.
From Verif Require Import FGraph IdentityModel FoldModel NNModel PushModel.
Import ListNotations.
Local Open Scope string_scope.
Local Open Scope list_scope.

Definition lookup_attr (k : string) (at_ : list (string * attr)) : option attr :=
  option_map snd (find (fun p => String.eqb (fst p) k) at_).
(** graph.py:293-305 set_attr *)
Definition put_attr (k : string) (v : attr) (at_ : list (string * attr)) : list (string * attr) :=
  (k, v) :: filter (fun p => negb (String.eqb (fst p) k)) at_.
Definition del_attr (k : string) (at_ : list (string * attr)) : list (string * attr) :=
  filter (fun p => negb (String.eqb (fst p) k)) at_.
Definition attr_int (k : string) (at_ : list (string * attr)) : option Z :=
  match lookup_attr k at_ with Some (AInt z) => Some z | _ => None end.
Definition attr_ints (k : string) (at_ : list (string * attr)) : option (list Z) :=
  match lookup_attr k at_ with Some (AInts z) => Some z | _ => None end.
(** trans.get_attr('perm').ints *)
Definition perm_of (n : fnode) : option (list nat) := option_map (map Z.to_nat) (attr_ints "perm" (f_attrs n)).
Definition perm_attr (p : list nat) : attr := AInts (map Z.of_nat p).

(** 287-293 _get_input_index_for_trans: the first input that is the Transpose's output *)
Fixpoint input_index (t : string) (ins : list string) : nat :=
  match ins with [] => 0 | i :: l => if String.eqb i t then 0 else S (input_index t l) end.
(** graph.py:1469-1496 replace_input with an index *)
Fixpoint put_nth {A} (k : nat) (x : A) (l : list A) : list A :=
  match l, k with [], _ => [] | _ :: l', 0 => x :: l' | y :: l', S k' => y :: put_nth k' x l' end.

(** graph.py 284-291: the consumers of a tensor, in this graph and in its body graphs, each occurrence of a node once;
    find_output_consumers 1385-1403 *)
Fixpoint consumers_node (t : string) (n : fnode) : list fnode :=
  match n with FNode _ _ _ _ ins _ bodies => (if mem t ins then [n] else []) ++ concat (map (consumers t) bodies) end
with consumers (t : string) (g : fgraph) : list fnode :=
  match g with FGraph ns _ _ => concat (map (consumers_node t) ns) end.

(** 295-316 _switch_transpose_and_node, and the attribute updates [at_nd], [at_tr] the handlers do after it.  Shapes
    (308-315) are not modelled.  None = an exception.  The two nodes are Python objects; here they are found, at
    whatever depth, by their output. *)
Fixpoint rewire (fi : list string -> list string) (t y : string) (at_nd at_tr : list (string * attr)) (n : fnode) : fnode :=
  match n with
  | FNode nm op dom at_ ins outs bodies =>
      let bodies := map (rewire_graph fi t y at_nd at_tr) bodies in
      if mem y outs then FNode nm op dom at_nd (fi ins) outs bodies
      else if mem t outs then FNode nm op dom at_tr (put_nth 0 y ins) outs bodies
      else FNode nm op dom at_ ins outs bodies
  end
with rewire_graph (fi : list string -> list string) (t y : string) (at_nd at_tr : list (string * attr)) (g : fgraph) : fgraph :=
  match g with FGraph ns gi go => FGraph (map (rewire fi t y at_nd at_tr) ns) gi go end.
(** the part the handlers share: node's consumers read the Transpose, node gets the inputs [fi] makes of its inputs, the
    Transpose reads node *)
Definition switch_inputs (fi : list string -> list string) (g : fgraph) (tr nd : fnode) (at_nd at_tr : list (string * attr)) : option fgraph :=
  match f_out nd, f_out tr with
  | y :: _, t :: _ =>
      match replace_all y t (f_nodes g) with
      | None => None
      | Some ns => Some (rewire_graph fi t y at_nd at_tr (FGraph ns (f_ins g) (f_outs g)))
      end
  | _, _ => None
  end.
Definition switch (g : fgraph) (tr nd : fnode) (at_nd at_tr : list (string * attr)) : option fgraph :=
  match f_in tr, f_out tr with
  | x :: _, t :: _ => switch_inputs (put_nth (input_index t (f_in nd)) x) g tr nd at_nd at_tr
  | _, _ => None
  end.

(** 195-244 the operators with _simple_through_handler *)
Definition simple_ops : list string :=
  ["Abs"; "Cast"; "Clip"; "Elu"; "Erf"; "Exp"; "LeakyRelu"; "Log"; "Neg"; "Reciprocal"; "Relu"; "Selu"; "Sigmoid"; "Softplus"; "Sqrt"; "Tanh"].
Definition reduce_ops : list string :=
  ["ReduceLogSum"; "ReduceLogSumExp"; "ReduceMax"; "ReduceMean"; "ReduceMin"; "ReduceProd"; "ReduceSumSquare"].

(** The handlers that only rewrite attributes: the new attributes of the node and the new permutation.
    Some None = the handler gives up (returns False); None = an exception. *)
Definition push_attrs (opset : nat) (p : list nat) (op : string) (at_ : list (string * attr)) : option (option (list (string * attr) * list nat)) :=
  if mem op simple_ops then Some (Some (at_, p))                                            (* 1002-1003 *)
  else if mem op ["Softmax"; "LogSoftmax"] then                                             (* 851-871 *)
    if Nat.leb 13 opset then
      match moved_softmax_axis p (attr_int "axis" at_) with
      | None => None
      | Some a => Some (Some (put_attr "axis" (AInt (Z.of_nat a)) at_, p))
      end
    else Some (if softmax12_movable p (attr_int "axis" at_) then Some (at_, p) else None)
  else if mem op ["ArgMax"; "ArgMin"] then                                                  (* 873-880 *)
    let axis := match attr_int "axis" at_ with Some a => a | None => 0%Z end in
    match moved_reduce_axes p (Some [axis]) with
    | Some [a] =>
        let keep := match attr_int "keepdims" at_ with Some k => k | None => 1%Z end in
        Some (Some (put_attr "axis" (AInt (Z.of_nat a)) (del_attr "axes" at_), if (keep =? 0)%Z then reduce_new_perm p [a] else p))
    | _ => None
    end
  else if mem op reduce_ops && Nat.ltb opset 18 || String.eqb op "ReduceSum" && Nat.ltb opset 13 then   (* 882-908, 929-937 *)
    match moved_reduce_axes p (attr_ints "axes" at_) with
    | None => None
    | Some new =>
        let keep := match attr_int "keepdims" at_ with Some k => k | None => 1%Z end in
        Some (Some (put_attr "axes" (AInts (map Z.of_nat new)) at_, if (keep =? 0)%Z then reduce_new_perm p new else p))
    end
  else if String.eqb op "Squeeze" && Nat.leb opset 12 then                                  (* 757-811 *)
    match attr_ints "axes" at_ with
    | None => Some None
    | Some axes =>
        match squeeze_new_attr p (sorted_by Z.leb axes) with
        | None => None
        | Some (q, new) => Some (Some (put_attr "axes" (AInts (map Z.of_nat new)) at_, q))
        end
    end
  else if String.eqb op "Unsqueeze" && Nat.leb opset 12 then                                (* 700-755 *)
    match attr_ints "axes" at_ with
    | None => Some None
    | Some axes => let (q, new) := unsqueeze_new_attr p axes in Some (Some (put_attr "axes" (AInts (map Z.of_nat new)) at_, q))
    end
  else Some None.

(** 318-340 _handle_nhwc_tranpose with a single consumer, for these handlers *)
Definition handle_transpose (opset : nat) (g : fgraph) (tr : fnode) : option (fgraph * bool) :=
  match f_out tr with
  | t :: _ =>
      if mem t (f_outs g) then Some (g, false)
      else match consumers t g with
           | [nd] =>
               if existsb (fun o => mem o (f_outs g)) (f_out nd) then Some (g, false)
               else match perm_of tr with
                    | None => None
                    | Some p =>
                        match push_attrs opset p (f_op nd) (f_attrs nd) with
                        | None => None
                        | Some None => Some (g, false)
                        | Some (Some (at_, q)) => option_map (fun g' => (g', true)) (switch g tr nd at_ (put_attr "perm" (perm_attr q) (f_attrs tr)))
                        end
                    end
           | _ => Some (g, false)
           end
  | [] => None
  end.

(** 539-548 _mul_handler: the last input that is not the Transpose's output, with its position *)
Fixpoint last_other (t : string) (k : nat) (ins : list string) : option (nat * string) :=
  match ins with
  | [] => None
  | i :: l => match last_other t (S k) l with Some r => Some r | None => if String.eqb i t then None else Some (k, i) end
  end.
Definition node_of (x : string) (g : fgraph) : option fnode := find (fun n => mem x (f_out n)) (f_nodes g).
Definition perm_is (p : option (list nat)) (n : fnode) : bool :=
  match p, perm_of n with Some a, Some b => if list_eq_dec Nat.eq_dec a b then true else false | _, _ => false end.
(** graph.py:693-725 remove_node *)
Definition without_node (nm : string) (g : fgraph) : fgraph := FGraph (filter (fun n => negb (String.eqb (f_name n) nm)) (f_nodes g)) (f_ins g) (f_outs g).
(** 539-619 _mul_handler when it is called from 318-340: [t] has one consumer.  [const_shape]: the shape of the tensor of a
    constant.  Left out (the handler gives up here): a Conv above the Transpose (580-596) and multipliers that are no
    scalar (606-617); both are modelled on tensors in PushModel.v and PushConvModel.v. *)
Definition push_mul (const_shape : string -> option (list nat)) (g : fgraph) (tr nd : fnode) : option (fgraph * bool) :=
  match f_in tr, f_out tr with
  | x :: _, t :: _ =>
      match last_other t 0 (f_in nd) with
      | None =>                                                                             (* 551-558 *)
          option_map (fun g' => (g', true)) (switch_inputs (fun ins => put_nth 1 x (put_nth 0 x ins)) g tr nd (f_attrs nd) (f_attrs tr))
      | Some (j, w) =>
          match node_of w g with
          | None => Some (g, false)     (* an input of the graph; nodes of enclosing graphs (node.inputs finds them) are left out *)
          | Some m =>
              if String.eqb (f_op m) "Transpose" && perm_is (perm_of tr) m then             (* 561-571 *)
                match consumers w g, f_in m with
                | [_], z :: _ =>
                    let k := input_index w (f_in nd) in
                    option_map (fun g' => (without_node (f_name m) g', true))
                      (switch_inputs (fun ins => put_nth k z (put_nth (input_index t (f_in nd)) x ins)) g tr nd (f_attrs nd) (f_attrs tr))
                | _, _ => Some (g, false)
                end
              else match const_shape w with                                                 (* 574-576, 597-604 *)
                   | Some [] | Some [1] => option_map (fun g' => (g', true)) (switch g tr nd (f_attrs nd) (f_attrs tr))
                   | _ => Some (g, false)
                   end
          end
      end
  | _, _ => None
  end.
(** 30-32 is_useless_transpose, 342-344 _remove_useless_tranpose *)
Definition is_useless (n : fnode) : bool :=
  match perm_of n with Some p => String.eqb (f_op n) "Transpose" && (if list_eq_dec Nat.eq_dec p (seq 0 (length p)) then true else false) | None => false end.
Definition remove_useless (g : fgraph) (tr : fnode) : option fgraph :=
  match f_in tr, f_out tr with
  | x :: _, t :: _ => option_map (fun ns => without_node (f_name tr) (FGraph ns (f_ins g) (f_outs g))) (replace_all t x (f_nodes g))
  | _, _ => None
  end.
