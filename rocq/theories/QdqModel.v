(** Model of tf2onnx/optimizer/q_dq_optimizer.py *)
From Coq Require Import String List Arith ZArith Bool.
From Verif Require Import FGraph IdentityModel FoldModel SwitchModel PoolModel.
Import ListNotations.
Local Open Scope string_scope.
Local Open Scope list_scope.

Definition has_attr (k : string) (n : fnode) : bool := existsb (fun p => String.eqb (fst p) k) (f_attrs n).
(** 128-132 has_same_quantization_params *)
Definition same_params (a b : fnode) : bool :=
  (match attr_int "axis" (f_attrs a), attr_int "axis" (f_attrs b) with Some x, Some y => Z.eqb x y | None, None => true | _, _ => false end)
  && (if list_eq_dec string_dec (tl (f_in a)) (tl (f_in b)) then true else false).
(** the node of this graph that produces x; 41, 117: node.inputs looks in the enclosing graphs as well, not modelled *)
Definition producer (x : string) (g : fgraph) : option fnode := find (fun n => mem x (f_out n)) (f_nodes g).
Definition head (l : list string) : string := match l with x :: _ => x | [] => "" end.
Definition is_nil {A} (l : list A) : bool := match l with [] => true | _ => false end.
(** graph.py:693-725 remove_node *)
Definition drop (nm : string) (g : fgraph) : fgraph := FGraph (without nm (f_nodes g)) (f_ins g) (f_outs g).
(** 38-52 _optimize_quantize, the first half: Remove DQ -> Q.  None = an exception. *)
Definition remove_pair (g : fgraph) (q : fnode) : option (fgraph * bool) :=
  if has_attr "axis" q then Some (g, false)
  else match producer (head (f_in q)) g with
  | Some d =>
      if String.eqb (f_op d) "DequantizeLinear" then
        if negb (same_params q d) then Some (g, false)
        else let y := head (f_out q) in let t := head (f_out d) in let x := head (f_in d) in
          if mem y (f_outs g) || mem t (f_outs g) then Some (g, false)
          else match replace_all y x (f_nodes g) with
          | None => None
          | Some ns =>
              let g1 := FGraph ns (f_ins g) (f_outs g) in
              let g2 := if is_nil (consumers y g1) then drop (f_name q) g1 else g1 in
              let g3 := if is_nil (consumers t g2) then drop (f_name d) g2 else g2 in
              Some (g3, true)
          end
      else Some (g, false)
  | None => Some (g, false)
  end.

(** 145-165 is_tensor_op: the inputs and the outputs that carry the elements *)
Definition tensor_op (n : fnode) : option (list nat * list nat) :=
  let op := f_op n in
  if mem op ["Identity"; "Reshape"; "Flatten"; "Expand"; "Transpose"; "Squeeze"; "Unsqueeze"; "Slice"] then Some ([0], [0])
  else if mem op ["Gather"; "GatherND"; "GatherElements"] then Some ([0], [0])
  else if mem op ["Scatter"; "ScatterND"; "ScatterElements"] then Some ([0; 2], [0])
  else if String.eqb op "Concat" then Some (seq 0 (length (f_in n)), [0])
  else if String.eqb op "Split" then Some ([0], seq 0 (length (f_out n)))
  else if mem op ["Compress"; "Tile"; "ReverseSequence"; "DepthToSpace"] then Some ([0], [0])
  else None.
(** 118-126 for one node with one output, in the graph of the DequantizeLinear; 134-142 make_q_or_dq: the new node has
    the parameters of [dq] and no axis (its axis attribute is absent, 96).  [nm], [y']: new names. *)
Definition undequantized (dq : fnode) (g : fgraph) (i : string) : option string :=
  match producer i g with
  | Some d => if String.eqb (f_op d) "DequantizeLinear" && same_params d dq && negb (mem (head (f_out d)) (f_outs g)) then Some (head (f_in d)) else None
  | None => None
  end.
(** the inputs with index in [idx] replaced; None = one of them is no DequantizeLinear with these parameters *)
Fixpoint replace_some (f : string -> option string) (idx : list nat) (k : nat) (ins : list string) : option (list string) :=
  match ins with
  | [] => Some []
  | i :: l =>
      match replace_some f idx (S k) l with
      | None => None
      | Some l' => if existsb (Nat.eqb k) idx then option_map (fun j => j :: l') (f i) else Some (i :: l')
      end
  end.
Definition push_dequantize (nm y' : string) (g : fgraph) (dq n : fnode) : option (fgraph * bool) :=
  if has_attr "axis" dq then Some (g, false)
  else match tensor_op n with
  | Some (idx, [0]) =>
      match replace_some (undequantized dq g) idx 0 (f_in n) with
      | None => Some (g, false)
      | Some ins =>
          let y := head (f_out n) in
          if mem y (f_outs g) then Some (g, false)
          else let n' := FNode (f_name n) (f_op n) (f_dom n) (f_attrs n) ins (f_out n) (f_bodies n) in
               let m := FNode nm "DequantizeLinear" "" [] (y :: tl (f_in dq)) [y'] [] in
               Some (FGraph (map (put_node n' y y') (f_nodes g) ++ [m]) (f_ins g) (f_outs g), true)
      end
  | _ => Some (g, false)
  end.
(** The same for a node in a body graph: find_output_consumers (graph.py:1400-1403) also returns the readers in body graphs,
    but the new node is made in, and only the outputs are looked up in, the graph of the DequantizeLinear (118, 124-126). *)
Fixpoint put_deep (n' : fnode) (y y' : string) (k : fnode) : fnode :=
  match k with
  | FNode nm op dom at_ ins outs bodies =>
      if mem y outs then n' else FNode nm op dom at_ (map (fun i => if String.eqb i y then y' else i) ins) outs (map (put_deep_graph n' y y') bodies)
  end
with put_deep_graph (n' : fnode) (y y' : string) (g : fgraph) : fgraph :=
  match g with FGraph ns gi go => FGraph (map (put_deep n' y y') ns) gi go end.
Definition push_dequantize_nested (nm y' : string) (g : fgraph) (dq n : fnode) : option (fgraph * bool) :=
  if has_attr "axis" dq then Some (g, false)
  else match tensor_op n with
  | Some (idx, [0]) =>
      match replace_some (undequantized dq g) idx 0 (f_in n) with
      | None => Some (g, false)
      | Some ins =>
          let y := head (f_out n) in
          if mem y (f_outs g) then Some (g, false)
          else let n' := FNode (f_name n) (f_op n) (f_dom n) (f_attrs n) ins (f_out n) (f_bodies n) in
               let m := FNode nm "DequantizeLinear" "" [] (y :: tl (f_in dq)) [y'] [] in
               Some (FGraph (map (put_deep n' y y') (f_nodes g) ++ [m]) (f_ins g) (f_outs g), true)
      end
  | _ => Some (g, false)
  end.
