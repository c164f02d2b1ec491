(** Model of tf2onnx/optimizer/global_pool_optimizer.py *)
From Coq Require Import String List Arith ZArith Bool.
From Verif Require Import FGraph IdentityModel FoldModel SwitchModel.
Import ListNotations.
Local Open Scope string_scope.
Local Open Scope list_scope.

Definition zlist_eqb (a b : list Z) : bool := if list_eq_dec Z.eq_dec a b then true else false.
(** 52 op_map *)
Definition pool_of (op : string) : option string :=
  if String.eqb op "ReduceMean" then Some "GlobalAveragePool" else if String.eqb op "ReduceMax" then Some "GlobalMaxPool" else None.
(** graph_builder.py:172-210 make_squeeze, and 179-188 the axes: an attribute before opset 13, then a new constant.
    [sq], [y'], [cn], [c]: the names utils.make_name gives *)
Definition make_squeeze (opset : nat) (sq cn c : string) (x : string) (y' : string) (axes : list Z) : list fnode * fnode :=
  if Nat.ltb opset 13 then ([], FNode sq "Squeeze" "" [("axes", AInts axes)] [x] [y'] [])
  else ([FNode cn "Const" "" [("value", AInts axes)] [] [c] []], FNode sq "Squeeze" "" [] [x; c] [y'] []).
(** graph.py:1343-1355 insert_node_on_output, together with a changed producer [n'] of y *)
Definition put_node (n' : fnode) (y y' : string) (k : fnode) : fnode :=
  if String.eqb (f_name k) (f_name n') then n' else subst_node y y' k.
(** 38-65 _optimize_reduce; [isf]: the recorded element type is FLOAT or DOUBLE; [rank]: the recorded rank.  Recorded
    shapes are not modelled.  None = an exception. *)
Definition optimize_reduce (opset : nat) (isf : string -> bool) (rank : string -> option nat) (sq y' cn c : string) (g : fgraph) (n : fnode)
  : option (fgraph * bool) :=
  match pool_of (f_op n), f_in n, f_out n with
  | Some pool, x :: _, y :: _ =>
      if negb (isf y) then Some (g, false)
      else if mem y (f_outs g) then Some (g, false)
      else match rank x, attr_ints "axes" (f_attrs n) with
      | Some r, Some axes =>
          if zlist_eqb axes (map Z.of_nat (seq 2 (r - 2))) then
            let keep := match attr_int "keepdims" (f_attrs n) with Some k => k | None => 1%Z end in
            let n' := FNode (f_name n) pool (f_dom n) (del_attr "keepdims" (del_attr "axes" (f_attrs n))) (f_in n) (f_out n) (f_bodies n) in
            if (keep =? 0)%Z then
              let (cs, m) := make_squeeze opset sq cn c y y' axes in
              Some (FGraph (map (put_node n' y y') (f_nodes g) ++ cs ++ [m]) (f_ins g) (f_outs g), true)
            else Some (FGraph (map (fun k => if String.eqb (f_name k) (f_name n') then n' else k) (f_nodes g)) (f_ins g) (f_outs g), true)
          else Some (g, false)
      | _, _ => Some (g, false)
      end
  | None, _, _ => Some (g, false)
  | _, _, _ => None
  end.
