(** Model of tf2onnx/onnx_opset/controlflow.py:369-648: converting a While node to an ONNX Loop.
    [None] = an exception.  Graphs as in InlineModel: the node list of a function contains its Placeholder nodes.
    Simplifications: shapes and dtypes are not modelled; ragged tensor lists are outside the model (lines 440-441,
    447-451, 477-495, 591-604, 656-689); [op_of] gives the type of the node that produces a tensor, wherever it is;
    [order] is the order in which Python lists a set of consumers; names made by utils.make_name are parameters. *)
From Coq Require Import String List Bool ZArith Arith.
From Verif Require Import FGraph InlineModel WhileSpec.
From Verif Require NamesModel.
Import ListNotations.
Local Open Scope string_scope.
Local Open Scope list_scope.

(** Python's del l[i] *)
Fixpoint delete {A} (i : nat) (l : list A) : option (list A) :=
  match l, i with
  | [], _ => None
  | _ :: l', O => Some l'
  | x :: l', S i' => option_map (cons x) (delete i' l')
  end.
Definition obind {X Y} (o : option X) (f : X -> option Y) : option Y := match o with Some x => f x | None => None end.
Fixpoint all_some {A} (l : list (option A)) : option (list A) :=
  match l with [] => Some [] | Some x :: l' => option_map (cons x) (all_some l') | None :: _ => None end.

(** what becomes of an input of the While node (429-465): a loop variable, a tensor list that is only read, a tensor list
    that is written *)
Definition kind_of (op_of : string -> string) (ta_reads : list string) (name body_in : string) : kind :=
  if mem (op_of name) ["TensorListReserve"; "TensorListResize"] then Lst else if mem body_in ta_reads then Read else Var.
Definition is_lst (k : kind) : bool := match k with Lst => true | _ => false end.
Definition is_read (k : kind) : bool := match k with Read => true | _ => false end.
Definition kinds (op_of : string -> string) (ta_reads : list string) (ins body_ins : list string) : list kind :=
  map (fun '(a, b) => kind_of op_of ta_reads a b) (combine (skipn 2 ins) (skipn 2 body_ins)).
(** the indices of the inputs of a kind, counted from [i] *)
Fixpoint indices (p : kind -> bool) (i : nat) (ks : list kind) : list nat :=
  match ks with [] => [] | k :: ks' => if p k then i :: indices p (S i) ks' else indices p (S i) ks' end.
Definition read_indices (ks : list kind) : list nat := indices is_read 2 ks.
Definition lst_indices (ks : list kind) : list nat := indices is_lst 2 ks.
(** 463-465 the loop variables *)
Fixpoint loop_vars (ks : list kind) (ins : list string) : list string :=
  match ks, ins with
  | Var :: ks', x :: ins' => x :: loop_vars ks' ins'
  | _ :: ks', _ :: ins' => loop_vars ks' ins'
  | _, _ => []
  end.
(** 431-435, 457-461: parameters that become names of the enclosing graph; maximum_iterations is one of them *)
Fixpoint state_vars (ks : list kind) (ins params : list string) (d : dict) : dict :=
  match ks, ins, params with
  | Read :: ks', x :: ins', p :: params' => state_vars ks' ins' params' (dict_set d p x)
  | _ :: ks', _ :: ins', _ :: params' => state_vars ks' ins' params' d
  | _, _, _ => d
  end.
(** 467-472 *)
Fixpoint delete_all {A} (idxs : list nat) (l : list A) : option (list A) :=
  match idxs with [] => Some l | i :: idxs' => obind (delete i l) (delete_all idxs') end.
(** 479-512 for written tensor lists, in the order of [idxs] *)
Record wlists := WLists { l_body_ins : list string; l_cond_ins : list string; l_tf : list string;
                          l_body_outs : list string; l_names : list string; l_scans : list string }.
Definition delete_list (w : wlists) (idx : nat) : option wlists :=
  obind (delete idx (l_body_ins w)) (fun bi => obind (delete idx (l_cond_ins w)) (fun ci => obind (delete idx (l_tf w)) (fun tf =>
  obind (nth_error (l_body_outs w) idx) (fun o => obind (delete idx (l_body_outs w)) (fun bo =>
  obind (nth_error (l_names w) idx) (fun nm => obind (delete idx (l_names w ++ [nm])) (fun ns =>
  Some (WLists bi ci tf bo ns (l_scans w ++ [o]))))))))).
Fixpoint delete_lists (idxs : list nat) (w : wlists) : option wlists :=
  match idxs with [] => Some w | i :: idxs' => obind (delete_list w i) (delete_lists idxs') end.

(** ** 550-654 wire_while_body *)
(** 557-562: the node of a parameter that is a state variable becomes an Identity *)
Definition state_node (ins : list string) (state : dict) (n : fnode) : fnode :=
  match n with
  | FNode nm op dom at_ i outs bodies =>
      match outs with
      | o :: _ => if mem o ins then match dict_get state o with
                                    | Some p => FNode nm "Identity" dom at_ [p] outs bodies
                                    | None => n
                                    end else n
      | [] => n
      end
  end.
(** 588-611: a write to a tensor list becomes an Identity of the item *)
Definition is_set_item (n : fnode) : bool := String.eqb (f_op n) "TensorListSetItem".
Definition item_node (n : fnode) : fnode :=
  match n with FNode nm op dom at_ i outs bodies => if String.eqb op "TensorListSetItem" then FNode nm "Identity" dom at_ [nth 2 i ""] outs bodies else n end.
(** graph.py:1385-1403 find_output_consumers *)
Fixpoint readers_node (t : string) (n : fnode) : list fnode :=
  match n with FNode nm op dom at_ i outs bodies => (if mem t i then [n] else []) ++ concat (map (readers_graph t) bodies) end
with readers_graph (t : string) (g : fgraph) : list fnode := match g with FGraph ns _ _ => concat (map (readers_node t) ns) end.
Definition readers (ns : list fnode) (t : string) : list fnode := concat (map (readers_node t) ns).
(** 616-629: follow Identity nodes to the last output *)
Fixpoint last_output (order : list fnode -> list fnode) (ns : list fnode) (fuel : nat) (t : string) : option string :=
  match fuel with
  | O => None
  | S fuel' => match order (readers ns t) with
               | [] => Some t
               | n :: _ => if String.eqb (f_op n) "Identity" then match f_out n with o :: _ => last_output order ns fuel' o | [] => None end else None
               end
  end.
(** 631-632 *)
Definition find_scans (order : list fnode -> list fnode) (ns : list fnode) (scan_outputs scan_names : list string) : option (list string) :=
  obind (all_some (map (fun o => obind (last_output order ns (S (length ns)) o) (fun l => if mem l scan_names then Some (l, o) else None)) scan_outputs))
        (fun pairs => all_some (map (dict_get (rev pairs)) scan_names)).
(** 642-651: remove what feeds the written tensor lists *)
Definition producer (ns : list fnode) (t : string) : option fnode := find (fun n => mem t (f_out n)) ns.
Fixpoint remove_feeds (func_inputs : list string) (fuel : nat) (queue : list string) (ns : list fnode) : option (list fnode) :=
  match queue, fuel with
  | [], _ => Some ns
  | _, O => None
  | t :: queue', S fuel' =>
      match producer ns t with
      | Some n => if mem t func_inputs then remove_feeds func_inputs fuel' queue' ns
                  else remove_feeds func_inputs fuel' (queue' ++ f_in n) (filter (fun m => negb (String.eqb (f_name m) (f_name n))) ns)
      | None => remove_feeds func_inputs fuel' queue' ns
      end
  end.
Definition input_count (ns : list fnode) : nat := length (concat (map f_in ns)).
(** 564-575 and 653-661; [cname]: the name of the Placeholder for the condition *)
Definition cond_param (cname : string) : string := NamesModel.port_name cname 0%N.
Definition func_inputs (g : fgraph) (cname : string) (state : dict) : list string :=
  match f_ins g with
  | i :: ins => i :: cond_param cname :: filter (fun x => match dict_get state x with Some _ => false | None => true end) (skipn 1 ins)
  | [] => []
  end.
Definition wire_while_body (order : list fnode -> list fnode) (g : fgraph) (body_state cond_state : dict) (cond : fgraph) (cname : string)
  (scan_names : list string) : option fgraph :=
  match f_ins g with
  | [] => None
  | _ =>
      let ns := map (state_node (f_ins g) body_state) (f_nodes g) ++ [FNode cname "Placeholder" "" [] [] [cond_param cname] []] in
      let sets := filter is_set_item ns in
      if existsb (fun n => Nat.ltb (length (f_in n)) 3) sets then None
      else
        let ns2 := map item_node ns in
        let scan_outputs := map (fun n => hd "" (f_out n)) sets in
        if Nat.eqb (length scan_outputs) (length scan_names) then
          let fi := func_inputs g cname body_state in
          obind (find_scans order ns2 scan_outputs scan_names) (fun scans =>
          obind (remove_feeds fi (length sets + input_count ns2) (map (fun n => hd "" (f_in n)) sets) ns2) (fun ns3 =>
          obind (parameter_binding cond (firstn 1 fi ++ skipn 2 (f_outs g)) cond_state) (fun binding =>
          obind (inline_subgraph (FGraph ns3 fi (f_outs g)) cond "cond__" binding) (fun '(g', couts) =>
          obind (hd_error couts) (fun c => Some (FGraph (f_nodes g') fi (c :: skipn 2 (f_outs g) ++ scans)))))))
        else None
  end.

(** ** 369-547: the nodes added to the enclosing graph, and the names that replace the outputs of the While node *)
Record while_op := WhileOp { w_name : string; w_ins : list string; w_outs : list string }.
(** 390-412.  [max]: the value of maximum_iterations when it is a constant; [shared]: the constant has other consumers;
    [fresh]: the name made for its copy.  The result: the inputs, M, and the nodes made.  A constant without other
    consumers is replaced by one with the same name and value. *)
Definition trip_count (w : while_op) (max : option Z) (const_attrs : list (string * attr)) (shared : bool) (fresh : string) : option (list string * string * list fnode) :=
  match w_ins w with
  | lc :: mi :: rest =>
      match max with
      | Some z => if Z.eqb z (-1) then Some (w_ins w, "", [])
                  else if shared then Some (lc :: fresh :: rest, fresh, [FNode fresh "Const" "" const_attrs [] [fresh] []])
                  else Some (w_ins w, mi, [])
      | None => let out := NamesModel.port_name (w_name w ++ "_cast")%string 0%N in
                Some (w_ins w, out, [FNode (w_name w ++ "_cast")%string "Cast" "" [("to", AInt 7)] [mi] [out] []])
      end
  | _ => None
  end.
(** the result: new nodes of the enclosing graph (the Loop node last), and old and new names of the outputs *)
Definition convert_while (order : list fnode -> list fnode) (op_of : string -> string) (w : while_op) (max : option Z) (const_attrs : list (string * attr))
  (shared : bool) (fresh cname cond_name : string) (cond body : fgraph) (ta_reads : list string) : option (list fnode * list (string * string)) :=
  obind (trip_count w max const_attrs shared fresh) (fun '(ins, m, made) =>
  let mi := nth 1 ins "" in
  if Nat.ltb (length (f_ins body)) (length ins) || Nat.ltb (length (f_ins cond)) (length ins) then None
  else
    let ks := kinds op_of ta_reads ins (f_ins body) in
    let vars := loop_vars ks (skipn 2 ins) in
    let body_state := state_vars ks (skipn 2 ins) (skipn 2 (f_ins body)) (dict_set [] (nth 1 (f_ins body) "") mi) in
    let cond_state := state_vars ks (skipn 2 ins) (skipn 2 (f_ins cond)) (dict_set [] (nth 1 (f_ins cond) "") mi) in
    obind (delete_all (rev (read_indices ks)) (w_outs w)) (fun names =>
    obind (delete_all (rev (read_indices ks)) (f_outs body)) (fun bouts =>
    obind (delete_lists (rev (lst_indices ks)) (WLists (f_ins body) (f_ins cond) ins bouts names [])) (fun l =>
    let cond' := FGraph (f_nodes cond) (l_cond_ins l) (f_outs cond) in
    let body' := FGraph (f_nodes body) (l_body_ins l) (l_body_outs l) in
    obind (parameter_binding cond' (l_tf l) []) (fun binding =>
    obind (inline_subgraph (FGraph made [] []) cond' cond_name binding) (fun '(g, couts) =>
    obind (hd_error couts) (fun c0 =>
    let old := skipn 2 (l_names l) in
    let new := output_names (w_name w ++ "_loop")%string (length old) in
    obind (wire_while_body order body' body_state cond_state cond' cname (l_scans l)) (fun wired =>
    Some (f_nodes g ++ [FNode (w_name w ++ "_loop")%string "Loop" "" [] (m :: c0 :: vars) new [wired]], combine old new))))))))).
