(** Model of the constant folding pass over one graph, const_fold_optimizer.py:35-102. *)
From Coq Require Import String List Bool Arith.
From Verif Require Import FGraph IdentityModel DeadModel MergeModel.
Import ListNotations.
Local Open Scope string_scope.
Local Open Scope list_scope.

Section Fold.
Variable V : Type.
(** the value of a constant node with these attributes (get_tensor_value), and the attributes make_const
    writes for a value *)
Variable cval : list (string * attr) -> option V.
Variable enc : V -> list (string * attr).
(** _func_map: the folding function of an operator, if there is one; it gets the attributes, the number of
    outputs of the node and the input values; [None] = it raises *)
Variable func_map : string -> option (list (string * attr) -> nat -> list V -> option (list V)).
(** utils.make_name("const_fold_opt") at counter value k (utils.py:118-124) *)
Variable mk_name : nat -> string.

(** lines 49-63; utils.is_onnx_domain: "" or "ai.onnx" *)
Definition should_skip (n : fnode) : bool :=
  negb (String.eqb (f_dom n) "" || String.eqb (f_dom n) "ai.onnx") || is_const n ||
  String.eqb (f_op n) "Identity" || String.eqb (f_op n) "DequantizeLinear".
(** lines 83-85.  Simplification: a tensor captured from an enclosing graph counts as not constant (the code
    would look it up there). *)
Definition input_is_const (g : fgraph) (t : string) : bool :=
  String.eqb t "" || match producer g t with Some c => is_const c | None => false end.
Definition const_value (g : fgraph) (t : string) : option V :=
  match producer g t with Some c => cval (f_attrs c) | None => None end.
(** lines 87-91 *)
Definition is_graph_output (g : fgraph) (n : fnode) : bool := existsb (fun o => mem o (f_outs g)) (f_out n).

(** lines 93-102: one constant per output, then the node is removed *)
Fixpoint replace_outputs (ovs : list (string * V)) (ns : list fnode) (c : nat) : option (list fnode * nat) :=
  match ovs with
  | [] => Some (ns, c)
  | (o, v) :: ovs' =>
      match replace_all o (mk_name c) (ns ++ [FNode (mk_name c) "Const" "" (enc v) [] [mk_name c] []]) with
      | None => None
      | Some ns' => replace_outputs ovs' ns' (S c)
      end
  end.
Definition replace_with_const (g : fgraph) (n : fnode) (vs : list V) (c : nat) : option (fgraph * nat) :=
  if Nat.eqb (length (f_out n)) (length vs) then
    match replace_outputs (combine (f_out n) vs) (f_nodes g) c with
    | None => None
    | Some (ns, c') => Some (FGraph (without (f_name n) ns) (f_ins g) (f_outs g), c')
    end
  else None.
(** lines 65-77; the first component of a result tells whether the node was folded *)
Definition fold_node (g : fgraph) (n : fnode) (c : nat) : option (bool * (fgraph * nat)) :=
  if forallb (input_is_const g) (f_in n) && negb (is_graph_output g n) then
    match func_map (f_op n) with
    | None => Some (false, (g, c))
    | Some f =>
        match mapo (const_value g) (f_in n) with
        | None => None
        | Some ins =>
            match f (f_attrs n) (length (f_out n)) ins with
            | None => None
            | Some vs => match replace_with_const g n vs c with
                         | None => None
                         | Some st => Some (true, st)
                         end
            end
        end
    end
  else Some (false, (g, c)).
(** lines 41-46: Python's iteration over the node list while nodes are appended and removed: the k-th step
    looks at position k of the list as it is then.  [None] = out of fuel, or an exception. *)
Fixpoint fold_pass (fuel : nat) (i : nat) (st : fgraph * nat) (changed : bool) : option (bool * (fgraph * nat)) :=
  match fuel with
  | O => None
  | S fuel' =>
      match nth_error (f_nodes (fst st)) i with
      | None => Some (changed, st)
      | Some n =>
          if should_skip n then fold_pass fuel' (S i) st changed
          else match fold_node (fst st) n (snd st) with
               | None => None
               | Some (b, st') => fold_pass fuel' (S i) st' (changed || b)
               end
      end
  end.
(** lines 35-47 *)
Definition outs_of (ns : list fnode) : nat := list_sum (map (fun n => length (f_out n)) (filter (fun n => negb (is_const n)) ns)).
Fixpoint fold_graph (fuel : nat) (st : fgraph * nat) : option (fgraph * nat) :=
  match fuel with
  | O => None
  | S fuel' =>
      match fold_pass (S (length (f_nodes (fst st)) + outs_of (f_nodes (fst st)))) 0 st false with
      | None => None
      | Some (true, st') => fold_graph fuel' st'
      | Some (false, st') => Some st'
      end
  end.
End Fold.
