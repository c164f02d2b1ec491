(** Model of tf2onnx/graph.py:1088-1182 Graph.make_graph and 367-391 Node.update_proto, after unused nodes were removed and
    the nodes were sorted (C08, C12).  [None] = an exception.
    Simplifications: shapes, dtypes and value_info are not modelled, nor is external storage of tensors; nodes are
    compared by their outputs; the default of a PlaceholderWithDefault is looked up in the graph itself (the code also
    looks in the enclosing graphs). *)
From Coq Require Import String List Bool ZArith Arith.
From Verif Require Import FGraph MakeSpec.
Import ListNotations.
Local Open Scope string_scope.
Local Open Scope list_scope.

(** graph.py:185-187, 199-200 *)
Definition is_const (n : fnode) : bool := mem (f_op n) ["Const"; "ConstV2"].
Definition is_input (n : fnode) : bool := mem (f_op n) ["Placeholder"; "PlaceholderWithDefault"; "PlaceholderV2"].
Fixpoint sequence {A} (l : list (option A)) : option (list A) :=
  match l with [] => Some [] | Some x :: l' => match sequence l' with Some xs => Some (x :: xs) | None => None end | None :: _ => None end.
(** op.output[0] *)
Definition out0 (n : fnode) : option string := hd_error (f_out n).
Definition produced_by (ns : list fnode) (t : string) : option fnode := find (fun n => mem t (f_out n)) ns.
(** the value attribute; op.get_value_attr *)
Definition value_attr (n : fnode) : option attr := option_map snd (find (fun p => String.eqb (fst p) "value") (f_attrs n)).
(** 1108-1117: the graph inputs, first those of the list of inputs *)
Definition all_inputs (ns : list fnode) (gi : list string) : option (list string) :=
  option_map (fun l => gi ++ filter (fun o => negb (mem o gi)) l) (sequence (map out0 (filter is_input ns))).
(** 1120-1133: for inputs with defaults, the input, the value and the constant *)
Definition default_of (ns : list fnode) (i : string) : option (list (string * attr * string)) :=
  match produced_by ns i with
  | None => None
  | Some n =>
      if String.eqb (f_op n) "PlaceholderWithDefault" then
        match f_in n with
        | [] => None
        | d :: _ => match produced_by ns d with
                    | Some c => if is_const c then match value_attr c with Some a => Some [(i, a, d)] | None => None end else None
                    | None => None
                    end
        end
      else Some []
  end.
(** 1136-1144 *)
Definition const_init (n : fnode) : option (string * attr) :=
  match out0 n, value_attr n with Some o, Some a => Some (o, a) | _, _ => None end.
(** 1105-1182; the nodes that are neither constants nor inputs, with their body graphs (update_proto) *)
Fixpoint make_node (opset : nat) (n : fnode) : option pnode :=
  match n with
  | FNode nm op dom at_ ins outs bodies => option_map (PNode nm op dom at_ ins outs) (sequence (map (make_graph opset) bodies))
  end
with make_graph (opset : nat) (g : fgraph) : option pgraph :=
  match g with
  | FGraph ns gi go =>
      match (fix ops (ns : list fnode) : option (list pnode) :=
               match ns with
               | [] => Some []
               | n :: ns' => if is_const n || is_input n then ops ns'
                             else match make_node opset n, ops ns' with Some p, Some l => Some (p :: l) | _, _ => None end
               end) ns, all_inputs ns gi with
      | Some ops, Some inputs =>
          match sequence (map (default_of ns) inputs) with
          | Some dss =>
              let ds := concat dss in
              let dropped := map snd ds in
              match sequence (map const_init (filter (fun n => is_const n && negb (existsb (fun o => mem o dropped) (f_out n))) ns)) with
              | Some consts => Some (PGraph ops (inputs ++ if Nat.ltb opset 9 then map fst consts else []) (map fst ds ++ consts) go)
              | None => None
              end
          | None => None
          end
      | _, _ => None
      end
  end.
