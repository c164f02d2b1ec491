(** Model of rewriters that replace a group of TensorFlow nodes by one ONNX operator:
    tf2onnx/rewriter/leakyrelu_rewriter.py, thresholded_relu_rewriter.py and gemm_rewriter.py, on one graph.

    [name k] is the k-th name utils.make_name produces, a node's output is called [name k ++ ":0"] (graph.py:641-645).  Constants
    are kept outside of the graph: a Const node has an attribute "value", and [cval] gives the tensor. *)
From Coq Require Import String List Arith Bool ZArith Reals.
From Verif Require Import FGraph Tensor MatchModel IdentityModel.
Import ListNotations.
Local Open Scope string_scope. Local Open Scope list_scope. Local Open Scope nat_scope.

(** ** the graph as the matcher sees it *)
(** graph.py:86-90 Node.inputs.  Simplification: what is not produced by a node of this graph (a graph input, a node of an
    enclosing graph) is a node of no known type without inputs. *)
Fixpoint index_of (t : string) (ns : list fnode) : nat :=
  match ns with [] => 0 | n :: ns' => if mem t (f_out n) then 0 else S (index_of t ns') end.
Definition view (ns : list fnode) : graph := fun i =>
  match nth_error ns i with
  | Some n => GNode (f_op n) (map (fun t => (t, if String.eqb t "" then None else Some (index_of t ns))) (f_in n))
  | None => GNode "" []
  end.
(** match.get_op, match.get_tensor (graph_matcher.py:117-135): the node object and the tensor name found when the match was made *)
Definition op_of (ns : list fnode) (m : match_result) (nm : string) : option fnode :=
  match get_op_named m nm with Some (Some i) => nth_error ns i | _ => None end.
Definition tensor_of (m : match_result) (nm : string) : option string :=
  match sget (by_name m) nm with
  | Some p => match nget (by_pattern m) p with Some (_, t) => t | None => None end
  | None => None
  end.

(** ** changing the graph *)
(** the graph while a rewriter works on it: nodes, shapes (-1: unknown dimension) and types *)
Record state := State { s_nodes : list fnode; s_shape : string -> option (list Z); s_dtype : string -> option Z }.
(** graph.py:1385-1403 find_output_consumers: also in body graphs *)
Fixpoint uses_node (o : string) (n : fnode) : bool :=
  match n with FNode _ _ _ _ ins _ bodies => mem o ins || existsb (uses_graph o) bodies end
with uses_graph (o : string) (g : fgraph) : bool := match g with FGraph ns _ _ => existsb (uses_node o) ns end.
(** graph.py:1605-1609: the consumers of n are among the nodes to delete *)
Definition safe (del : list string) (ns : list fnode) (n : fnode) : bool :=
  forallb (fun o => forallb (fun c => (negb (mem o (f_in c)) || mem (f_name c) del) && negb (existsb (uses_graph o) (f_bodies c))) ns) (f_out n).
(** what a rewriter does with a match: a new node (its type, attributes and inputs), the output it takes over, the nodes to delete *)
Record action := Action { a_op : string; a_attrs : list (string * attr); a_ins : list string; a_out : string; a_del : list fnode }.
Definition port0 (nm : string) : string := nm ++ ":0".
Definition new_node (nm : string) (a : action) : fnode := FNode nm (a_op a) "" (a_attrs a) (a_ins a) [port0 nm] [].
Definition put {A} (f : string -> option A) (k : string) (v : option A) : string -> option A :=
  fun t => if String.eqb t k then v else f t.
Definition drop {A} (f : string -> option A) (ks : list string) : string -> option A := fun t => if mem t ks then None else f t.
(** g.make_node, g.replace_all_inputs, g.safe_remove_nodes (graph.py:607-679, 1431-1467, 1600-1610).  [None]: an exception.
    Simplification: the node list is without the duplicate that ops.append puts in (leakyrelu_rewriter.py:42, gemm_rewriter.py:94). *)
Definition fuse (nm : string) (a : action) (s : state) : option state :=
  match replace_all (a_out a) (port0 nm) (s_nodes s ++ [new_node nm a]) with
  | None => None
  | Some ns =>
      let del := map f_name (a_del a) in
      let gone := filter (safe del ns) (a_del a) in
      if existsb (fun d => negb (mem (f_name d) (map f_name ns))) gone then None
      else
        let outs := concat (map f_out gone) in
        Some (State (filter (fun n => negb (mem (f_name n) (map f_name gone))) ns)
                    (drop (put (s_shape s) (port0 nm) (s_shape s (a_out a))) outs)
                    (drop (put (s_dtype s) (port0 nm) (s_dtype s (a_out a))) outs))
  end.

Section Run.
Variable name : nat -> string.
(** for match in match_results; [plan]: an exception, continue, or a change.  [k] counts the names. *)
Fixpoint run_matches (plan : state -> match_result -> option (option action)) (ms : list match_result) (k : nat) (s : state)
  : option (nat * state) :=
  match ms with
  | [] => Some (k, s)
  | m :: ms' => match plan s m with
                | None => None
                | Some None => run_matches plan ms' k s
                | Some (Some a) => match fuse (name k) a s with None => None | Some s' => run_matches plan ms' (S k) s' end
                end
  end.
(** GraphMatcher(pattern, allow_reorder=True), list(matcher.match_ops(ops)), then the loop.  [plan] sees the nodes at the time of
    the match ([op_of]) and the state when it is its turn. *)
Definition run_pattern (p : pattern) (plan : list fnode -> state -> match_result -> option (option action)) (k : nat) (s : state)
  : option (nat * state) :=
  match match_ops (view (s_nodes s)) true p (seq 0 (length (s_nodes s))) with
  | None => None
  | Some ms => run_matches (plan (s_nodes s)) (map snd ms) k s
  end.
End Run.

Section Rewriters.
Variable cval : nat -> tensor R.
Fixpoint find_attr (nm : string) (l : list (string * attr)) : option attr :=
  match l with [] => None | (k, v) :: l' => if String.eqb k nm then Some v else find_attr nm l' end.
(** graph.py:302-326 get_tensor_value of a constant: the tensor; [None]: not a constant *)
Definition const_id (n : fnode) : option nat :=
  match find_attr "value" (f_attrs n) with Some (ATensor id) => Some id | _ => None end.
Definition star (i : nat) (nm : string) : pattern := Pat i (Some nm) (Some "*") None [].
Definition leaf (i : nat) (nm ty : string) : pattern := Pat i (Some nm) (Some ty) None [].
Definition bind {A B} (o : option A) (f : A -> option B) : option B := match o with Some x => f x | None => None end.
Notation "'do' x <- o ; f" := (bind o (fun x => f)) (at level 60, x name, right associativity).

(** leakyrelu_rewriter.py:17-24 *)
Definition leaky_pattern : pattern :=
  Pat 0 (Some "max") (Some "Maximum") None
    [Pat 1 (Some "mul") (Some "Mul") None [leaf 2 "alpha" "Const"; star 3 "mul_input"]; star 4 "max_input"].
(** lines 28-45.  get_tensor_value gives a number for a tensor without dimensions, otherwise a list, and comparing a list with 1
    raises. *)
Definition leaky_plan (ns0 : list fnode) (s : state) (m : match_result) : option (option action) :=
  do max_node <- op_of ns0 m "max"; do mul_node <- op_of ns0 m "mul";
  do max_input <- tensor_of m "max_input"; do mul_input <- tensor_of m "mul_input";
  if String.eqb max_input mul_input then
    do al <- op_of ns0 m "alpha"; do id <- const_id al;
    match cval id with
    | Tensor [] (a :: _) =>
        if Rle_dec 1 a then Some None
        else do y <- hd_error (f_out max_node);
             Some (Some (Action "LeakyRelu" [("alpha", ATensor id)] [max_input] y [max_node; mul_node]))
    | _ => None
    end
  else Some None.
Definition rewrite_leakyrelu (name : nat -> string) (opset : nat) (s : state) : option (nat * state) :=
  if Nat.ltb opset 6 then Some (0, s) else run_pattern name leaky_pattern leaky_plan 0 s.

(** an attribute made from get_tensor_value: a number for a tensor without dimensions; [AStr] stands for an attribute that is a list *)
Definition value_attr (id : nat) : attr := match shape (cval id) with [] => ATensor id | _ => AStr "list" end.
(** thresholded_relu_rewriter.py:17-26 *)
Definition threshold_pattern : pattern :=
  Pat 0 (Some "mul") (Some "Mul") None
    [Pat 1 (Some "cast") (Some "Cast") None
       [Pat 2 (Some "greater") (Some "Greater") None [star 3 "greater_input"; leaf 4 "theta" "Const"]];
     star 5 "mul_input"].
(** lines 30-43 *)
Definition threshold_plan (ns0 : list fnode) (s : state) (m : match_result) : option (option action) :=
  do mul_node <- op_of ns0 m "mul"; do cast_node <- op_of ns0 m "cast";
  do greater_input <- tensor_of m "greater_input"; do mul_input <- tensor_of m "mul_input";
  if String.eqb greater_input mul_input then
    do th <- op_of ns0 m "theta"; do id <- const_id th; do y <- hd_error (f_out mul_node);
    Some (Some (Action "ThresholdedRelu" [("alpha", value_attr id)] [mul_input] y [cast_node; mul_node]))
  else Some None.
Definition rewrite_thresholded_relu (name : nat -> string) (opset : nat) (s : state) : option (nat * state) :=
  if Nat.ltb opset 10 then Some (0, s) else run_pattern name threshold_pattern threshold_plan 0 s.

(** gemm_rewriter.py:20-66 *)
Definition gemm_patterns : list pattern :=
  let matmul i := leaf i "matmul" "MatMul" in
  [Pat 0 (Some "add") (Some "Add|AddV2") None
     [Pat 1 (Some "mul1") (Some "Mul") None [leaf 2 "alpha" "Const"; matmul 3];
      Pat 4 (Some "mul2") (Some "Mul") None [leaf 5 "beta" "Const"; star 6 "C"]];
   Pat 0 (Some "add") (Some "Add|AddV2") None
     [Pat 1 (Some "mul1") (Some "Mul") None [matmul 2; leaf 3 "alpha" "Const"]; star 4 "C"];
   Pat 0 (Some "add") (Some "Add|AddV2") None
     [matmul 1; Pat 2 (Some "mul2") (Some "Mul") None [leaf 3 "beta" "Const"; star 4 "C"]];
   Pat 0 (Some "add") (Some "Add|AddV2") None [matmul 1; star 2 "C"];
   Pat 0 (Some "add") (Some "BiasAdd") None [matmul 1; star 2 "C"]].
(** lines 106-114, one of "alpha" and "beta": [Some None] = not valid.  A list of length one gives its element; when that is a list
    again, the attribute becomes a list of numbers, which is not what Gemm has: [AStr] stands for it. *)
Definition scale_attr (ns0 : list fnode) (m : match_result) (arg : string) : option (option (list (string * attr))) :=
  match get_op_named m arg with
  | None => Some (Some [])
  | Some _ =>
      do n <- op_of ns0 m arg; do id <- const_id n;
      match shape (cval id) with
      | [] => Some (Some [(arg, ATensor id)])
      | [d] => if Nat.eqb d 1 then Some (Some [(arg, ATensor id)]) else Some None
      | d :: _ => if Nat.eqb d 1 then Some (Some [(arg, AStr "list")]) else Some None
      end
  end.
(** lines 115-126 *)
Definition transpose_attrs (matmul : fnode) : option (option (list (string * attr))) :=
  match find_attr "transpose_a" (f_attrs matmul), find_attr "transpose_b" (f_attrs matmul) with
  | None, None => Some None
  | Some (AInt a), Some (AInt b) => Some (Some [("transA", AInt a); ("transB", AInt b)])
  | _, _ => None
  end.
Definition gemm_attr (ns0 : list fnode) (m : match_result) (matmul : fnode) : option (option (list (string * attr))) :=
  do a <- scale_attr ns0 m "alpha";
  match a with
  | None => Some None
  | Some a =>
      do b <- scale_attr ns0 m "beta";
      match b with
      | None => Some None
      | Some b => do t <- transpose_attrs matmul;
                  match t with None => Some None | Some t => Some (Some (a ++ b ++ t)) end
      end
  end.
(** the node object now: its inputs may have changed since the match.  (A removed object keeps the inputs of the match here.) *)
Definition now (s : state) (n : fnode) : fnode :=
  match find (fun c => String.eqb (f_name c) (f_name n)) (s_nodes s) with Some c => c | None => n end.
(** lines 86-90: dimensions from the last one on, [c] and [ab] reversed; [None] = IndexError *)
Fixpoint compatible (c ab : list Z) : option bool :=
  match c, ab with
  | [], _ => Some true
  | x :: c', y :: ab' => do b <- compatible c' ab'; Some ((Z.eqb x 1 || Z.eqb x y) && b)
  | _ :: _, [] => None
  end.
Definition rank_is (s : state) (t : string) (r : nat) : bool := match s_shape s t with Some sh => Nat.eqb (length sh) r | None => false end.
(** lines 70-100; TensorProto.FLOAT is 1 *)
Definition gemm_plan (ns0 : list fnode) (s : state) (m : match_result) : option (option action) :=
  do matmul0 <- op_of ns0 m "matmul"; let matmul := now s matmul0 in
  match f_in matmul with
  | a_edge :: rest =>
      if negb (match s_dtype s a_edge with Some d => Z.eqb d 1 | None => false end) then Some None
      else
        do attrs <- gemm_attr ns0 m matmul;
        match attrs with
        | None => Some None
        | Some attrs =>
            do add_node <- op_of ns0 m "add"; do b_edge <- hd_error rest; do c_edge <- tensor_of m "C"; do ab <- hd_error (f_out matmul);
            match s_shape s c_edge, s_shape s ab with
            | Some c_shape, Some ab_shape =>
                if existsb (Z.eqb (-1)) (c_shape ++ ab_shape) then Some None
                else if negb (rank_is s a_edge 2 && rank_is s b_edge 2) then Some None
                else
                  do comp <- compatible (rev c_shape) (rev ab_shape);
                  if negb comp then Some None
                  else do y <- hd_error (f_out add_node);
                       Some (Some (Action "Gemm" attrs [a_edge; b_edge; c_edge] y [add_node; matmul0]))
            | _, _ => Some None
            end
        end
  | [] => None
  end.
Fixpoint run_patterns (name : nat -> string) (ps : list pattern) (k : nat) (s : state) : option (nat * state) :=
  match ps with
  | [] => Some (k, s)
  | p :: ps' => match run_pattern name p gemm_plan k s with None => None | Some (k', s') => run_patterns name ps' k' s' end
  end.
Definition rewrite_gemm (name : nat -> string) (opset : nat) (s : state) : option (nat * state) :=
  if Nat.leb opset 6 then Some (0, s) else run_patterns name gemm_patterns 0 s.
End Rewriters.
