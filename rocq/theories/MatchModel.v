(** Model of tf2onnx/graph_matcher.py:29-250 (OpTypePattern, GraphMatcher, MatchResult). *)
From Coq Require Import Ascii String List Arith Bool.
Import ListNotations.
Local Open Scope string_scope. Local Open Scope list_scope.

(** OpTypePattern, lines 29-70.  [pid] is the identity of the Python object; [pname] is its optional name, [ptype] its
    op_type (may be None); [preorder] is allow_reorder. *)
Inductive pattern := Pat (pid : nat) (pname : option string) (ptype : option string) (preorder : option bool) (pinputs : list pattern).
Definition pid p := let 'Pat i _ _ _ _ := p in i.
Definition pname p := let 'Pat _ n _ _ _ := p in n.
Definition ptype p := let 'Pat _ _ t _ _ := p in t.
Definition preorder p := let 'Pat _ _ _ r _ := p in r.
Definition pinputs p := let 'Pat _ _ _ _ l := p in l.

(** op_type.split('|') *)
Fixpoint split_bar (s : string) : list string :=
  match s with
  | EmptyString => [""]
  | String c s' => if Ascii.eqb c "|"%char then "" :: split_bar s'
                   else match split_bar s' with [] => [String c ""] | x :: l => String c x :: l end
  end.
(** line 57: set(op_type.split('|')) if op_type else set() *)
Definition type_set (t : string) : list string := if String.eqb t "" then [] else split_bar t.

(** A node of the graph: its type and, for each input, the tensor name and the producing node; [None] when
    get_node_by_output finds none (node.inputs, graph.py:86-90). *)
Record gnode := GNode { gtype : string; ginputs : list (string * option nat) }.
Definition graph := nat -> gnode.
Definition binding := (pattern * option nat * option string)%type.

(** itertools.permutations: every way to take one element first, in position order, then the permutations of the rest *)
Fixpoint selects {A} (l : list A) : list (A * list A) :=
  match l with [] => [] | x :: l' => (x, l') :: map (fun p => (fst p, x :: snd p)) (selects l') end.
Fixpoint permutations {A} (n : nat) (l : list A) : list (list A) :=
  match n with
  | 0 => [[]]
  | S n' => flat_map (fun p => map (cons (fst p)) (permutations n' (snd p))) (selects l)
  end.

Section Match.
Variable g : graph.
Variable default_reorder : bool.   (* GraphMatcher(allow_reorder) *)
(** result of _match_pattern: [None] = an exception (op.type on None), otherwise the flag and the match list *)
Definition result := option (bool * list binding).
(** lines 206-211 : all the inputs are matched, without stopping at the first failure *)
Fixpoint eval_inputs (xs : list (string * option nat)) (fs : list (option nat -> option string -> result)) : result :=
  match xs, fs with
  | x :: xs', f :: fs' =>
      match f (snd x) (Some (fst x)) with
      | None => None
      | Some (b, l) => match eval_inputs xs' fs' with None => None | Some (b', l') => Some (b && b', l ++ l') end
      end
  | _, _ => Some (true, [])
  end.
(** lines 203-217 *)
Fixpoint try_inputs (ml : list binding) (xs : list (string * option nat)) (cands : list (list (option nat -> option string -> result))) : result :=
  match cands with
  | [] => Some (false, ml)
  | fs :: cands' =>
      match eval_inputs xs fs with
      | None => None
      | Some (true, l) => Some (true, ml ++ l)
      | Some (false, _) => try_inputs ml xs cands'
      end
  end.
(** lines 155-162 _is_op_type_same *)
Definition op_type_same (op : option nat) (t : string) : option bool :=
  if String.eqb t "*" then Some true
  else match op with None => None | Some o => Some (existsb (String.eqb (gtype (g o))) (type_set t)) end.
(** lines 164-217 *)
Fixpoint match_pattern (p : pattern) (op : option nat) (tensor : option string) {struct p} : result :=
  match p with
  | Pat i nm None r ins => Some (true, [])
  | Pat i nm (Some t) r ins =>
      match op_type_same op t with
      | None => None
      | Some false => Some (false, [])
      | Some true =>
          let ml := [(p, op, tensor)] in
          match ins with
          | [] => Some (true, ml)
          | _ =>
              match op with
              | None => Some (false, ml)
              | Some o =>
                  let xs := ginputs (g o) in
                  if negb (Nat.eqb (length xs) (length ins)) then Some (false, ml)
                  else
                    let fs := map match_pattern ins in
                    let reorder := match r with Some b => b | None => default_reorder end in
                    try_inputs ml xs (if reorder then permutations (length fs) fs else [fs])
              end
          end
      end
  end.

(** MatchResult, lines 73-140 : dictionary pattern object -> (op, tensor), and name -> pattern object *)
Record match_result := MatchResult { by_pattern : list (nat * (option nat * option string)); by_name : list (string * nat) }.
Fixpoint nset {V} (d : list (nat * V)) (k : nat) (v : V) : list (nat * V) :=
  match d with [] => [(k, v)] | (k', v') :: d' => if Nat.eqb k' k then (k', v) :: d' else (k', v') :: nset d' k v end.
Fixpoint nget {V} (d : list (nat * V)) (k : nat) : option V :=
  match d with [] => None | (k', v) :: d' => if Nat.eqb k' k then Some v else nget d' k end.
Fixpoint sset {V} (d : list (string * V)) (k : string) (v : V) : list (string * V) :=
  match d with [] => [(k, v)] | (k', v') :: d' => if String.eqb k' k then (k', v) :: d' else (k', v') :: sset d' k v end.
Fixpoint sget {V} (d : list (string * V)) (k : string) : option V :=
  match d with [] => None | (k', v) :: d' => if String.eqb k' k then Some v else sget d' k end.
Definition add_binding (m : match_result) (b : binding) : match_result :=
  let '(p, op, t) := b in
  MatchResult (nset (by_pattern m) (pid p) (op, t))
              (match pname p with Some n => sset (by_name m) n (pid p) | None => by_name m end).
(** get_op by pattern object, and by name *)
Definition get_op (m : match_result) (p : nat) : option (option nat) := option_map fst (nget (by_pattern m) p).
Definition get_op_named (m : match_result) (n : string) : option (option nat) :=
  match sget (by_name m) n with Some p => get_op m p | None => None end.
(** lines 219-240 match_op: [None] = exception, [Some None] = no match *)
Definition match_op (p : pattern) (op : nat) : option (option match_result) :=
  match match_pattern p (Some op) None with
  | None => None
  | Some (false, _) => Some None
  | Some (true, l) => Some (Some (fold_left add_binding l (MatchResult [] [])))
  end.
(** lines 242-270 match_ops / match_graph: the results for the ops that match, in order *)
Fixpoint match_ops (p : pattern) (ops : list nat) : option (list (nat * match_result)) :=
  match ops with
  | [] => Some []
  | o :: ops' => match match_op p o, match_ops p ops' with
                 | Some (Some m), Some ms => Some ((o, m) :: ms)
                 | Some None, Some ms => Some ms
                 | _, _ => None
                 end
  end.
End Match.
