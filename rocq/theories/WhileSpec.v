(** TensorFlow's While and ONNX's Loop, from their documentation, and the conditions under which one can stand for the other. *)
From Coq Require Import String List Bool ZArith Arith.
From Verif Require Import FGraph FGraphSpec InlineSpec.
Import ListNotations.
Local Open Scope string_scope.
Local Open Scope list_scope.

(** ** Values: integers, truth values, no value (for omitted inputs), tensor lists (whose entries may be unset), and the
    tensor made of equally shaped ones *)
Record value_ops (V : Type) := Values {
  num : Z -> V; truth : bool -> V; absent : V; tlist : list (option V) -> V; stack : list V -> V;
  num_inj : forall x y, num x = num y -> x = y;
  truth_inj : forall x y, truth x = truth y -> x = y;
  tlist_inj : forall x y, tlist x = tlist y -> x = y;
  absent_num : forall z, num z <> absent }.
Arguments num {V}. Arguments truth {V}. Arguments absent {V}. Arguments tlist {V}. Arguments stack {V}.
Arguments num_inj {V}. Arguments truth_inj {V}. Arguments tlist_inj {V}. Arguments absent_num {V}.

Section Loops.
Context {V : Type} (vo : value_ops V).
Notation rel := (list V -> list V -> Prop).
(** TensorFlow's While: as long as the condition holds of the state, the body computes the next one *)
Inductive tf_while (cond body : rel) : list V -> list V -> Prop :=
| tf_stop s : cond s [truth vo false] -> tf_while cond body s s
| tf_step s s' s'' : cond s [truth vo true] -> body s s' -> tf_while cond body s' s'' -> tf_while cond body s s''.
(** the states at the beginning of the k-th iteration *)
Inductive iteration (cond body : rel) (s0 : list V) : nat -> list V -> Prop :=
| it_first : iteration cond body s0 0 s0
| it_next k s s' : iteration cond body s0 k s -> cond s [truth vo true] -> body s s' -> iteration cond body s0 (S k) s'.
(** ONNX's Loop: at most [limit] iterations; the body gets the iteration number, the condition and the loop variables,
    and returns the next condition, the next loop variables and one row of scan outputs *)
Definition below (limit : option Z) (k : nat) : bool := match limit with None => true | Some m => Z.ltb (Z.of_nat k) m end.
Inductive onnx_loop (body : rel) (limit : option Z) : nat -> bool -> list V -> list V -> list (list V) -> Prop :=
| loop_stop k c vs : below limit k && c = false -> onnx_loop body limit k c vs vs []
| loop_step k c vs c' vs' row fin rows : below limit k && c = true ->
    body (num vo (Z.of_nat k) :: truth vo c :: vs) (truth vo c' :: vs' ++ row) -> length vs' = length vs ->
    onnx_loop body limit (S k) c' vs' fin rows -> onnx_loop body limit k c vs fin (row :: rows).
Definition columns (q : nat) (rows : list (list V)) : list V := map (fun j => stack vo (map (fun row => nth j row (absent vo)) rows)) (seq 0 q).
(** entry k of a list is set *)
Definition set_item (k : nat) (x : V) (l : list (option V)) : list (option V) := firstn k l ++ Some x :: skipn (S k) l.

Record loop_semantics (op_rel : string -> string -> list (string * attr) -> nat -> list V -> list rel -> list V -> Prop) : Prop := {
  ls_ext : op_ext op_rel;
  ls_identity : identity_meaning op_rel;
  ls_set : forall dom at_ l i x vs, op_rel "TensorListSetItem" dom at_ 1 [l; i; x] [] vs <->
    exists items k, l = tlist vo items /\ i = num vo (Z.of_nat k) /\ k < length items /\ vs = [tlist vo (set_item k x items)];
  ls_cast : forall z vs, op_rel "Cast" "" [("to", AInt 7)] 1 [num vo z] [] vs <-> vs = [num vo z];
  ls_loop : forall k ins b out, op_rel "Loop" "" [] k ins [b] out <->
    exists m c vs limit fin rows, ins = m :: truth vo c :: vs /\ m = match limit with Some z => num vo z | None => absent vo end /\
      onnx_loop b limit 0 c vs fin rows /\ (forall row, In row rows -> length vs + length row = k) /\ out = fin ++ columns (k - length vs) rows }.
End Loops.

(** ** The inputs of a While node after the loop counter and the maximum number of iterations: loop variables, tensor lists
    that are only read, tensor lists that are written *)
Inductive kind := Var | Read | Lst.
Definition kind_eqb (a b : kind) : bool := match a, b with Var, Var | Read, Read | Lst, Lst => true | _, _ => false end.
Definition role (op_of : string -> string) (ta_reads : list string) (name param : string) (k : kind) : Prop :=
  let reserved := In (op_of name) ["TensorListReserve"; "TensorListResize"] in
  match k with Lst => reserved | Read => ~ reserved /\ In param ta_reads | Var => ~ reserved /\ ~ In param ta_reads end.
(** the entries of a kind *)
Definition of_kind {A} (k : kind) (ks : list kind) (l : list A) : list A := map snd (filter (fun p => kind_eqb (fst p) k) (combine ks l)).
Definition not_lst {A} (ks : list kind) (l : list A) : list A := map snd (filter (fun p => negb (kind_eqb (fst p) Lst)) (combine ks l)).

(** ** Functions: they read only their parameters and what they compute ("" stands for no input) *)
Record function_graph (g : fgraph) : Prop := {
  fn_placeholder : forall n, In n (f_nodes g) -> placeholder n -> f_in n = [] /\ f_bodies n = [] /\ exists i, f_out n = [i] /\ In i (f_ins g);
  fn_param : forall i, In i (f_ins g) -> exists n, In n (f_nodes g) /\ placeholder n /\ f_out n = [i];
  fn_params : NoDup (f_ins g);
  fn_ssa : NoDup (outputs_of (f_nodes g));
  fn_named : ~ In "" (outputs_of (f_nodes g));
  fn_names : NoDup (map f_name (f_nodes g));
  fn_bodies : forall n b t, In n (f_nodes g) -> In b (f_bodies n) -> In t (alldefs b) -> ~ In t (outputs_of (f_nodes g));
  fn_results : forall o, In o (f_outs g) -> In o (outputs_of (f_nodes g));
  fn_closed : forall n t, In n (f_nodes g) -> In t (fv_node n) -> t = "" \/ In t (outputs_of (f_nodes g)) }.
(** the names a written tensor list has, each read only to give it the next one *)
Inductive list_path (ns : list fnode) : string -> list string -> string -> Prop :=
| path_end t : (forall n, In n ns -> ~ In t (fv_node n)) -> list_path ns t [] t
| path_next t t' path o n : In n ns -> f_op n = "Identity" -> f_in n = [t] -> f_out n = [t'] -> f_bodies n = [] ->
    (forall m, In m ns -> In t (fv_node m) -> m = n) -> list_path ns t' path o -> list_path ns t (t' :: path) o.
(** one write to a tensor list: the parameter, the index, the item, the written list and its further names *)
Record lwrite := LWrite { wr_param : string; wr_index : string; wr_item : string; wr_out : string; wr_path : list string }.
Definition wr_names (w : lwrite) : list string := wr_param w :: wr_out w :: wr_path w.
(** parameter p is only used for the write w, and result o is the written list *)
Definition writes (ns : list fnode) (p o : string) (w : lwrite) : Prop :=
  wr_param w = p /\ exists n, In n ns /\ f_op n = "TensorListSetItem" /\ f_in n = [p; wr_index w; wr_item w] /\ f_out n = [wr_out w] /\ f_bodies n = [] /\
    (forall m, In m ns -> In p (fv_node m) -> m = n) /\ p <> wr_index w /\ p <> wr_item w /\ list_path ns (wr_out w) (wr_path w) o.

(** the body of a loop; [outer]: the tensors of the enclosing graph that parameters stand for; [cparam]: the parameter made
    for the condition *)
Record loop_body (ks : list kind) (body : fgraph) (ws : list lwrite) (outer : list string) (cname cparam : string) : Prop := {
  lb_function : function_graph body;
  lb_ins : length (f_ins body) = 2 + length ks;
  lb_outs : length (f_outs body) = 2 + length ks;
  lb_lists : Forall2 (fun po w => writes (f_nodes body) (fst po) (snd po) w)
               (combine (of_kind Lst ks (skipn 2 (f_ins body))) (of_kind Lst ks (skipn 2 (f_outs body)))) ws;
  lb_all_lists : forall n, In n (f_nodes body) -> f_op n = "TensorListSetItem" -> exists w, In w ws /\ f_in n = [wr_param w; wr_index w; wr_item w];
  lb_distinct : NoDup (concat (map wr_names ws));
  lb_vars : forall o w, In o (of_kind Var ks (skipn 2 (f_outs body))) -> In w ws -> ~ In o (wr_names w);
  lb_outer : forall p, In p outer -> p <> "" /\ p <> "@@ALLOC" /\ ~ In p (outputs_of (f_nodes body)) /\ p <> cparam /\ ~ in_scope "cond__" p;
  lb_cname : ~ In cname (map f_name (f_nodes body));
  lb_cparam : cparam <> "" /\ ~ In cparam (outputs_of (f_nodes body)) /\ ~ in_scope "cond__" cparam /\ forall n, In n (f_nodes body) -> ~ In cparam (fv_node n);
  lb_scope : fresh_in "cond__" body }.
(** the entries of [a], for tensor lists that are only read those of [b] *)
Definition merge {A} (ks : list kind) (a b : list A) : list A := map (fun x => match x with (Read, (_, y)) => y | (_, (x, _)) => x end) (combine ks (combine a b)).
(** the entries without the written tensor lists *)
Definition keep2 {A} (ks : list kind) (l : list A) : list A := firstn 2 l ++ not_lst ks (skipn 2 l).
(** the condition without its parameters for written tensor lists *)
Definition drop_lists (ks : list kind) (g : fgraph) : fgraph :=
  FGraph (filter (fun n => negb (existsb (fun o => mem o (of_kind Lst ks (skipn 2 (f_ins g)))) (f_out n))) (f_nodes g)) (keep2 ks (f_ins g)) (f_outs g).
(** the condition of a loop; [ins]: the inputs of the While node *)
Record loop_cond (ks : list kind) (cond body : fgraph) (scope : string) (ins : list string) : Prop := {
  lc_function : function_graph cond;
  lc_ins : length (f_ins cond) = 2 + length ks;
  lc_result : length (f_outs cond) = 1;
  lc_lists : forall p, In p (of_kind Lst ks (skipn 2 (f_ins cond))) -> ~ In p (f_outs cond) /\ forall n, In n (f_nodes cond) -> ~ In p (fv_node n);
  lc_before : inlinable scope (combine (keep2 ks (f_ins cond)) (keep2 ks ins)) (drop_lists ks cond);
  lc_inside : inlinable "cond__" (combine (keep2 ks (f_ins cond)) (firstn 1 (f_ins body) ++ firstn 1 (skipn 1 ins) ++ not_lst ks (merge ks (skipn 2 (f_outs body)) (skipn 2 ins)))) (drop_lists ks cond) }.

(** ** Counted loops, as tf.while_loop makes them *)
Section Counted.
Context {V : Type} (vo : value_ops V) (op_rel : string -> string -> list (string * attr) -> nat -> list V -> list (list V -> list V -> Prop) -> list V -> Prop).
(** in every execution of the body at the state s, up to the writes to tensor lists, the writes have the index v *)
Definition index_is (r : string -> V) (body : fgraph) (ws : list lwrite) (s : list V) (v : V) : Prop :=
  forall r' : string -> V, (forall t, ~ In t (defs (equations body)) -> r' t = r t) -> map r' (f_ins body) = s ->
    (forall n, In n (f_nodes (equations body)) -> f_op n <> "TensorListSetItem" -> holds op_rel r' n) ->
    forall w, In w ws -> r' (wr_index w) = v.
(** [q]: the condition of the program; the loop counter counts the iterations and is compared with the maximum number z of
    iterations; tensor lists that are read do not change; iteration k writes entry k of the written lists *)
Record counted (r : string -> V) (cond body : fgraph) (ks : list kind) (ws : list lwrite) (limit : option Z) (z : Z) (q : list V -> bool -> Prop) (args : list V) : Prop := {
  cnt_cond : forall k rest v, body_rel op_rel r (equations cond) (num vo (Z.of_nat k) :: num vo z :: rest) [v] <->
               length rest = length ks /\ exists b, q rest b /\ v = truth vo (below limit k && b);
  cnt_state : forall k s, iteration vo (body_rel op_rel r (equations cond)) (body_rel op_rel r (equations body)) args k s ->
               firstn 2 s = [num vo (Z.of_nat k); num vo z] /\ of_kind Read ks (skipn 2 s) = of_kind Read ks (skipn 2 args);
  cnt_index : forall k s, iteration vo (body_rel op_rel r (equations cond)) (body_rel op_rel r (equations body)) args k s ->
               body_rel op_rel r (equations cond) s [truth vo true] ->
               index_is r body ws s (num vo (Z.of_nat k)) /\ forall l, In (tlist vo l) (of_kind Lst ks (skipn 2 args)) -> k < length l }.
End Counted.

(** ** While nodes and their replacements *)
(** no tensor list that is only read comes before one that is written *)
Definition lists_first (ks : list kind) : Prop := exists a b, ks = a ++ b /\ (forall k, In k a -> k <> Read) /\ (forall k, In k b -> k <> Lst).
(** the input that holds the maximum number of iterations; a constant other than -1 that has other uses is copied *)
Definition max_input (ins : list string) (max : option Z) (shared : bool) (fresh : string) : string :=
  match max with Some z => if negb (Z.eqb z (-1)) && shared then fresh else nth 1 ins "" | None => nth 1 ins "" end.
(** -1 stands for no maximum *)
Definition limit_of (max : option Z) (z : Z) : option Z := match max with Some m => if Z.eqb m (-1) then None else Some m | None => Some z end.
(** the While nodes of the theorem: [ins], [outs] its inputs and outputs *)
Record while_node (op_of : string -> string) (ta_reads : list string) (ks : list kind) (ws : list lwrite) (cond body : fgraph) (ins outs : list string)
  (mi cname cparam cond_name : string) : Prop := {
  wn_ins : length ins = 2 + length ks;
  wn_outs : length outs = 2 + length ks;
  wn_roles : forall i k x p, nth_error ks i = Some k -> nth_error (skipn 2 ins) i = Some x -> nth_error (skipn 2 (f_ins body)) i = Some p -> role op_of ta_reads x p k;
  wn_lists_first : lists_first ks;
  wn_body : loop_body ks body ws (mi :: of_kind Read ks (skipn 2 ins)) cname cparam;
  wn_cond : loop_cond ks cond body cond_name (firstn 1 ins ++ mi :: skipn 2 ins) }.
Section Runs.
Context {V : Type} (vo : value_ops V) (op_rel : string -> string -> list (string * attr) -> nat -> list V -> list (list V -> list V -> Prop) -> list V -> Prop).
(** an execution of the new nodes: the last one is the Loop; Placeholder nodes are parameters *)
Definition runs (r : string -> V) (nodes : list fnode) : Prop :=
  exists front nm ins outs b, nodes = front ++ [FNode nm "Loop" "" [] ins outs [b]] /\
    (forall n, In n front -> ~ placeholder n -> holds op_rel r n) /\ holds op_rel r (FNode nm "Loop" "" [] ins outs [equations b]).
(** what stands for an output of the While node whose value is v: for a tensor list that is written the tensor made of the
    items that the loop sets, the first ones *)
Definition stands_for (r : string -> V) (pairs : list (string * string)) (k : kind) (old : string) (start v : V) : Prop :=
  match k with
  | Var => exists new, In (old, new) pairs /\ r new = v
  | Read => v = start
  | Lst => exists new xs l, In (old, new) pairs /\ r new = stack vo xs /\ start = tlist vo l /\ v = tlist vo (map Some xs ++ skipn (length xs) l)
  end.
Definition while_result (r : string -> V) (pairs : list (string * string)) (ks : list kind) (outs : list string) (args final : list V) : Prop :=
  length final = 2 + length ks /\
  forall i k old start v, nth_error ks i = Some k -> nth_error (skipn 2 outs) i = Some old -> nth_error (skipn 2 args) i = Some start -> nth_error (skipn 2 final) i = Some v ->
    stands_for r pairs k old start v.
End Runs.
(** new nodes do not define names twice or names that are read already; nothing reads the outputs of the Loop *)
Definition computed (nodes : list fnode) : list string := outputs_of (f_nodes (equations (FGraph nodes [] []))).
Record fresh_names (ins : list string) (nodes : list fnode) (pairs : list (string * string)) : Prop := {
  nn_once : NoDup (computed nodes);
  nn_ins : forall x, In x ins -> ~ In x (computed nodes);
  nn_results : forall x n, In x (map snd pairs) -> In n nodes -> ~ In x (fv_node n) /\ forall b, In b (f_bodies n) -> ~ In x (alldefs b) }.
(** the number of iterations: a constant is what [max] says, and its copy has the same value *)
Definition constant_trip {V} (vo : value_ops V) (op_rel : string -> string -> list (string * attr) -> nat -> list V -> list (list V -> list V -> Prop) -> list V -> Prop)
  (max : option Z) (attrs : list (string * attr)) (z : Z) : Prop :=
  forall m, max = Some m -> m = z /\ forall vs, op_rel "Const" "" attrs 1 [] [] vs <-> vs = [num vo m].
