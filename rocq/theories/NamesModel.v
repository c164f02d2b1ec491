(** Model of the name handling of tf2onnx: utils.py (make_name, node_name, port_name,
    initialize_name_counter, combine_seeds) and the external tensor storage of graph.py. *)
From Coq Require Import List String Ascii NArith ZArith Bool.
From Coq Require Import DecimalString.
Import ListNotations.
Local Open Scope string_scope.

(** Python [str(n)] for a non-negative integer [n]. *)
Definition str_of_N (n : N) : string := NilZero.string_of_uint (N.to_uint n).

(** Python [int(s)] for a string [s] of ASCII decimal digits; [None] = ValueError. *)
Definition int_of_str (s : string) : option N :=
  match NilZero.uint_of_string s with
  | Some d => Some (N.of_uint d)
  | None => None
  end.

(** Regex class [\d] restricted to ASCII (Python's [\d] also accepts other Unicode digits;
    names are modelled as ASCII strings). *)
Definition is_digit (c : ascii) : bool :=
  let n := N_of_ascii c in (48 <=? n)%N && (n <=? 57)%N.

(** utils.py:96-100 [make_name]: increments the global INTERNAL_NAME and appends it. *)
Definition make_name (counter : N) (name : string) : N * string :=
  let counter' := (counter + 1)%N in
  (counter', name ++ "__" ++ str_of_N counter').

(** utils.py:135-140 [node_name]: the part of the name before the first ":" . *)
Fixpoint node_name (name : string) : string :=
  match name with
  | EmptyString => EmptyString
  | String c rest => if Ascii.eqb c ":" then EmptyString else String c (node_name rest)
  end.

(** utils.py:151-153 [port_name]. *)
Definition port_name (name : string) (nr : N) : string := name ++ ":" ++ str_of_N nr.

(** Greedy [\d+] / [\d*]: longest digit prefix and the rest. *)
Fixpoint span_digits (s : string) : string * string :=
  match s with
  | EmptyString => (EmptyString, EmptyString)
  | String c rest =>
      if is_digit c then let (d, r) := span_digits rest in (String c d, r)
      else (EmptyString, s)
  end.

(** utils.py:244 the regex [__(\d+)(:\d+)?$] tried at one position; the value is group 1.
    Simplification: [$] also matches before one trailing newline in Python; here only at the
    end (a name with a trailing newline can only raise the counter further). *)
Definition match_suffix_at (s : string) : option string :=
  match s with
  | String c1 (String c2 rest) =>
      if Ascii.eqb c1 "_" && Ascii.eqb c2 "_" then
        let (d, r) := span_digits rest in
        match d with
        | EmptyString => None
        | _ =>
          match r with
          | EmptyString => Some d
          | String c r' =>
              if Ascii.eqb c ":" then
                let (d2, r2) := span_digits r' in
                match d2, r2 with
                | String _ _, EmptyString => Some d
                | _, _ => None
                end
              else None
          end
        end
      else None
  | _ => None
  end.

(** [suffix_regex.search(name)], utils.py:247: leftmost position that matches. *)
Fixpoint search_suffix (s : string) : option string :=
  match match_suffix_at s with
  | Some d => Some d
  | None => match s with
            | EmptyString => None
            | String _ rest => search_suffix rest
            end
  end.

(** utils.py:245-249 [avoid_name]. *)
Definition avoid_name (counter : N) (name : string) : N :=
  match search_suffix name with
  | Some d => match int_of_str d with
              | Some k => N.max counter (k + 1)
              | None => counter
              end
  | None => counter
  end.

(** The part of an ONNX GraphProto that matters for names: node names and outputs, nested
    graphs held in node attributes, plus initializer and graph input names. *)
Inductive pgraph : Type :=
| PGraph : list pnode -> list string -> list string -> pgraph  (* nodes, initializers, inputs *)
with pnode : Type :=
| PNode : string -> list string -> list pgraph -> pnode.       (* name, outputs, attribute graphs *)

Definition pg_nodes (g : pgraph) := match g with PGraph ns _ _ => ns end.
Definition pg_inits (g : pgraph) := match g with PGraph _ is _ => is end.
Definition pg_inputs (g : pgraph) := match g with PGraph _ _ ins => ins end.
Definition pn_name (n : pnode) := match n with PNode s _ _ => s end.
Definition pn_outputs (n : pnode) := match n with PNode _ o _ => o end.
Definition pn_graphs (n : pnode) := match n with PNode _ _ gs => gs end.

(** utils.py:229-240 [get_subgraphs_from_onnx]: DFS with an explicit stack (top = head here,
    Python pops from the end, so the pushed graphs are reversed).  [None] = out of fuel. *)
Fixpoint get_subgraphs (fuel : nat) (stack : list pgraph) : option (list pgraph) :=
  match stack with
  | [] => Some []
  | g :: stack' =>
      match fuel with
      | O => None
      | S fuel' =>
          match get_subgraphs fuel' (rev (flat_map pn_graphs (pg_nodes g)) ++ stack')%list with
          | Some gs => Some (g :: gs)
          | None => None
          end
      end
  end.

(** Number of graphs in a model, enough fuel for the DFS. *)
Fixpoint pgraph_size (g : pgraph) : nat :=
  match g with
  | PGraph ns _ _ =>
      S (fold_right (fun n acc => pnode_size n + acc) 0 ns)
  end
with pnode_size (n : pnode) : nat :=
  match n with
  | PNode _ _ gs => fold_right (fun g acc => pgraph_size g + acc) 0 gs
  end.

(** utils.py:242-254 [initialize_name_counter]. *)
Definition scan_names (gs : list pgraph) : list string :=
  flat_map (fun g => flat_map (fun n => pn_name n :: pn_outputs n) (pg_nodes g)) gs.
Definition initialize_name_counter (counter : N) (model : pgraph) : N :=
  match get_subgraphs (pgraph_size model) [model] with
  | Some gs => fold_left avoid_name (scan_names gs) counter
  | None => counter
  end.

(** A history of uses of the global counter. *)
Inductive name_op := OpMakeName (base : string) | OpInit (model : pgraph).
Fixpoint run_names (counter : N) (ops : list name_op) : N * list string :=
  match ops with
  | [] => (counter, [])
  | OpMakeName b :: ops' =>
      let (c', s) := make_name counter b in
      let (c'', ss) := run_names c' ops' in (c'', s :: ss)
  | OpInit m :: ops' => run_names (initialize_name_counter counter m) ops'
  end.

(** utils.py:309-315 [combine_seeds] before the conversion to float. *)
Definition combine_seeds_int (seed seed2 : Z) : option Z :=
  if negb (seed =? 0)%Z || negb (seed2 =? 0)%Z then
    Some (((seed + seed2 + 1) * (seed + seed2 + 2)) / 2 - seed)%Z
  else None.

(** Python [float(n)] on a non-negative integer: round to 53 significant bits, ties to even,
    the result written as the integer it represents (no overflow to inf is modelled:
    integers below 2^1024). *)
Definition float_of_Z (n : Z) : Z :=
  let e := (Z.log2 n - 52)%Z in
  if (e <=? 0)%Z then n
  else
    let u := (2 ^ e)%Z in
    let q := (n / u)%Z in
    let r := (n mod u)%Z in
    let q' := if (2 * r <? u)%Z then q
              else if (u <? 2 * r)%Z then (q + 1)%Z
              else if Z.even q then q else (q + 1)%Z in
    (q' * u)%Z.

(** utils.py:309-315 [combine_seeds]. *)
Definition combine_seeds (seed seed2 : Z) : option Z :=
  match combine_seeds_int seed seed2 with
  | Some c => Some (float_of_Z c)
  | None => None
  end.

(** ** External tensor storage, graph.py:25-31 and 96-119 *)

(** Python [str.isspace] for ASCII, as used by [strip]. *)
Definition is_space (c : ascii) : bool :=
  let n := N_of_ascii c in
  ((9 <=? n) && (n <=? 13))%N || ((28 <=? n) && (n <=? 32))%N.
Fixpoint lstrip (s : string) : string :=
  match s with
  | EmptyString => EmptyString
  | String c r => if is_space c then lstrip r else s
  end.
Fixpoint string_rev (s : string) : string :=
  match s with
  | EmptyString => EmptyString
  | String c r => string_rev r ++ String c EmptyString
  end.
Definition strip (s : string) : string := string_rev (lstrip (string_rev (lstrip s))).

(** graph.py:108-109: the characters replaced by an underscore, as ASCII codes: tilde, double
    quote, hash, percent, ampersand, star, colon, less, greater, question mark, slash,
    backslash, left brace, bar, right brace. *)
Definition bad_char (c : ascii) : bool :=
  existsb (N.eqb (N_of_ascii c))
    [126; 34; 35; 37; 38; 42; 58; 60; 62; 63; 47; 92; 123; 124; 125]%N.
Fixpoint sanitize (s : string) : string :=
  match s with
  | EmptyString => EmptyString
  | String c r => String (if bad_char c then "_"%char else c) (sanitize r)
  end.

(** graph.py:107-109. *)
Definition external_name (name : string) (counter : N) : string :=
  sanitize (strip name ++ "_" ++ str_of_N counter).

(** ExternalTensorStorage: name -> data (latest binding first), counter, threshold 1024, and the
    cache node -> location keyed by node identity. *)
Record storage (D : Type) := mkStorage {
  st_data : list (string * D);
  st_counter : N;
  st_nodes : list (nat * string) }.
Arguments mkStorage {D}. Arguments st_data {D}. Arguments st_counter {D}. Arguments st_nodes {D}.

Definition empty_storage {D} : storage D := mkStorage [] 0%N [].

(** A Const node as far as get_value_attr is concerned: identity, name, number of elements, data. *)
Record const_node (D : Type) := mkConst { cn_id : nat; cn_name : string; cn_size : N; cn_data : D }.
Arguments mkConst {D}. Arguments cn_id {D}. Arguments cn_name {D}. Arguments cn_size {D}.
Arguments cn_data {D}.

Fixpoint assoc_nat {A} (k : nat) (l : list (nat * A)) : option A :=
  match l with
  | [] => None
  | (k', v) :: l' => if Nat.eqb k k' then Some v else assoc_nat k l'
  end.
Fixpoint assoc_str {A} (k : string) (l : list (string * A)) : option A :=
  match l with
  | [] => None
  | (k', v) :: l' => if String.eqb k k' then Some v else assoc_str k l'
  end.

(** graph.py:96-119 [get_value_attr] (value attribute of TENSOR type): returns where the tensor
    data is to be found, inline or in the external storage under a key. *)
Inductive location (D : Type) := Inline (d : D) | External (key : string).
Arguments Inline {D}. Arguments External {D}.

Definition get_value_attr {D} (s : storage D) (n : const_node D) : storage D * location D :=
  match assoc_nat (cn_id n) (st_nodes s) with
  | Some k => (s, External k)
  | None =>
      if (1024 <? cn_size n)%N then
        let k := external_name (cn_name n) (st_counter s) in
        (mkStorage ((k, cn_data n) :: st_data s) (st_counter s + 1)%N
                   ((cn_id n, k) :: st_nodes s), External k)
      else (s, Inline (cn_data n))
  end.

Fixpoint store_all {D} (s : storage D) (ns : list (const_node D))
  : storage D * list (location D) :=
  match ns with
  | [] => (s, [])
  | n :: ns' =>
      let (s1, l) := get_value_attr s n in
      let (s2, ls) := store_all s1 ns' in (s2, l :: ls)
  end.

(** utils.py:294-301 [save_onnx_zip]: one member for the model, one per stored tensor.
    [name_to_tensor_data] is a dict, so members are the distinct keys. *)
Definition zip_members {D} (model : D) (s : storage D) : list (string * D) :=
  ("__MODEL_PROTO.onnx", model) :: st_data s.

(** [str.endswith(".onnx")]. *)
Fixpoint endswith (suffix s : string) : bool :=
  String.eqb s suffix || match s with EmptyString => false | String _ r => endswith suffix r end.

(** utils.py:431-440 [model_proto_from_zip]: members ending in .onnx are parsed into the model
    (the last one wins), the others are tensor data. *)
Fixpoint load_zip {D} (members : list (string * D)) (model : option D) (data : list (string * D))
  : option D * list (string * D) :=
  match members with
  | [] => (model, data)
  | (n, d) :: ms =>
      if endswith ".onnx" n then load_zip ms (Some d) data
      else load_zip ms model ((n, d) :: data)
  end.
