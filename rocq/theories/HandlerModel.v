(** Model of the converter registry, tf2onnx/handler.py:12-135 and its use in tf2onnx/tfonnx.py:505-580, and of the schema
    table, tf2onnx/schemas.py:62-105.  Python dictionaries are association lists in insertion order. *)
From Coq Require Import String List Arith Bool.
Import ListNotations.
Local Open Scope string_scope. Local Open Scope list_scope.

Section Dict.
Context {V : Type}.
Fixpoint dget (d : list (string * V)) (k : string) : option V :=
  match d with [] => None | (k', v) :: d' => if String.eqb k' k then Some v else dget d' k end.
(** d[k] = v : keeps the position of an existing key *)
Fixpoint dset (d : list (string * V)) (k : string) (v : V) : list (string * V) :=
  match d with [] => [(k, v)] | (k', v') :: d' => if String.eqb k' k then (k', v) :: d' else (k', v') :: dset d' k v end.
(** d.update(e) *)
Definition dupdate (d e : list (string * V)) : list (string * V) :=
  fold_left (fun d kv => dset d (fst kv) (snd kv)) e d.
End Dict.

Section Handlers.
Variable H : Type.   (* a handler: the pair (func, kwargs) *)
Local Notation opmap := (list (string * H)) (only parsing).
(** tf_op._OPSETS : domain -> list indexed by version of dictionaries *)
Definition registry : Type := list (string * list (list (string * H))).

Fixpoint replace_nth {A} (n : nat) (x : A) (l : list A) : list A :=
  match l, n with [], _ => [] | _ :: l', 0 => x :: l' | a :: l', S n' => a :: replace_nth n' x l' end.
(** handler.py:53-71 register_handler: a domain that is absent (or has an empty list) starts with an empty list; pads with
    empty dictionaries up to [version] *)
Definition register (reg : registry) (f : H) (version : nat) (names : list string) (domain : string) : registry :=
  let opset := match dget reg domain with Some l => l | None => [] end in
  let opset := opset ++ repeat [] (S version - length opset) in
  let d := fold_left (fun d nm => dset d nm f) names (nth version opset []) in
  dset reg domain (replace_nth version d opset).

Definition ONNX : string := "".
(** handler.py:84-87 : the dictionary domain -> highest allowed version *)
Definition limits (max_onnx : nat) (extra : list (string * nat)) : list (string * nat) := dupdate [(ONNX, max_onnx)] extra.

Definition nonempty {A} (l : list A) : bool := match l with [] => false | _ => true end.
(** handler.py:90-96 : the state is (ops_mapping, domain_to_ops_mapping) *)
Definition step_version (domain : string) (m : option nat) (st : opmap * list (string * opmap)) (vm : nat * opmap) :=
  let '(ops, doms) := st in
  match m with
  | Some (S m') =>
      if Nat.leb (fst vm) (S m') && nonempty (snd vm)
      then (dupdate ops (snd vm), dset doms domain (dupdate (match dget doms domain with Some x => x | None => [] end) ops))
      else st
  | _ => st   (* "if m:" : absent or 0 *)
  end.
Definition enumerate {A} (l : list A) : list (nat * A) := combine (seq 0 (length l)) l.
Definition step_domain (lim : list (string * nat)) (st : opmap * list (string * opmap)) (e : string * list opmap) :=
  fold_left (step_version (fst e) (dget lim (fst e))) (enumerate (snd e)) st.
Definition create_mapping2 (reg : registry) (max_onnx : nat) (extra : list (string * nat)) : opmap * list (string * opmap) :=
  fold_left (step_domain (limits max_onnx extra)) reg ([], []).
Definition create_mapping reg max_onnx extra : opmap := fst (create_mapping2 reg max_onnx extra).
(** handler.py:103-120; _DOMAIN_MAPPING is a defaultdict(dict) *)
Definition find_effective_op (reg : registry) max_onnx extra (name : string) (domain : option string) : option H :=
  match domain with
  | None => dget (create_mapping reg max_onnx extra) name
  | Some d => match dget (snd (create_mapping2 reg max_onnx extra)) d with Some t => dget t name | None => None end
  end.

(** tfonnx.py:540-573 : the table used for one conversion, and the registry it leaves behind.  Each custom handler
    [(name, (as used, as registered))] is put on top of the table, and registered for later conversions under the custom
    domain, version 1 (the registered kwargs are nested one level deeper, so the two differ). *)
Definition TF_DOMAIN : string := "ai.onnx.converters.tensorflow".
Definition conversion (reg : registry) max_onnx extra (custom : list (string * (H * H))) : opmap * registry :=
  (dupdate (create_mapping reg max_onnx extra) (map (fun e => (fst e, fst (snd e))) custom),
   fold_left (fun r e => register r (snd (snd e)) 1 [fst e] TF_DOMAIN) custom reg).
End Handlers.
Arguments register {H}. Arguments create_mapping {H}. Arguments create_mapping2 {H}. Arguments find_effective_op {H}.
Arguments conversion {H}.

(** schemas.py:62-77 : for one (name, domain) the OrderedDict since_version -> schema sorted by -version, built from the
    schemas in registration order (a later one with the same version replaces the earlier one) *)
Section Schemas.
Variable S' : Type.
Fixpoint zset (d : list (nat * S')) (k : nat) (v : S') : list (nat * S') :=
  match d with [] => [(k, v)] | (k', v') :: d' => if Nat.eqb k' k then (k', v) :: d' else (k', v') :: zset d' k v end.
(** sorted(..., key=-version): stable insertion sort *)
Fixpoint insert_desc (e : nat * S') (l : list (nat * S')) : list (nat * S') :=
  match l with [] => [e] | x :: l' => if Nat.leb (fst x) (fst e) then e :: x :: l' else x :: insert_desc e l' end.
Definition sort_desc (l : list (nat * S')) : list (nat * S') := fold_right insert_desc [] l.
Record entry := Entry { ename : string; edomain : string; eversion : nat; eschema : S' }.
Definition version_map (all : list entry) (name domain : string) : list (nat * S') :=
  sort_desc (fold_left (fun d e => zset d (eversion e) (eschema e))
    (filter (fun e => String.eqb (ename e) name && String.eqb (edomain e) domain) all) []).
(** schemas.py:98-107 get_schema, from the first schema on *)
Definition get_schema (all : list entry) (name : string) (maxv : nat) (domain : string) : option S' :=
  option_map snd (find (fun kv => Nat.leb (fst kv) maxv) (version_map all name domain)).
(** schemas.py:80-91 and 110-113 : the largest version of any schema of the domain *)
Definition max_supported (all : list entry) (domain : string) : option nat :=
  fold_left (fun acc nm => match version_map all nm domain with
                           | [] => acc
                           | (v, _) :: _ => Some (match acc with None => v | Some a => Nat.max a v end) end)
    (map ename all) None.
End Schemas.
Arguments get_schema {S'}. Arguments version_map {S'}. Arguments max_supported {S'}. Arguments Entry {S'}.
Arguments ename {S'}. Arguments edomain {S'}. Arguments eversion {S'}. Arguments eschema {S'}.
