(** Model of tf2onnx/optimizer/merge_duplicated_nodes_optimizer.py. *)
From Coq Require Import String List Bool Arith ZArith.
From Verif Require Import FGraph IdentityModel.
Import ListNotations.
Local Open Scope string_scope.
Local Open Scope list_scope.

Definition attr_dec (a b : attr) : {a = b} + {a <> b}.
Proof. decide equality; auto using Z.eq_dec, string_dec, Nat.eq_dec. apply list_eq_dec, Z.eq_dec. Defined.
Definition attrs_dec (a b : list (string * attr)) : {a = b} + {a <> b}.
Proof. apply list_eq_dec. intros [s1 a1] [s2 a2]. destruct (string_dec s1 s2), (attr_dec a1 a2); [left|right|right|right]; congruence. Defined.

Section Merge.
(** [const_eq a b]: lines 75-87, the constants with attributes a and b have the same recorded shape (if
    known), the same dtype and np.array_equal holds; [hash a]: line 60, hash of the raw data. *)
Variable const_eq : list (string * attr) -> list (string * attr) -> bool.
Variable hash : list (string * attr) -> Z.

(** graph.py:185-187 *)
Definition is_const (n : fnode) : bool := String.eqb (f_op n) "Const" || String.eqb (f_op n) "ConstV2".

(** lines 50-62: the key of a group.  Default values of graph inputs (55-56) are not modelled. *)
Definition key_hash (n : fnode) : option Z := if is_const n then Some (hash (f_attrs n)) else None.
Definition same_key (n m : fnode) : bool :=
  String.eqb (f_op n) (f_op m) && (if list_eq_dec string_dec (f_in n) (f_in m) then true else false) &&
  (match key_hash n, key_hash m with Some a, Some b => Z.eqb a b | None, None => true | _, _ => false end).
Fixpoint add_to_group (n : fnode) (gs : list (list fnode)) : list (list fnode) :=
  match gs with
  | [] => [[n]]
  | grp :: gs' =>
      match grp with
      | [] => grp :: add_to_group n gs'
      | m :: _ => if same_key m n then (grp ++ [n]) :: gs' else grp :: add_to_group n gs'
      end
  end.
Definition group_nodes (ns : list fnode) : list (list fnode) := fold_left (fun gs n => add_to_group n gs) ns [].

(** lines 69-88.  Attributes are dicts; the model keeps them in one order.  The attribute of a node with a
    body graph contains the serialized body, which is named after the node (graph.py:384-389), so two such
    nodes never compare equal. *)
Definition equal_attr (n m : fnode) : bool :=
  (match f_bodies n, f_bodies m with [], [] => if attrs_dec (f_attrs n) (f_attrs m) then true else false | _, _ => false end)
  || (is_const n && is_const m && const_eq (f_attrs n) (f_attrs m)).

(** line 92: list.sort(key=number of outputs, reverse=True), which is stable *)
Fixpoint ins_desc (n : fnode) (l : list fnode) : list fnode :=
  match l with
  | [] => [n]
  | m :: l' => if Nat.ltb (length (f_out n)) (length (f_out m)) then m :: ins_desc n l' else n :: l
  end.
Fixpoint sort_desc (l : list fnode) : list fnode :=
  match l with [] => [] | n :: l' => ins_desc n (sort_desc l') end.

(** lines 98-99: one replace_all_inputs per pair of outputs; [None] = RuntimeError *)
Fixpoint replace_pairs (ps : list (string * string)) (ns : list fnode) : option (list fnode) :=
  match ps with
  | [] => Some ns
  | (old, new) :: ps' => match replace_all old new ns with None => None | Some ns' => replace_pairs ps' ns' end
  end.
(** lines 94-101 *)
Definition merge_one (rt d : fnode) (g : fgraph) : option (fgraph * bool) :=
  if existsb (fun o => mem o (f_outs g)) (f_out d) then Some (g, false)
  else match replace_pairs (combine (f_out d) (f_out rt)) (f_nodes g) with
       | None => None
       | Some ns => Some (FGraph (without (f_name d) ns) (f_ins g) (f_outs g), true)
       end.
Fixpoint merge_all (rt : fnode) (ds : list fnode) (st : fgraph * bool) : option (fgraph * bool) :=
  match ds with
  | [] => Some st
  | d :: ds' => match merge_one rt d (fst st) with
                | None => None
                | Some (g', b) => merge_all rt ds' (g', snd st || b)
                end
  end.
(** lines 90-101 *)
Definition merge_class (l : list fnode) (st : fgraph * bool) : option (fgraph * bool) :=
  match sort_desc l with [] => Some st | rt :: ds => merge_all rt ds st end.
(** lines 64-79: the while loop over a group; [fuel] is at least the size of the group *)
Fixpoint del_group (fuel : nat) (grp : list fnode) (st : fgraph * bool) : option (fgraph * bool) :=
  match fuel, grp with
  | S fuel', n :: (m0 :: ms) =>
      match merge_class (n :: filter (fun m => equal_attr m n) (m0 :: ms)) st with
      | None => None
      | Some st' => del_group fuel' (filter (fun m => negb (equal_attr m n)) (m0 :: ms)) st'
      end
  | _, _ => Some st
  end.
(** lines 40-47 and 103-110.  The groups are computed once, before any replacement. *)
Definition skip_group (grp : list fnode) : bool :=
  match grp with n :: _ => String.eqb (f_op n) "Identity" | [] => true end.
Fixpoint merge_groups (gs : list (list fnode)) (st : fgraph * bool) : option (fgraph * bool) :=
  match gs with
  | [] => Some st
  | grp :: gs' =>
      match (if skip_group grp then Some st else del_group (length grp) grp st) with
      | None => None
      | Some st' => merge_groups gs' st'
      end
  end.
Definition merge_round (g : fgraph) : option (fgraph * bool) := merge_groups (group_nodes (f_nodes g)) (g, false).
(** lines 32-38: the while loop; out of [fuel] gives [None].  The loop flag is False when the body graphs are
    visited afterwards, so only the top graph is changed. *)
Fixpoint merge_rounds (fuel : nat) (g : fgraph) : option fgraph :=
  match fuel with
  | O => None
  | S fuel' => match merge_round g with
               | None => None
               | Some (g', true) => merge_rounds fuel' g'
               | Some (g', false) => Some g'
               end
  end.
Definition merge_optimizer (g : fgraph) : option fgraph := merge_rounds (S (length (f_nodes g))) g.
End Merge.
