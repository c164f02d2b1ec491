(** Ragged tensors: TensorFlow's tf.ragged operators, and the ONNX operators that their converters use, from their
    documentation.  Ints are mathematical (no overflow); A: the type of the values. *)
From Coq Require Import String List Arith ZArith Bool.
From Verif Require Import OnnxSpec SegSpec.
Import ListNotations.
Local Open Scope list_scope.
Local Notation length := List.length.

(** ** TensorFlow *)
(** a ragged tensor with one ragged dimension: its row_splits and flat values *)
Fixpoint splits_from {A} (start : Z) (rows : list (list A)) : list Z :=
  match rows with [] => [start] | r :: rows' => start :: splits_from (start + Z.of_nat (length r)) rows' end.
Definition splits {A} (rows : list (list A)) : list Z := splits_from 0 rows.
(** one row of tf.ragged.range: s, s + d, ... as long as the limit is not reached *)
Definition before (d x l : Z) : Prop := if Z.ltb 0 d then (x < l)%Z else (l < x)%Z.
Definition is_range (s l d : Z) (r : list Z) : Prop :=
  (forall k, k < length r -> nth_error r k = Some (s + Z.of_nat k * d)%Z /\ before d (s + Z.of_nat k * d) l) /\ ~ before d (s + Z.of_nat (length r) * d) l.
(** an argument is a scalar or a vector; vectors have the same length, the number of rows *)
Inductive arg := Scalar (z : Z) | Vector (l : list Z).
Definition arg_at (a : arg) (i : nat) : option Z := match a with Scalar z => Some z | Vector l => nth_error l i end.
Definition arg_size (n : nat) (a : arg) : Prop := match a with Scalar _ => True | Vector l => length l = n end.
Definition number_of_rows (n : nat) (args : list arg) : Prop :=
  Forall (arg_size n) args /\ ((forall a, In a args -> exists z, a = Scalar z) -> n = 1).
Definition tf_ragged_range (starts limits deltas : arg) (rows : list (list Z)) : Prop :=
  number_of_rows (length rows) [starts; limits; deltas] /\
  forall i r, nth_error rows i = Some r -> exists s l d, arg_at starts i = Some s /\ arg_at limits i = Some l /\ arg_at deltas i = Some d /\ d <> 0%Z /\ is_range s l d r.
(** tf.gather of rows *)
Definition tf_ragged_gather {A} (rows : list (list A)) (indices : list Z) (out : list (list A)) : Prop := gathered rows indices = Some out.
(** more ragged dimensions: [lens] lists for each ragged dimension the lengths of the rows; the paths of the values.
    The rows of the next dimension are the items of this one, in order. *)
Definition extend (paths : list (list Z)) (lens : list nat) : list (list Z) :=
  concat (map (fun p => map (fun j => fst p ++ [Z.of_nat j]) (seq 0 (snd p))) (combine paths lens)).
Definition first_paths (n : nat) : list (list Z) := map (fun i => [Z.of_nat i]) (seq 0 n).
Definition all_paths (lens : list (list nat)) : list (list Z) :=
  match lens with [] => [] | l :: _ => fold_left extend lens (first_paths (length l)) end.
(** each dimension has a row for each item of the one before *)
Fixpoint fits (lens : list (list nat)) : Prop :=
  match lens with l :: ((l' :: _) as rest) => length l' = list_sum l /\ fits rest | _ => True end.
Definition dense_dims (lens : list (list nat)) : list Z :=
  match lens with [] => [] | l :: _ => Z.of_nat (length l) :: map (fun l => Z.of_nat (list_max l)) lens end.
Fixpoint sums_from (start : Z) (l : list nat) : list Z := match l with [] => [start] | x :: l' => start :: sums_from (start + Z.of_nat x) l' end.

(** ** ONNX *)
Inductive rval (A : Type) := S0 (z : Z) | V1 (l : list Z) | M2 (l : list (list Z)) | B0 (b : bool) | B1 (l : list bool) | D1 (l : list A).
Arguments S0 {A}. Arguments V1 {A}. Arguments M2 {A}. Arguments B0 {A}. Arguments B1 {A}. Arguments D1 {A}.
Inductive arith := Add | Sub | Mul | Div | Mod | Maximum.
Inductive cmp := Less | Greater | Equal.
(** Unique (sorted): values, indices of the first occurrences, counts *)
Inductive which := Values | First | Counts.
Inductive op := KConst (z : Z) | KConstVec (l : list Z) | KArith (a : arith) | KCompare (c : cmp) | KNot | KCastBool | KReduceMax | KShape
  | KConstantOfShape (z : Z) | KCumSum (exclusive : bool) | KSlice (start stop : Z) | KGather | KCompress | KConcat | KConcat1 | KUnsqueeze0 | KUnsqueeze1
  | KExpand | KScatterElements | KUnique (w : which).
Inductive expr := EIn (s : string) | E (o : op) (l : list expr).
(** integers: Div truncates, Mod has the sign of the divisor *)
Definition arith_of (a : arith) (x y : Z) : option Z :=
  match a with
  | Add => Some (x + y)%Z | Sub => Some (x - y)%Z | Mul => Some (x * y)%Z | Maximum => Some (Z.max x y)
  | Div => if Z.eqb y 0 then None else Some (Z.quot x y) | Mod => if Z.eqb y 0 then None else Some (Z.modulo x y)
  end.
Definition cmp_of (c : cmp) (x y : Z) : option bool := Some match c with Less => Z.ltb x y | Greater => Z.ltb y x | Equal => Z.eqb x y end.
(** broadcasting of two vectors *)
Definition broadcast {X} (f : Z -> Z -> option X) (l m : list Z) : option (list X) :=
  if Nat.eqb (length l) (length m) then all_of (fun p => f (fst p) (snd p)) (combine l m)
  else match l, m with [x], _ => all_of (f x) m | _, [y] => all_of (fun x => f x y) l | _, _ => None end.
Fixpoint cumsum_from (exclusive : bool) (acc : Z) (l : list Z) : list Z :=
  match l with [] => [] | x :: l' => (if exclusive then acc else acc + x)%Z :: cumsum_from exclusive (acc + x) l' end.
(** the elements for which the condition is true; a shorter condition is padded with false *)
Fixpoint compress {X} (l : list X) (c : list bool) : list X := match l, c with x :: l', b :: c' => if b then x :: compress l' c' else compress l' c' | _, _ => [] end.
(** Slice with step 1 *)
Definition slice_bound (n start : Z) : Z := Z.max 0 (Z.min n (if Z.ltb start 0 then start + n else start)).
Definition slice {X} (l : list X) (start stop : Z) : list X :=
  let n := Z.of_nat (length l) in let a := slice_bound n start in let b := slice_bound n stop in firstn (Z.to_nat (b - a)) (skipn (Z.to_nat a) l).
Definition max_list (l : list Z) : option Z := match l with [] => None | z :: l' => Some (fold_right Z.max z l') end.
Definition op_value {A} (o : op) (args : list (rval A)) : option (rval A) :=
  match o, args with
  | KConst z, [] => Some (S0 z)
  | KConstVec l, [] => Some (V1 l)
  | KArith a, [S0 x; S0 y] => option_map S0 (arith_of a x y)
  | KArith a, [S0 x; V1 m] => option_map V1 (all_of (arith_of a x) m)
  | KArith a, [V1 l; S0 y] => option_map V1 (all_of (fun x => arith_of a x y) l)
  | KArith a, [V1 l; V1 m] => option_map V1 (broadcast (arith_of a) l m)
  | KCompare c, [S0 x; S0 y] => option_map B0 (cmp_of c x y)
  | KCompare c, [S0 x; V1 m] => option_map B1 (all_of (cmp_of c x) m)
  | KCompare c, [V1 l; S0 y] => option_map B1 (all_of (fun x => cmp_of c x y) l)
  | KCompare c, [V1 l; V1 m] => option_map B1 (broadcast (cmp_of c) l m)
  | KNot, [B0 b] => Some (B0 (negb b))
  | KNot, [B1 l] => Some (B1 (map negb l))
  | KCastBool, [B0 b] => Some (S0 (if b then 1 else 0)%Z)
  | KCastBool, [B1 l] => Some (V1 (map (fun b : bool => if b then 1 else 0)%Z l))
  | KReduceMax, [V1 l] => option_map (fun z => V1 [z]) (max_list l)
  | KShape, [S0 _] => Some (V1 [])
  | KShape, [V1 l] => Some (V1 [Z.of_nat (length l)])
  | KConstantOfShape z, [V1 [n]] => if Z.leb 0 n then Some (V1 (repeat z (Z.to_nat n))) else None
  | KConstantOfShape z, [V1 []] => Some (S0 z)
  | KCumSum ex, [V1 l; S0 0%Z] => Some (V1 (cumsum_from ex 0 l))
  | KSlice a b, [V1 l] => Some (V1 (slice l a b))
  | KGather, [V1 l; V1 ix] => option_map V1 (all_of (take l) ix)
  | KGather, [M2 l; V1 ix] => option_map M2 (all_of (take l) ix)
  | KGather, [D1 l; V1 ix] => option_map D1 (all_of (take l) ix)
  | KCompress, [V1 l; B1 c] => if Nat.leb (length c) (length l) then Some (V1 (compress l c)) else None
  | KConcat, [V1 l; V1 m] => Some (V1 (l ++ m))
  | KConcat1, [M2 l; M2 m] => if Nat.eqb (length l) (length m) then Some (M2 (zip (@app Z) l m)) else None
  | KUnsqueeze0, [S0 z] => Some (V1 [z])
  | KUnsqueeze1, [V1 l] => Some (M2 (map (fun z => [z]) l))
  | KExpand, [S0 z; V1 [n]] => if Z.leb 0 n then Some (V1 (repeat z (Z.to_nat n))) else None
  | KExpand, [V1 l; V1 [n]] => if Z.eqb (Z.of_nat (length l)) n then Some (V1 l) else match l with [z] => if Z.leb 0 n then Some (V1 (repeat z (Z.to_nat n))) else None | _ => if Z.eqb n 1 then Some (V1 l) else None end
  | KScatterElements, [V1 d; V1 ix; V1 u] =>
      match all_of (norm_axis (length d)) ix with
      | Some ks => if Nat.eqb (length ix) (length u) && no_dups Nat.eqb ks
                   then Some (V1 (map (fun k => from_option (nth k d 0%Z) (look Nat.eqb k (combine ks u))) (seq 0 (length d)))) else None
      | None => None
      end
  | KUnique w, [V1 l] => let u := distinct l in
      Some (V1 (match w with Values => u | First => map (fun z => Z.of_nat (position z l)) u | Counts => map (fun z => Z.of_nat (count z l)) u end))
  | _, _ => None
  end.
Fixpoint value {A} (env : string -> option (rval A)) (e : expr) : option (rval A) :=
  match e with
  | EIn s => env s
  | E o l => match (fix values (l : list expr) := match l with [] => Some [] | e :: l' => match value env e, values l' with Some v, Some r => Some (v :: r) | _, _ => None end end) l with
             | Some args => op_value o args | None => None
             end
  end.
