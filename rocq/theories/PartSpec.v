(** tf.dynamic_partition, tf.dynamic_stitch, tf.math.bincount, tf.unique, and the ONNX operators that their converters use, from
    their documentation.  Integers are mathematical; A: one cell of the data; rows are lists of cells (what is behind the first axis, flattened). *)
From Coq Require Import String List Arith ZArith Bool.
From Verif Require Import OnnxSpec SegSpec RagSpec.
Import ListNotations.
Local Open Scope list_scope.
Local Notation length := List.length.

(** ** TensorFlow *)
(** dynamic_partition: output i has the rows whose partition is i, in their order *)
Definition tf_partition {R} (rows : list R) (partitions : list Z) (n : nat) (outs : list (list R)) : Prop :=
  length partitions = length rows /\ Forall (fun p => (0 <= p < Z.of_nat n)%Z) partitions /\ length outs = n /\
  forall i out, nth_error outs i = Some out -> out = map fst (filter (fun rp => Z.eqb (snd rp) (Z.of_nat i)) (combine rows partitions)).
(** dynamic_stitch: as many rows as the largest index says; at each index the row that is written last; other rows are not specified *)
Definition last_write {R} (indices : list (list Z)) (datas : list (list R)) (p : nat) (r : R) : Prop :=
  exists before after, combine (concat indices) (concat datas) = before ++ (Z.of_nat p, r) :: after /\ ~ In (Z.of_nat p) (map fst after).
Definition tf_stitch {R} (indices : list (list Z)) (datas : list (list R)) (out : list R) : Prop :=
  Forall2 (fun ix d => length ix = length d) indices datas /\ Forall (fun z => (0 <= z < Z.of_nat (length out))%Z) (concat indices) /\
  (out <> [] -> In (Z.of_nat (length out) - 1)%Z (concat indices)) /\
  forall p r, last_write indices datas p r -> nth_error out p = Some r.
(** bincount without weights; binary: only whether the value occurs *)
Definition tf_bins (binary : bool) (l : list Z) (size : nat) (out : list Z) : Prop :=
  length out = size /\ forall v c, nth_error out v = Some c -> c = (if binary then (if Nat.eqb (count (Z.of_nat v) l) 0 then 0 else 1) else Z.of_nat (count (Z.of_nat v) l))%Z.
(** unique: the elements in the order of their first occurrences, the place of each element among them, and their numbers *)
Definition first_at {X} (l : list X) (x : X) (k : nat) : Prop := nth_error l k = Some x /\ ~ In x (firstn k l).
Definition occurs {X} (l : list X) (x : X) (places : list nat) : Prop := NoDup places /\ forall k, In k places <-> nth_error l k = Some x.
Record is_unique {X} (l y : list X) (idx : list nat) (counts : list nat) : Prop := {
  u_all : forall x, In x y <-> In x l;
  u_order : forall i j x x' k k', nth_error y i = Some x -> nth_error y j = Some x' -> first_at l x k -> first_at l x' k' -> i < j -> k < k';
  u_idx : length idx = length l /\ forall p x k, nth_error l p = Some x -> nth_error idx p = Some k -> nth_error y k = Some x;
  u_counts : length counts = length y /\ forall i x c, nth_error y i = Some x -> nth_error counts i = Some c -> exists places, occurs l x places /\ length places = c }.

(** ** ONNX.  Mat w: rows of w integers; Cube m k: rows of m lists of k integers; Data w: rows of w cells *)
Inductive pval (A : Type) := Sc (z : Z) | Vec (l : list Z) | Mat (w : nat) (l : list (list Z)) | Cube (m k : nat) (l : list (list (list Z)))
  | Bools (l : list bool) | BMat (w : nat) (l : list (list bool)) | Data (w : nat) (l : list (list A)).
Arguments Sc {A}. Arguments Vec {A}. Arguments Mat {A}. Arguments Cube {A}. Arguments Bools {A}. Arguments BMat {A}. Arguments Data {A}.
(** OZeros: ConstantOfShape with a zero of the type of the data.  Unique: sorted = 1, without an axis or with axis 0 *)
Inductive part := UValues | UCounts.
Inductive pop := OConst (z : Z) | OConstVec (l : list Z) | OConstMat (w : nat) (l : list (list Z)) | OShape | OSlice (start stop : Z) (axis : nat) | OSqueeze (axis : nat) | OUnsqueeze (axis : nat)
  | ORange | OExpand | OConcat (axis : nat) | OReshape | OUnique (u : part) | OUniqueRows (u : part) | OGreater | OLess | OAnd | OEqual
  | OCastInt | OCastBool | OSplit (n i : nat) | OCompress | OConstantOfShape (z : Z) | OZeros | OScatterND | OScatterElements.
Inductive pexpr := PIn (s : string) | PE (o : pop) (l : list pexpr).
Fixpoint lex (a b : list Z) : comparison :=
  match a, b with [], [] => Eq | [], _ => Lt | _, [] => Gt | x :: a', y :: b' => match Z.compare x y with Eq => lex a' b' | c => c end end.
Fixpoint insert_row (r : list Z) (l : list (list Z)) : list (list Z) :=
  match l with [] => [r] | q :: l' => match lex r q with Eq => l | Lt => r :: l | Gt => q :: insert_row r l' end end.
Definition distinct_rows (l : list (list Z)) : list (list Z) := fold_right insert_row [] l.
Definition count_rows (r : list Z) (l : list (list Z)) : nat := count_occ (list_eq_dec Z.eq_dec) l r.
(** one row of [u] against the vector [l] *)
Definition row_against (f : Z -> Z -> bool) (l u : list Z) : option (list bool) :=
  match u with [y] => Some (map (fun x => f x y) l) | _ => if Nat.eqb (length l) (length u) then Some (zip f l u) else None end.
Definition padded_false (c : list bool) (n : nat) : bool := Nat.leb (length c) n.
(** ScatterElements with axis 0: cell (ix[k][j], j) becomes updates[k][j] *)
Definition scatter_column {A} (d : list A) (ix : list Z) (u : list A) : option (list A) :=
  match all_of (norm_axis (length d)) ix with
  | Some ks => if no_dups Nat.eqb ks then all_of (fun k => match look Nat.eqb k (combine ks u) with Some x => Some x | None => nth_error d k end) (seq 0 (length d)) else None
  | None => None
  end.
Definition column {B} (l : list (list B)) (j : nat) : option (list B) := all_of (fun r => nth_error r j) l.
Definition of_columns {B} (n : nat) (cols : list (list B)) : option (list (list B)) := all_of (fun i => all_of (fun c => nth_error c i) cols) (seq 0 n).
Definition scatter_rows {A} (w : nat) (d : list (list A)) (ix : list (list Z)) (u : list (list A)) : option (list (list A)) :=
  match all_of (fun j => match column d j, column ix j, column u j with Some a, Some b, Some c => scatter_column a b c | _, _, _ => None end) (seq 0 w) with
  | Some cols => of_columns (length d) cols | None => None
  end.
Section Cells.
Variables (A : Type) (nought : A).
Definition pop_value (o : pop) (args : list (pval A)) : option (pval A) :=
  match o, args with
  | OConst z, [] => Some (Sc z)
  | OConstVec l, [] => Some (Vec l)
  | OConstMat w l, [] => Some (Mat w l)
  | OShape, [Vec l] => Some (Vec [Z.of_nat (length l)])
  | OShape, [Mat w l] => Some (Vec [Z.of_nat (length l); Z.of_nat w])
  | OShape, [Data w l] => Some (Vec [Z.of_nat (length l); Z.of_nat w])
  | OSlice a b 0, [Vec l] => Some (Vec (slice l a b))
  | OSlice a b 1, [Mat w l] => Some (Mat (length (slice (repeat tt w) a b)) (map (fun r => slice r a b) l))
  | OSqueeze 0, [Vec [z]] => Some (Sc z)
  | OSqueeze 1, [Mat 1 l] => option_map Vec (column l 0)
  | OSqueeze 0, [BMat w [r]] => Some (Bools r)
  | OUnsqueeze 0, [Sc z] => Some (Vec [z])
  | OUnsqueeze 1, [Vec l] => Some (Mat 1 (map (fun z => [z]) l))
  | OUnsqueeze 2, [Mat w l] => Some (Cube w 1 (map (map (fun z => [z])) l))
  | ORange, [Sc a; Sc b; Sc 1%Z] => Some (Vec (map (fun k => a + Z.of_nat k)%Z (seq 0 (Z.to_nat (b - a)))))
  | OExpand, [Mat 1 l; Vec [n; m]] => if Z.eqb (Z.of_nat (length l)) n && Z.leb 0 m then option_map (fun c => Mat (Z.to_nat m) (map (fun z => repeat z (Z.to_nat m)) c)) (column l 0) else None
  | OConcat 0, [Vec l; Vec m] => Some (Vec (l ++ m))
  | OConcat 0, [Data w l; Data w' m] => if Nat.eqb w w' then Some (Data w (l ++ m)) else None
  | OConcat 2, [Cube m k l; Cube m' k' l'] => if Nat.eqb m m' && Nat.eqb (length l) (length l') then Some (Cube m (k + k') (zip (zip (@app Z)) l l')) else None
  | OReshape, [Cube m k l; Vec [(-1)%Z; z]] => if Z.eqb (Z.of_nat k) z && negb (Nat.eqb k 0) then Some (Mat k (concat l)) else None
  | OUnique u, [Vec l] => Some (Vec match u with UValues => distinct l | UCounts => map (fun z => Z.of_nat (count z l)) (distinct l) end)
  | OUnique u, [Mat _ l] => let l := concat l in Some (Vec match u with UValues => distinct l | UCounts => map (fun z => Z.of_nat (count z l)) (distinct l) end)
  | OUnique u, [Sc z] => Some (Vec [match u with UValues => z | UCounts => 1%Z end])
  | OUniqueRows UValues, [Mat w l] => Some (Mat w (distinct_rows l))
  | OUniqueRows UCounts, [Mat w l] => Some (Vec (map (fun r => Z.of_nat (count_rows r l)) (distinct_rows l)))
  | OGreater, [Vec l; Sc z] => Some (Bools (map (fun x => Z.ltb z x) l))
  | OLess, [Vec l; Sc z] => Some (Bools (map (fun x => Z.ltb x z) l))
  | OAnd, [Bools l; Bools m] => if Nat.eqb (length l) (length m) then Some (Bools (zip andb l m)) else None
  | OEqual, [Vec l; Mat w m] => option_map (BMat (length l)) (all_of (row_against Z.eqb l) m)
  | OCastInt, [BMat w l] => Some (Mat w (map (map (fun b : bool => if b then 1 else 0)%Z) l))
  | OCastBool, [Mat w l] => Some (BMat w (map (map (fun z => negb (Z.eqb z 0))) l))
  | OSplit n i, [Mat w l] => if Nat.eqb (length l mod n) 0 && Nat.ltb i n && negb (Nat.eqb n 0) then let k := length l / n in Some (Mat w (firstn k (skipn (i * k) l))) else None
  | OCompress, [Vec l; Bools c] => if padded_false c (length l) then Some (Vec (compress l c)) else None
  | OCompress, [Mat w l; Bools c] => if padded_false c (length l) then Some (Mat w (compress l c)) else None
  | OCompress, [Data w l; Bools c] => if padded_false c (length l) then Some (Data w (compress l c)) else None
  | OConstantOfShape z, [Vec [n]] => if Z.leb 0 n then Some (Vec (repeat z (Z.to_nat n))) else None
  | OConstantOfShape z, [Vec [n; m]] => if Z.leb 0 n && Z.leb 0 m then Some (Mat (Z.to_nat m) (repeat (repeat z (Z.to_nat m)) (Z.to_nat n))) else None
  | OZeros, [Vec [n; w]] => if Z.leb 0 n && Z.leb 0 w then Some (Data (Z.to_nat w) (repeat (repeat nought (Z.to_nat w)) (Z.to_nat n))) else None
  | OScatterND, [Mat w d; Mat 2 ix; Vec u] =>
      match all_of (at_pair (length d) w) ix with
      | Some ks => if Nat.eqb (length ix) (length u) && no_dups pair_eqb ks
                   then option_map (Mat w) (all_of (fun i => all_of (fun j => match look pair_eqb (i, j) (combine ks u) with Some x => Some x | None => match nth_error d i with Some r => nth_error r j | None => None end end) (seq 0 w)) (seq 0 (length d))) else None
      | None => None
      end
  | OScatterElements, [Vec d; Vec ix; Vec u] => if Nat.eqb (length ix) (length u) then option_map Vec (scatter_column d ix u) else None
  | OScatterElements, [Data w d; Mat w' ix; Data w'' u] => if Nat.eqb w w' && Nat.eqb w w'' && Nat.eqb (length ix) (length u) then option_map (Data w) (scatter_rows w d ix u) else None
  | _, _ => None
  end.
Fixpoint pvalue (env : string -> option (pval A)) (e : pexpr) : option (pval A) :=
  match e with
  | PIn s => env s
  | PE o l => match (fix values (l : list pexpr) := match l with [] => Some [] | e :: l' => match pvalue env e, values l' with Some v, Some r => Some (v :: r) | _, _ => None end end) l with
              | Some args => pop_value o args | None => None
              end
  end.
End Cells.
