(** Sparse tensors: TensorFlow's sparse_reshape, sparse_fill_empty_rows, sparse_to_dense and the last step of RaggedTensor.to_tensor,
    and the ONNX operators that their converters use, from their documentation.  Integers are mathematical; A: the type of the values. *)
From Coq Require Import String List Arith ZArith Bool Permutation.
From Verif Require Import OnnxSpec SegSpec RagSpec.
Import ListNotations.
Local Open Scope list_scope.
Local Notation length := List.length.

(** ** TensorFlow *)
Definition prod (l : list Z) : Z := fold_right Z.mul 1%Z l.
Definition in_bounds (dims ix : list Z) : Prop := Forall2 (fun d i => (0 <= i < d)%Z) dims ix.
(** the position in row-major order *)
Fixpoint row_major (dims ix : list Z) : Z := match dims, ix with d :: dims', i :: ix' => (i * prod dims' + row_major dims' ix')%Z | _, _ => 0%Z end.
(** every element keeps its position; one dimension of the new shape may be -1 *)
Record tf_reshape (dims new_shape out_dims : list Z) (ixs out : list (list Z)) : Prop := {
  r_dims : Forall (fun d => (0 <= d)%Z) dims /\ Forall (fun d => (0 <= d)%Z) out_dims;
  r_same : Forall2 (fun z d => z = d \/ z = (-1)%Z) new_shape out_dims;
  r_one : forall i j, nth_error new_shape i = Some (-1)%Z -> nth_error new_shape j = Some (-1)%Z -> i = j;
  r_known : In (-1)%Z new_shape -> ~ In 0%Z new_shape;
  r_prod : prod out_dims = prod dims;
  r_moved : Forall2 (fun ix ix' => in_bounds dims ix /\ in_bounds out_dims ix' /\ row_major dims ix = row_major out_dims ix') ixs out }.
(** entries: index tuples with values *)
Definition filled {A} (r : nat) (default : A) (rows : list nat) : list (list Z * A) := map (fun k => (Z.of_nat k :: repeat 0%Z (r - 1), default)) rows.
Definition row_is {A} (k : nat) (e : list Z * A) : Prop := nth_error (fst e) 0 = Some (Z.of_nat k).
(** n: the first dimension; r: the rank; indicator: which rows are empty; the entries are ordered by rows *)
Record tf_fill_empty_rows {A} (n r : nat) (default : A) (entries out : list (list Z * A)) (indicator : list bool) : Prop := {
  f_entries : Forall (fun e => length (fst e) = r /\ exists k, k < n /\ row_is k e) entries;
  f_indicator : length indicator = n /\ forall k, k < n -> (nth_error indicator k = Some true <-> Forall (fun e => ~ row_is k e) entries);
  f_entry : exists rows, NoDup rows /\ (forall k, In k rows <-> nth_error indicator k = Some true) /\ Permutation out (entries ++ filled r default rows);
  f_order : forall p q e e' k k', nth_error out p = Some e -> nth_error out q = Some e' -> row_is k e -> row_is k' e' -> p < q -> k <= k' }.
(** a dense tensor is given by its dims and its elements *)
Definition tf_to_dense {A} (default : A) (entries : list (list Z * A)) (dims : list Z) (f : list Z -> A) : Prop :=
  NoDup (map fst entries) /\ Forall (fun e => in_bounds dims (fst e)) entries /\
  forall ix, in_bounds dims ix -> (forall a, In (ix, a) entries -> f ix = a) /\ (~ In ix (map fst entries) -> f ix = default).
(** entries outside of the dims are left out *)
Definition tf_to_tensor {A} (default : A) (entries : list (list Z * A)) (dims : list Z) (f : list Z -> A) : Prop :=
  forall ix, in_bounds dims ix -> (forall a, In (ix, a) entries -> f ix = a) /\ (~ In ix (map fst entries) -> f ix = default).
(** VALUE_ROWIDS of rows with these lengths *)
Definition row_ids (lens : list nat) : list Z := concat (map (fun p => repeat (Z.of_nat (fst p)) (snd p)) (combine (seq 0 (length lens)) lens)).
(** the shape that is asked for: -1 leaves a dimension as it is *)
Definition wanted_dims (dense shape out : list Z) : Prop :=
  length dense = length shape /\ length out = length shape /\
  forall k d z o, nth_error dense k = Some d -> nth_error shape k = Some z -> nth_error out k = Some o -> (z = -1 /\ o = d)%Z \/ (0 <= z /\ o = z)%Z.

(** ** ONNX.  B0, S0, A0: rank 0; M2 w: a matrix with w columns; BM: of booleans; Dense: a dense tensor (its elements by index tuples).
    CExpand gives a vector, CExpandDense a dense tensor: the same operator Expand *)
Inductive spval (A : Type) := S0 (z : Z) | V1 (l : list Z) | M2 (w : nat) (l : list (list Z)) | B0 (b : bool) | B1 (l : list bool) | BM (w : nat) (l : list (list bool))
  | A0 (a : A) | D1 (l : list A) | Dense (dims : list Z) (f : list Z -> A).
Arguments S0 {A}. Arguments V1 {A}. Arguments M2 {A}. Arguments B0 {A}. Arguments B1 {A}. Arguments BM {A}. Arguments A0 {A}. Arguments D1 {A}. Arguments Dense {A}.
Inductive cop := CConst (z : Z) | CConstVec (l : list Z) | CConstBoolMat (w : nat) (l : list (list bool)) | CReduceProd | CReduceProdRows | CReduceMinRows | CDiv | CMod | CSub | CNeg | CLess | CGreater
  | CWhere | CConcat | CConcatTwice | CPadVec (before after : Z) | CPad | CMatMul | CUnsqueeze0 | CUnsqueeze1 | CSqueeze0 | CShape | CConstantOfShape (z : Z) | CConstantOfShapeBool (b : bool) | CEyeLike | CCumSum0 | CCastBool
  | CSlice (start stop : Z) | CSliceCols (start stop : Z) | CUnique | CScatterBools | CRange | CCompress | CExpand | CExpandDense | CScatterND.
Inductive cexpr := CIn (s : string) | C (o : cop) (l : list cexpr).
Definition dot (l m : list Z) : Z := fold_right Z.add 0%Z (zip Z.mul l m).
Definition div_exact (x y : Z) : option Z := if Z.eqb y 0 then None else Some (Z.quot x y).
Definition mod_exact (x y : Z) : option Z := if Z.eqb y 0 then None else Some (Z.modulo x y).
(** a column (rows of one element) against a vector, and a matrix against a vector *)
Definition column_with (f : Z -> Z -> option Z) (v : list Z) (r : list Z) : option (list Z) := match r with [x] => all_of (f x) v | _ => None end.
Definition row_with (f : Z -> Z -> option Z) (v : list Z) (r : list Z) : option (list Z) := if Nat.eqb (length r) (length v) then all_of (fun p => f (fst p) (snd p)) (combine r v) else None.
Definition min_list (l : list Z) : option Z := match l with [] => None | z :: l' => Some (fold_right Z.min z l') end.
Definition pick (b : bool) (x y : Z) : Z := if b then x else y.
Fixpoint cumulate (acc : list Z) (l : list (list Z)) : list (list Z) := match l with [] => [] | r :: l' => let s := zip Z.add acc r in s :: cumulate s l' end.
Definition eye (n m : nat) : list (list Z) := map (fun i => map (fun j => if Nat.eqb i j then 1%Z else 0%Z) (seq 0 m)) (seq 0 n).
Definition bounded (dims ix : list Z) : bool := Nat.eqb (length dims) (length ix) && forallb (fun p => Z.leb 0 (snd p) && Z.ltb (snd p) (fst p)) (combine dims ix).
Fixpoint ix_eqb (a b : list Z) : bool := match a, b with [], [] => true | x :: a', y :: b' => Z.eqb x y && ix_eqb a' b' | _, _ => false end.
Definition cop_value {A} (o : cop) (args : list (spval A)) : option (spval A) :=
  match o, args with
  | CConst z, [] => Some (S0 z)
  | CConstVec l, [] => Some (V1 l)
  | CConstBoolMat w l, [] => Some (BM w l)
  | CReduceProd, [V1 l] => Some (V1 [prod l])
  | CReduceProdRows, [M2 w l] => Some (V1 (map prod l))
  | CReduceMinRows, [M2 w l] => option_map V1 (all_of min_list l)
  | CDiv, [V1 l; V1 m] => option_map V1 (broadcast div_exact l m)
  | CDiv, [M2 w l; V1 v] => if Nat.eqb w (length v) then option_map (M2 w) (all_of (row_with div_exact v) l) else None
  | CMod, [M2 w l; V1 v] => if Nat.eqb w 1 then option_map (M2 (length v)) (all_of (column_with mod_exact v) l) else None
  | CSub, [V1 l; S0 y] => Some (V1 (map (fun x => x - y)%Z l))
  | CSub, [M2 w [u]; M2 w' l] => if Nat.eqb w w' then option_map (M2 w) (all_of (row_with (fun x y => Some (y - x)%Z) u) l) else None
  | CNeg, [V1 l] => Some (V1 (map Z.opp l))
  | CLess, [V1 l; S0 z] => Some (B1 (map (fun x => Z.ltb x z) l))
  | CLess, [S0 x; S0 z] => Some (B0 (Z.ltb x z))
  | CGreater, [V1 l; S0 z] => Some (B1 (map (fun x => Z.ltb z x) l))
  | CWhere, [B0 b; V1 l; S0 y] => Some (V1 (map (fun x => pick b x y) l))
  | CWhere, [B1 c; V1 [x]; V1 m] => if Nat.eqb (length c) (length m) then Some (V1 (zip (fun b y => pick b x y) c m)) else None
  | CWhere, [B1 c; V1 l; V1 m] => if Nat.eqb (length c) (length m) && Nat.eqb (length l) (length m) then Some (V1 (zip (fun b p => pick b (fst p) (snd p)) c (combine l m))) else None
  | CWhere, [BM w l; S0 x; V1 m] => if Nat.eqb w (length m) then Some (M2 w (map (fun r => zip (fun b y => pick b x y) r m) l)) else None
  | CConcat, [V1 l; V1 m] => Some (V1 (l ++ m))
  | CConcat, [M2 w l; M2 w' m] => if Nat.eqb w w' then Some (M2 w (l ++ m)) else None
  | CConcat, [D1 l; D1 m] => Some (D1 (l ++ m))
  | CConcatTwice, [V1 l] => Some (V1 (l ++ l))
  | CPadVec 0%Z (-1)%Z, [V1 l] => match l with [] => None | _ => Some (V1 (removelast l)) end
  | CPad, [M2 w l; V1 [0; 0; 0; k]%Z] => if Z.leb 0 k then Some (M2 (w + Z.to_nat k) (map (fun r => r ++ repeat 0%Z (Z.to_nat k)) l)) else None
  | CMatMul, [M2 w l; V1 v] => if Nat.eqb w (length v) then Some (V1 (map (fun r => dot r v) l)) else None
  | CUnsqueeze0, [V1 l] => Some (M2 (length l) [l])
  | CUnsqueeze1, [V1 l] => Some (M2 1 (map (fun z => [z]) l))
  | CSqueeze0, [V1 [z]] => Some (S0 z)
  | CShape, [V1 l] => Some (V1 [Z.of_nat (length l)])
  | CShape, [M2 w l] => Some (V1 [Z.of_nat (length l); Z.of_nat w])
  | CConstantOfShape z, [V1 [n; m]] => if Z.leb 0 n && Z.leb 0 m then Some (M2 (Z.to_nat m) (repeat (repeat z (Z.to_nat m)) (Z.to_nat n))) else None
  | CConstantOfShapeBool b, [V1 [n]] => if Z.leb 0 n then Some (B1 (repeat b (Z.to_nat n))) else None
  | CEyeLike, [M2 w l] => Some (M2 w (eye (length l) w))
  | CCumSum0, [M2 w l; S0 0%Z] => Some (M2 w (cumulate (repeat 0%Z w) l))
  | CCastBool, [M2 w l] => Some (BM w (map (map (fun z => negb (Z.eqb z 0))) l))
  | CSlice a b, [V1 l] => Some (V1 (slice l a b))
  | CSliceCols a b, [M2 w l] => Some (M2 (length (slice (repeat tt w) a b)) (map (fun r => slice r a b) l))
  | CUnique, [M2 w l] => Some (V1 (distinct (concat l)))
  | CScatterBools, [B1 d; V1 ix; B1 u] =>
      match all_of (norm_axis (length d)) ix with
      | Some ks => if Nat.eqb (length ix) (length u) && no_dups Nat.eqb ks
                   then Some (B1 (map (fun k => from_option (nth k d false) (look Nat.eqb k (combine ks u))) (seq 0 (length d)))) else None
      | None => None
      end
  | CRange, [S0 a; S0 b; S0 1%Z] => Some (V1 (map (fun k => a + Z.of_nat k)%Z (seq 0 (Z.to_nat (b - a)))))
  | CCompress, [V1 l; B1 c] => if Nat.leb (length c) (length l) then Some (V1 (compress l c)) else None
  | CCompress, [M2 w l; B1 c] => if Nat.leb (length c) (length l) then Some (M2 w (compress l c)) else None
  | CCompress, [D1 l; B1 c] => if Nat.leb (length c) (length l) then Some (D1 (compress l c)) else None
  | CExpand, [A0 a; V1 [n]] => if Z.leb 0 n then Some (D1 (repeat a (Z.to_nat n))) else None
  | CExpandDense, [A0 a; V1 dims] => if forallb (Z.leb 0) dims then Some (Dense dims (fun _ => a)) else None
  | CScatterND, [Dense dims f; M2 w ixs; D1 u] =>
      if Nat.eqb w (length dims) && Nat.eqb (length ixs) (length u) && forallb (bounded dims) ixs && no_dups ix_eqb ixs
      then Some (Dense dims (fun ix => from_option (f ix) (look ix_eqb ix (combine ixs u)))) else None
  | CScatterND, [Dense dims f; V1 ix; A0 u] => if Nat.eqb (length ix) (length dims) && bounded dims ix then Some (Dense dims (fun ix' => if ix_eqb ix' ix then u else f ix')) else None
  | _, _ => None
  end.
Fixpoint cvalue {A} (env : string -> option (spval A)) (e : cexpr) : option (spval A) :=
  match e with
  | CIn s => env s
  | C o l => match (fix values (l : list cexpr) := match l with [] => Some [] | e :: l' => match cvalue env e, values l' with Some v, Some r => Some (v :: r) | _, _ => None end end) l with
             | Some args => cop_value o args | None => None
             end
  end.
