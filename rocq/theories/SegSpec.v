(** tf.math.segment_*, tf.math.unsorted_segment_* and tf.sparse.segment_*, and the ONNX operators that their converter
    uses, from their documentation.  Data are lists of rows (A: what is behind the first axis); ids are vectors. *)
From Coq Require Import List Arith ZArith Bool String Permutation.
From Verif Require Import OnnxSpec.
Import ListNotations.
Local Open Scope list_scope.
Local Notation length := List.length.

(** ** TensorFlow *)
Inductive reduction := Sum | Prod | Max | Min | Mean | SqrtN.
(** sorted ids; sorted ids with data gathered by indices; ids in any order, negative ones ignored *)
Inductive form := Sorted | Sparse | Unsorted.
Record kind := Kind { k_form : form; k_red : reduction; k_num : bool (** num_segments is an input *) }.
Definition kinds : list (string * kind) :=
  [("SegmentSum", Kind Sorted Sum false); ("SegmentProd", Kind Sorted Prod false); ("SegmentMax", Kind Sorted Max false);
   ("SegmentMin", Kind Sorted Min false); ("SegmentMean", Kind Sorted Mean false);
   ("SparseSegmentSum", Kind Sparse Sum false); ("SparseSegmentMean", Kind Sparse Mean false); ("SparseSegmentSqrtN", Kind Sparse SqrtN false);
   ("SparseSegmentSumWithNumSegments", Kind Sparse Sum true); ("SparseSegmentMeanWithNumSegments", Kind Sparse Mean true);
   ("SparseSegmentSqrtNWithNumSegments", Kind Sparse SqrtN true);
   ("UnsortedSegmentSum", Kind Unsorted Sum true); ("UnsortedSegmentProd", Kind Unsorted Prod true);
   ("UnsortedSegmentMax", Kind Unsorted Max true); ("UnsortedSegmentMin", Kind Unsorted Min true)]%string.
(** the rows of one segment *)
Definition segment {A} (ids : list Z) (rows : list A) (i : nat) : list A :=
  map snd (filter (fun p => Z.eqb (fst p) (Z.of_nat i)) (combine ids rows)).
(** inputs: data, indices (used by the sparse form), ids, num_segments (used if k_num) *)
Record inputs (A : Type) := Inputs { i_data : list A; i_indices : list Z; i_ids : list Z; i_num : Z }.
Arguments Inputs {A}. Arguments i_data {A}. Arguments i_indices {A}. Arguments i_ids {A}. Arguments i_num {A}.
Fixpoint gathered {A} (l : list A) (ix : list Z) : option (list A) :=
  match ix with
  | [] => Some []
  | i :: ix' => match (if Z.leb 0 i then nth_error l (Z.to_nat i) else None), gathered l ix' with Some a, Some r => Some (a :: r) | _, _ => None end
  end.
Definition the_rows {A} (f : form) (i : inputs A) : option (list A) := match f with Sparse => gathered (i_data i) (i_indices i) | _ => Some (i_data i) end.
Definition tf_count (k : kind) {A} (i : inputs A) : Z := if k_num k then i_num i else match i_ids i with [] => 0 | _ => (last (i_ids i) 0 + 1)%Z end.
(** [T]: what a segment is reduced to; [default]: the row of a segment without rows *)
Definition tf_segment {A} (T : reduction -> list A -> A -> Prop) (default : form -> reduction -> A) (k : kind) (i : inputs A) (out : list A) : Prop :=
  exists rows, the_rows (k_form k) i = Some rows /\ length (i_ids i) = length rows /\
    (k_form k <> Unsorted -> (forall p q a b, nth_error (i_ids i) p = Some a -> nth_error (i_ids i) q = Some b -> p <= q -> (a <= b)%Z) /\ Forall (fun z => (0 <= z)%Z) (i_ids i)) /\
    (0 <= tf_count k i)%Z /\ Forall (fun z => (z < tf_count k i)%Z) (i_ids i) /\ length out = Z.to_nat (tf_count k i) /\
    forall j v, nth_error out j = Some v -> match segment (i_ids i) rows j with [] => v = default (k_form k) (k_red k) | l => T (k_red k) l v end.

(** ** ONNX, on int64 scalars, vectors and matrices, and on rows *)
Inductive identity := IZero | IOne | INegInf | IPosInf.
Inductive sval (A F : Type) := Sc (z : Z) | Vec (l : list Z) | Mat (l : list (list Z)) | Rows (l : list A) | Grid (l : list (list A)) | Amount (l : list F).
Arguments Sc {A F}. Arguments Vec {A F}. Arguments Mat {A F}. Arguments Rows {A F}. Arguments Grid {A F}. Arguments Amount {A F}.
(** Shape; Squeeze and Unsqueeze; ReduceMax of a vector; TopK with largest = 0, sorted = 1; Unique with sorted = 1 (values,
    inverse indices, counts); ConstantOfShape, ScatterElements, ScatterND, Range, Gather (axis 0), Mod, Concat; a row of an
    identity value in the shape of the rows (Shape, Slice, ConstantOfShape, Unsqueeze); Cast of counts to the type of the
    data; Sqrt; Max with the float32 constant 1 *)
Inductive sop := OConst (z : Z) | OConstVec (l : list Z) | OShape | OSqueeze0 | OUnsqueeze0 | OUnsqueezeLast | OReduceMax (keep : bool) | OAdd | OTopKSmallest
  | OUnique | OConstantOfShape (z : Z) | OScatterElements | OScatterND | ORange | OGather | OMod | OConcat0 | OConcat1 | OIdentityRow (i : identity)
  | OCastAmount | OSqrt | OMaxOne.
Record snode := SNode { s_op : sop; s_in : list string; s_out : list string }.

Fixpoint insert (p : Z * nat) (l : list (Z * nat)) : list (Z * nat) :=
  match l with [] => [p] | q :: l' => if Z.ltb (fst p) (fst q) || (Z.eqb (fst p) (fst q) && Nat.leb (snd p) (snd q)) then p :: l else q :: insert p l' end.
(** the values in ascending order with their indices, of equal values the lower index first *)
Definition ascending (l : list Z) : list (Z * nat) := fold_right insert [] (combine l (seq 0 (length l))).
Fixpoint insert_new (z : Z) (l : list Z) : list Z :=
  match l with [] => [z] | q :: l' => if Z.eqb z q then l else if Z.ltb z q then z :: l else q :: insert_new z l' end.
Definition distinct (l : list Z) : list Z := fold_right insert_new [] l.
Fixpoint position (z : Z) (l : list Z) : nat := match l with [] => 0 | q :: l' => if Z.eqb z q then 0 else S (position z l') end.
Definition count (z : Z) (l : list Z) : nat := count_occ Z.eq_dec l z.
Fixpoint all_of {B C} (f : B -> option C) (l : list B) : option (list C) :=
  match l with [] => Some [] | b :: l' => match f b, all_of f l' with Some c, Some r => Some (c :: r) | _, _ => None end end.
(** an index: negative indices count from the end *)
Definition take {B} (l : list B) (z : Z) : option B := match norm_axis (length l) z with Some k => nth_error l k | None => None end.
Fixpoint look {K B} (eqb : K -> K -> bool) (k : K) (l : list (K * B)) : option B := match l with [] => None | (k', b) :: l' => if eqb k k' then Some b else look eqb k l' end.
Fixpoint no_dups {K} (eqb : K -> K -> bool) (l : list K) : bool := match l with [] => true | k :: l' => negb (existsb (eqb k) l') && no_dups eqb l' end.
Definition pair_eqb (p q : nat * nat) : bool := Nat.eqb (fst p) (fst q) && Nat.eqb (snd p) (snd q).
Definition at_pair (n m : nat) (ix : list Z) : option (nat * nat) :=
  match ix with [i; j] => match norm_axis n i, norm_axis m j with Some a, Some b => Some (a, b) | _, _ => None end | _ => None end.
Definition width {B} (l : list (list B)) : nat := match l with [] => 0 | r :: _ => length r end.
Definition from_option {B} (d : B) (o : option B) : B := match o with Some b => b | None => d end.
Definition zip {B C D} (f : B -> C -> D) (l : list B) (m : list C) : list D := map (fun p => f (fst p) (snd p)) (combine l m).

Section Operators.
Variables (A F : Type) (row_of : identity -> A) (amount_of : Z -> F) (sqrt_of max_one : F -> F) (is_float32 : bool).
Definition op_result (o : sop) (args : list (sval A F)) : option (list (sval A F)) :=
  match o, args with
  | OConst z, [] => Some [Sc z]
  | OConstVec l, [] => Some [Vec l]
  | OShape, [Vec l] => Some [Vec [Z.of_nat (length l)]]
  | OSqueeze0, [Vec [z]] => Some [Sc z]
  | OUnsqueeze0, [Sc z] => Some [Vec [z]]
  | OUnsqueezeLast, [Vec l] => Some [Mat (map (fun z => [z]) l)]
  | OReduceMax keep, [Vec (z :: l)] => let m := fold_right Z.max z l in Some [if keep then Vec [m] else Sc m]
  | OAdd, [Sc a; Sc b] => Some [Sc (a + b)]
  | OTopKSmallest, [Vec l; Vec [k]] =>
      if Z.leb 0 k && Z.leb k (Z.of_nat (length l)) then let s := firstn (Z.to_nat k) (ascending l) in Some [Vec (map fst s); Vec (map (fun p => Z.of_nat (snd p)) s)] else None
  | OUnique, [Vec l] => let u := distinct l in Some [Vec u; Vec (map (fun z => Z.of_nat (position z u)) l); Vec (map (fun z => Z.of_nat (count z l)) u)]
  | OConstantOfShape z, [Vec [n]] => if Z.leb 0 n then Some [Vec (repeat z (Z.to_nat n))] else None
  | OConstantOfShape z, [Vec [n; m]] => if Z.leb 0 n && Z.leb 0 m then Some [Mat (repeat (repeat z (Z.to_nat m)) (Z.to_nat n))] else None
  | OScatterElements, [Vec d; Vec ix; Vec u] =>
      match all_of (norm_axis (length d)) ix with
      | Some ks => if Nat.eqb (length ix) (length u) && no_dups Nat.eqb ks
                   then Some [Vec (map (fun k => from_option (nth k d 0%Z) (look Nat.eqb k (combine ks u))) (seq 0 (length d)))] else None
      | None => None
      end
  | OScatterND, [Mat d; Mat ix; Vec u] =>
      match all_of (at_pair (length d) (width d)) ix with
      | Some ks => if Nat.eqb (length ix) (length u) && no_dups pair_eqb ks
                   then Some [Mat (map (fun i => map (fun j => from_option (nth j (nth i d []) 0%Z) (look pair_eqb (i, j) (combine ks u))) (seq 0 (width d))) (seq 0 (length d)))] else None
      | None => None
      end
  | ORange, [Sc a; Sc b; Sc d] => if Z.eqb d 1 then Some [Vec (map (fun i => (a + Z.of_nat i)%Z) (seq 0 (Z.to_nat (b - a))))] else None
  | OGather, [Vec l; Vec ix] => option_map (fun r => [Vec r]) (all_of (take l) ix)
  | OGather, [Rows l; Vec ix] => option_map (fun r => [Rows r]) (all_of (take l) ix)
  | OGather, [Rows l; Mat ix] => option_map (fun r => [Grid r]) (all_of (all_of (take l)) ix)
  | OMod, [Vec l; Vec m] => if Nat.eqb (length l) (length m) && forallb (fun z => negb (Z.eqb z 0)) m then Some [Vec (zip Z.modulo l m)] else None
  | OConcat0, [Vec l; Vec m] => Some [Vec (l ++ m)]
  | OConcat0, [Rows l; Rows m] => Some [Rows (l ++ m)]
  | OConcat1, [Mat l; Mat m] => if Nat.eqb (length l) (length m) then Some [Mat (zip (@app Z) l m)] else None
  | OIdentityRow i, [Rows _] => Some [Rows [row_of i]]
  | OCastAmount, [Vec l] => Some [Amount (map amount_of l)]
  | OSqrt, [Amount l] => Some [Amount (map sqrt_of l)]
  | OMaxOne, [Amount l] => if is_float32 then Some [Amount (map max_one l)] else None
  | _, _ => None
  end.
Definition env := list (string * sval A F).
Definition find_in (e : env) (s : string) : option (sval A F) := look String.eqb s e.
Fixpoint exec (l : list snode) (e : env) : option env :=
  match l with
  | [] => Some e
  | n :: l' => match all_of (find_in e) (s_in n) with
               | Some args => match op_result (s_op n) args with
                              | Some outs => if Nat.eqb (length outs) (length (s_out n)) then exec l' (combine (s_out n) outs ++ e) else None
                              | None => None
                              end
               | None => None
               end
  end.
End Operators.
Arguments op_result {A F}. Arguments find_in {A F}. Arguments exec {A F}.
