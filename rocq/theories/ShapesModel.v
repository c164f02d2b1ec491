(** Model of the static-shape helpers: utils.py (merge_shapes & co) and the legacy inference rules
    of shape_inference.py. *)
From Coq Require Import List ZArith Bool.
Import ListNotations.
Local Open Scope Z_scope.

(** A static dimension: [None] is Python None (or a non-int such as a symbolic name), [Some z] an
    int.  A static shape is [None] (unknown rank) or a list of dimensions. *)
Definition dim := option Z.
Definition shape := option (list dim).

(** utils.py:446-450 [is_unknown_dimension]: not a positive integer. *)
Definition is_unknown_dimension (d : dim) : bool :=
  match d with None => true | Some z => z <=? 0 end.

(** loop of utils.py:468-475; [None] = make_sure failure (ValueError) on d1 <> d2. *)
Fixpoint merge_dims (s1 s2 : list dim) : option (list dim) :=
  match s1, s2 with
  | d1 :: r1, d2 :: r2 =>
      let d := if is_unknown_dimension d1 then Some d2
               else if negb (is_unknown_dimension d2) then
                 match d1, d2 with
                 | Some a, Some b => if a =? b then Some d1 else None
                 | _, _ => Some d1
                 end
               else Some d1 in
      match d with
      | None => None
      | Some d => match merge_dims r1 r2 with
                  | None => None
                  | Some m => Some (d :: m)
                  end
      end
  | _, _ => Some []
  end.

(** utils.py:453-476 [merge_shapes]; the outer [option] is the exception, the inner one the
    unknown-rank shape. *)
Definition merge_shapes (s1 s2 : shape) : option shape :=
  match s1, s2 with
  | None, _ => Some s2
  | _, None => Some s1
  | Some l1, Some l2 =>
      if Nat.eqb (length l1) (length l2) then
        match merge_dims l1 l2 with
        | Some m => Some (Some m)
        | None => None
        end
      else None
  end.

(** utils.py:479-488 [are_shapes_compatible]. *)
Definition are_shapes_compatible (src dest : shape) : bool :=
  match merge_shapes src dest with Some _ => true | None => false end.

Definition dim_eqb (a b : dim) : bool :=
  match a, b with
  | None, None => true
  | Some x, Some y => x =? y
  | _, _ => false
  end.

(** utils.py:491-503 [are_shapes_equal]. *)
Fixpoint all_eq (a b : list dim) : bool :=
  match a, b with
  | x :: a', y :: b' => dim_eqb x y && all_eq a' b'
  | _, _ => true
  end.
Definition are_shapes_equal (src dest : shape) : bool :=
  match src, dest with
  | None, None => true
  | Some a, Some b => Nat.eqb (length a) (length b) && all_eq a b
  | _, _ => false
  end.

(** shape_inference.py:556-574, the while loop from the last index of the shorter shape down to 0;
    [None] is "return None".  [shape_1] is at least as long; index i is compared at the *same* index
    in both lists (the code comment says "compare from last dim").  Iterating from the back or the
    front is the same since every index is handled independently and the only early exit returns
    None. *)
Definition is_one (d : dim) := dim_eqb d (Some 1).
Definition is_minus_one (d : dim) := dim_eqb d (Some (-1)).
Fixpoint broadcast_loop (s0 s1 : list dim) : option (list dim) :=
  match s0, s1 with
  | d0 :: r0, d1 :: r1 =>
      let d := if dim_eqb d0 d1 then Some d1
               else if is_one d0 then Some d1
               else if is_one d1 then Some d0
               else if is_minus_one d0 then Some d1
               else if is_minus_one d1 then Some d0
               else None in
      match d, broadcast_loop r0 r1 with
      | Some d, Some r => Some (d :: r)
      | _, _ => None
      end
  | _, r1 => Some r1
  end.

(** shape_inference.py:538-575 [broadcast_shape_inference].  Simplification: the code also writes
    the result into the list object of the longer operand; not modelled. *)
Definition broadcast_shape_inference (s0 s1 : shape) : shape :=
  match s0, s1 with
  | None, _ => s1
  | _, None => s0
  | Some l0, Some l1 =>
      let (a, b) := if (length l1 <? length l0)%nat then (l1, l0) else (l0, l1) in
      if Nat.eqb (length a) 0 then Some b else broadcast_loop a b
  end.

(** shape_inference.py:239-248, the loop of [_merge_shapes_for_tf]. *)
Fixpoint merge_dims_tf (s1 s2 : list dim) : list dim :=
  match s1, s2 with
  | d1 :: r1, d2 :: r2 =>
      (match d1 with
       | None => d2
       | Some _ => match d2 with Some _ => None | None => d1 end
       end) :: merge_dims_tf r1 r2
  | _, _ => []
  end.
(** shape_inference.py:225-248 [_merge_shapes_for_tf]. *)
Definition merge_shapes_for_tf (s1 s2 : shape) : option shape :=
  match s1, s2 with
  | None, _ => Some s2
  | _, None => Some s1
  | Some l1, Some l2 =>
      if Nat.eqb (length l1) (length l2) then Some (Some (merge_dims_tf l1 l2)) else None
  end.
(** shape_inference.py:123-140: output shape of a Merge op whose inputs both have known shapes
    ([None] = returns False, no shape set). *)
Definition infer_merge_op (l1 l2 : list dim) : option (list dim) :=
  if Nat.eqb (length l1) (length l2) && all_eq l1 l2 then Some l1
  else if Nat.eqb (length l1) (length l2) then Some (merge_dims_tf l1 l2)
  else None.

(** Python's index normalisation [axis + len(shape) if axis < 0]. *)
Definition norm_axis (rank : nat) (axis : Z) : Z := if axis <? 0 then axis + Z.of_nat rank else axis.

(** shape_inference.py:358-381: All/Any/Max/Min with constant axes. *)
Fixpoint infer_reduce_from (i : Z) (axes : list Z) (keep : bool) (s : list dim) : list dim :=
  match s with
  | [] => []
  | d :: r =>
      if existsb (Z.eqb i) axes
      then (if keep then Some 1 :: infer_reduce_from (i + 1) axes keep r
            else infer_reduce_from (i + 1) axes keep r)
      else d :: infer_reduce_from (i + 1) axes keep r
  end.
Definition infer_reduce (axes : list Z) (keep : bool) (s : list dim) : list dim :=
  infer_reduce_from 0 (map (norm_axis (length s)) axes) keep s.

(** Python slices [l[:k]] and [l[k:]] for an integer k (negative k counts from the end). *)
Definition slice_to {A} (l : list A) (k : Z) : list A :=
  if k <? 0 then firstn (Z.to_nat (Z.of_nat (length l) + k)) l else firstn (Z.to_nat k) l.
Definition slice_from {A} (l : list A) (k : Z) : list A :=
  if k <? 0 then skipn (Z.to_nat (Z.of_nat (length l) + k)) l else skipn (Z.to_nat k) l.

(** shape_inference.py:383-397 ExpandDims. *)
Definition infer_expand_dims (d : Z) (s : list dim) : list dim :=
  let d := if d <? 0 then d + Z.of_nat (length s) + 1 else d in
  slice_to s d ++ [Some 1] ++ slice_from s d.

(** shape_inference.py:399-413 Unpack. *)
Definition infer_unpack (axis : Z) (s : list dim) : list dim :=
  let a := norm_axis (length s) axis in slice_to s a ++ slice_from s (a + 1).

(** shape_inference.py:484-504 Pack of [n] inputs whose first known shape is [s]. *)
Definition infer_pack (axis : Z) (n : nat) (s : list dim) : list dim :=
  let a := if axis <? 0 then axis + Z.of_nat (length s) else axis in
  slice_to s a ++ [Some (Z.of_nat n)] ++ slice_from s a.

(** shape_inference.py:506-515 Pow: shape of the first operand that is known. *)
Definition infer_pow (s0 s1 : shape) : shape := match s0 with None => s1 | _ => s0 end.
