(** Model of tf2onnx/onnx_opset/tensor.py:825-1186 (StridedSlice): the parameters of the Unsqueeze, Slice and Squeeze
    nodes it makes.  begin, end and strides are given by their values; [const_*] says whether they are constants in the
    graph (then numpy computes with them) or only known at run time (then the graph does). *)
From Coq Require Import List Arith ZArith Bool.
From Verif Require Import StridedSpec.
Import ListNotations.
Local Open Scope list_scope.

Record slices := Slices { s_unsqueeze : list Z; s_slice : list (Z * (Z * Z * Z)); s_squeeze : list Z }.
Definition add_param (p : Z * (Z * Z * Z)) (r : slices) : slices := Slices (s_unsqueeze r) (p :: s_slice r) (s_squeeze r).
Definition add_squeeze (a : Z) (r : slices) : slices := Slices (s_unsqueeze r) (s_slice r) (a :: s_squeeze r).

(** the loop at tensor.py:860-899.  [gap] is ellipsis_gap, [rank] is len(input_shape), [len] is len(begin).  The steps of
    the Slice are 1: before opset 10 the operator has none, later they are left out. *)
Fixpoint v1_loop (m : masks) (max_size : Z) (rank len idx : nat) (gap : Z) (begins ends : list Z) : slices :=
  match begins, ends with
  | begin_item :: begins', end_item :: ends' =>
    if bit (ellipsis_mask m) idx
    then v1_loop m max_size rank len (S idx) (Z.of_nat rank - Z.of_nat len) begins' ends'
    else
      let axis := (Z.of_nat idx + gap)%Z in
      let end_item := if (begin_item <? 0)%Z && (end_item =? 0)%Z then max_size else end_item in
      let r := v1_loop m max_size rank len (S idx) gap begins' ends' in
      if bit (shrink_axis_mask m) idx
      then let end_item := if (begin_item =? -1)%Z then max_size else (begin_item + 1)%Z in
           add_squeeze axis (add_param (axis, (begin_item, end_item, 1%Z)) r)
      else
        let new_begin := if bit (begin_mask m) idx then 0%Z else begin_item in
        let new_end := if bit (end_mask m) idx then max_size else end_item in
        add_param (axis, (new_begin, new_end, 1%Z)) r
  | _, _ => Slices [] [] []
  end.
(** version_1, tensor.py:827-924; [None] is the ValueError of lines 833 and 862.  The Casts of opset 8 and below
    (lines 926-948) are not modelled. *)
Definition version_1 (m : masks) (max_size : Z) (rank : nat) (begins ends strides : list Z) : option slices :=
  if negb (new_axis_mask m =? 0)%Z then None
  else if forallb (fun s => (s =? 1)%Z) strides then Some (v1_loop m max_size rank (length begins) 0 0%Z begins ends)
  else None.

(** tensor.py:973-974 *)
Definition max_size := 1000000000%Z.
Definition min_size := (-1000000000)%Z.

(** Cast to float32: rounds to 24 significant bits, ties to even *)
Definition to_float32 (z : Z) : Z :=
  let a := Z.abs z in
  let p := (2 ^ Z.max 0 (Z.log2 a - 23))%Z in
  let q := (a / p)%Z in
  let r := (a mod p)%Z in
  let up := (p <? 2 * r)%Z || ((2 * r =? p)%Z && Z.odd q) in
  (Z.sgn z * (p * (q + if up then 1 else 0)))%Z.
(** np.maximum, or the Max node of math.py:82-115, which converts its integer inputs to float32 and the result back.
    (The result of a conversion that does not fit the integer type is not modelled.) *)
Definition maximum (const : bool) (a b : Z) : Z := if const then Z.max a b else Z.max (to_float32 a) (to_float32 b).

(** the axes of the Unsqueeze, tensor.py:995-1031.  The code looks at 32 bits of the masks. *)
Fixpoint unsqueeze_plain (m : masks) (n idx : nat) : list Z :=
  match n with
  | O => []
  | S n' => (if bit (new_axis_mask m) idx then [Z.of_nat idx] else []) ++ unsqueeze_plain m n' (S idx)
  end.
Definition count_new (m : masks) : nat :=
  length (filter (fun i => negb (bit (ellipsis_mask m) i) && bit (new_axis_mask m) i) (seq 0 32)).
Fixpoint unsqueeze_ellipsis (m : masks) (covered : Z) (n idx : nat) (gap : Z) : list Z :=
  match n with
  | O => []
  | S n' =>
    if bit (ellipsis_mask m) idx then unsqueeze_ellipsis m covered n' (S idx) covered
    else (if bit (new_axis_mask m) idx then [if (gap =? 0)%Z then Z.of_nat idx else (Z.of_nat idx + gap - 1)%Z] else [])
         ++ unsqueeze_ellipsis m covered n' (S idx) gap
  end.
Definition unsqueeze_at (m : masks) (rank len : nat) : list Z :=
  if (new_axis_mask m =? 0)%Z then []
  else if (ellipsis_mask m =? 0)%Z then unsqueeze_plain m 32 0
  else unsqueeze_ellipsis m (Z.of_nat rank - Z.of_nat len + Z.of_nat (count_new m) + 1) 32 0 0%Z.

(** what the loop at tensor.py:1043-1077 records for entry idx: the axis, and whether begin, end and the stride are
    replaced.  begin_mask and end_mask were extended by the new axes (lines 1013-1014, 1035-1036). *)
Record entry := Entry { e_axis : Z; e_begin_masked : bool; e_end_masked : bool; e_stride_masked : bool; e_squeeze : bool }.
Fixpoint entries (m : masks) (rank len n idx : nat) (gap : Z) : list entry :=
  match n with
  | O => []
  | S n' =>
    if bit (ellipsis_mask m) idx
    then Entry (Z.of_nat idx) true true false false :: entries m rank len n' (S idx) (Z.of_nat rank - Z.of_nat len)
    else
      let axis := (Z.of_nat idx + gap)%Z in
      (if bit (shrink_axis_mask m) idx then Entry axis false true true true
       else Entry axis (bit (begin_mask m) idx || bit (new_axis_mask m) idx)
                       (bit (end_mask m) idx || bit (new_axis_mask m) idx) false false)
      :: entries m rank len n' (S idx) gap
  end.

(** tensor.py:1083-1103: both ways of masking begin compute the same *)
Definition masked_begin (e : entry) (b s : Z) : Z := if e_begin_masked e && (s <? 0)%Z then max_size else b.
(** tensor.py:1105-1130; [any] says that some end is masked *)
Definition masked_end (const any : bool) (e : entry) (v s : Z) : Z :=
  if any then
    let w := maximum const v (if e_end_masked e then max_size else min_size) in
    if (w =? max_size)%Z then (if const then (w * Z.sgn s)%Z else if (s <? 0)%Z then min_size else w) else w
  else v.
(** tensor.py:1132-1153 *)
Definition masked_stride (const any : bool) (e : entry) (s : Z) : Z :=
  if any then maximum const s (if e_stride_masked e then max_size else min_size) else s.

(** tensor.py:951-1178 without the dispatch to version_1; rank is the rank of the input *)
Definition slice_10 (m : masks) (const_end const_strides : bool) (rank : nat) (begins ends strides : list Z) : slices :=
  let len := length begins in
  let un := unsqueeze_at m rank len in
  let es := entries m (rank + length un) len len 0 0%Z in
  let any_end := existsb e_end_masked es in
  let any_stride := existsb e_stride_masked es in
  Slices un
    (map (fun p => match p with (e, (b, (v, s))) =>
            (e_axis e, (masked_begin e b s, masked_end (const_end && const_strides) any_end e v s, masked_stride const_strides any_stride e s)) end)
         (combine es (combine begins (combine ends strides))))
    (map e_axis (filter e_squeeze es)).

(** any_version_after10, tensor.py:951-972.  [max_int] is the largest value of the index type. *)
Definition any_version_after10 (m : masks) (const_begin const_end const_strides : bool) (max_int : Z) (rank : nat) (begins ends strides : list Z) : option slices :=
  if const_begin && const_end && const_strides && forallb (fun s => (s =? 1)%Z) strides && (new_axis_mask m =? 0)%Z
  then version_1 m max_int rank begins ends strides
  else Some (slice_10 m const_end const_strides rank begins ends strides).
