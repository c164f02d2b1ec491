(** Model of the handlers Slice (tf2onnx/onnx_opset/tensor.py:316-369) and Gather / GatherV2 (435-496): the expression
    that replaces the node.  [None] = the handler raises.
    Simplifications: names, shapes of new tensors and dtypes are left out, except the width of the integers that are
    added at run time. *)
From Coq Require Import List Arith ZArith Bool.
From Verif Require Import Tensor FoldModel TOps SpaceModel.
Import ListNotations.
Local Open Scope list_scope.

Section Slice.
Context {A : Type} (opset : nat).
Notation expr := (expr A).
Definition int64_max : Z := (2 ^ 63 - 1)%Z.
(** 333-343: np.iinfo is applied to the ONNX type number, which is a python int: always the maximum of int64 *)
Definition slice_ends (starts sizes : list Z) : list Z :=
  map (fun '(start, size) => if Z.eqb size (-1) then int64_max else (start + size)%Z) (combine starts sizes).
(** 346-357: computed ends; bits = width of the integer type of begin and size *)
Definition dyn_slice_ends (bits : Z) (starts size : expr) : expr :=
  let int_max := vec [(2 ^ (bits - 1) - 1)%Z] in
  let flag := Op Cast [Op Equal [vec [(-1)%Z]; size]] in
  let size_processed := Op (AddBits bits) [size; Op (MulBits bits) [int_max; flag]] in
  Op (AddBits bits) [starts; size_processed].
(** 330-362 with graph_builder.py:26-82 without axes; consts = the values of begin and size if both are constant *)
Definition slice (bits : Z) (consts : option (list Z * list Z)) : option expr :=
  match consts with
  | Some (starts, sizes) =>
      let ends := slice_ends starts sizes in
      Some (if Nat.ltb opset 10 then Op (Slice (Some (starts, ends, None))) [Inp 0]
            else Op (Slice None) [Inp 0; vec starts; vec ends])
  | None =>
      if Nat.ltb opset 10 then None
      else Some (Op (Slice None) [Inp 0; Inp 1; dyn_slice_ends bits (Inp 1) (Inp 2)])
  end.
End Slice.

(** python l[a:b] *)
Definition py_bound (n : nat) (i : Z) : nat :=
  Z.to_nat (if (i <? 0)%Z then Z.max 0 (i + Z.of_nat n) else Z.min i (Z.of_nat n)).
Definition py_slice {X} (l : list X) (a b : option Z) : list X :=
  let lo := match a with Some a => py_bound (length l) a | None => 0 end in
  let hi := match b with Some b => py_bound (length l) b | None => length l end in
  firstn (hi - lo) (skipn lo l).

Section Gather.
Context {A : Type} (opset : nat).
Notation expr := (expr A).
(** 448-455 *)
Definition gather_1 (axis : Z) : expr := Op (Gather axis) [Inp 0; Inp 1].
(** 480-481 *)
Definition data_perm (rank : nat) (batch_dims axis : Z) : list nat :=
  let perm := seq 0 rank in
  py_slice perm None (Some batch_dims) ++ py_slice perm (Some axis) (Some (axis + 1)%Z)
  ++ py_slice perm (Some batch_dims) (Some axis) ++ py_slice perm (Some (axis + 1)%Z) None.
(** 476-477 and 484-486 *)
Definition result_unperm (data_rank indices_rank : nat) (batch_dims axis : Z) : list nat :=
  let result_rank := Z.to_nat (Z.of_nat data_rank + Z.of_nat indices_rank - 1 - batch_dims) in
  let shift_amt := (axis - batch_dims)%Z in
  let unperm := seq 0 result_rank in
  let j := (Z.of_nat indices_rank + shift_amt)%Z in
  py_slice unperm None (Some batch_dims) ++ py_slice unperm (Some (Z.of_nat indices_rank)) (Some j)
  ++ py_slice unperm (Some batch_dims) (Some (Z.of_nat indices_rank)) ++ py_slice unperm (Some j) None.
(** 463-493; axis = the value of input 2 if it is constant; the cast of the indices to int64 keeps their values *)
Definition gather_v2 (axis : option Z) (batch_dims : Z) (data_rank indices_rank : option nat) : option expr :=
  match axis with
  | None => None
  | Some axis =>
      if Z.eqb batch_dims 0 then Some (gather_1 axis)
      else if Nat.ltb opset 12 then None
      else
        let indices := make_unsqueeze opset [(-1)%Z] (Op Cast [Inp 1]) in
        if Z.eqb axis batch_dims then Some (Op (GatherND batch_dims) [Inp 0; indices])
        else match data_rank, indices_rank with
             | Some dr, Some ir =>
                 Some (Op (Transpose (Some (result_unperm dr ir batch_dims axis)))
                          [Op (GatherND batch_dims) [Op (Transpose (Some (data_perm dr batch_dims axis))) [Inp 0]; indices]])
             | _, _ => None
             end
  end.
End Gather.
