(** Model of the handlers Pack (tf2onnx/onnx_opset/tensor.py:1282-1322), Unpack (1325-1356), Split (712-738) and
    SplitV (741-784): the expression for every output of the node.  [None] = the handler raises.
    Simplifications: names, shapes of new tensors and dtypes are left out; the DAG is written as a tree (a Split node
    with n outputs is n expressions). *)
From Coq Require Import List Arith ZArith Bool.
From Verif Require Import Tensor FoldModel TOps SpaceModel.
Import ListNotations.
Local Open Scope list_scope.

Section Handlers.
Context {A : Type} (opset : nat).
Notation expr := (expr A).
(** 1286-1288: rank = rank of input 0, if its shape is known *)
Definition pack_axis (rank : option nat) (axis : Z) : option Z :=
  if (axis <? 0)%Z then match rank with Some r => Some (axis + (Z.of_nat r + 1))%Z | None => None end else Some axis.
(** 1290-1313; n inputs *)
Definition pack (rank : option nat) (axis : Z) (n : nat) : option expr :=
  match pack_axis rank axis with
  | Some axis => Some (Op (Concat axis) (map (fun i => make_unsqueeze opset [axis] (Inp i)) (seq 0 n)))
  | None => None
  end.
(** 1330-1348: output k of num *)
Definition unpack (rank : option nat) (axis : Z) (num k : nat) : option expr :=
  match (if (axis <? 0)%Z then match rank with Some r => Some (axis + Z.of_nat r)%Z | None => None end else Some axis) with
  | Some axis => Some (make_squeeze opset [axis] (Op (Split axis num k) [Inp 0]))
  | None => None
  end.
(** 714-721: output k of num_split; the axis is the value of input 0 *)
Definition split (axis : Z) (num_split k : nat) : expr := Op (Split axis num_split k) [Inp 0].

(** python list access, also with a negative index *)
Definition py_index (l : list Z) (i : Z) : option Z :=
  let j := if (i <? 0)%Z then (i + Z.of_nat (length l))%Z else i in
  if (j <? 0)%Z then None else nth_error l (Z.to_nat j).
(** 747-758: sizes with -1 replaced; shape = the shape of input 0 with -1 for unknown dimensions, if known *)
Definition split_sizes (shape : option (list Z)) (sizes : list Z) (axis : Z) : option (list Z) :=
  if existsb (Z.eqb (-1)) sizes then
    match shape with
    | Some sh =>
        match py_index sh axis with
        | Some final_sum =>
            let sums := fold_right Z.add 0%Z (filter (fun i => (0 <=? i)%Z) sizes) in
            Some (map (fun v => if Z.eqb v (-1) then (final_sum - sums)%Z else v) sizes)
        | None => None
        end
    | None => None
    end
  else Some sizes.
(** 745-784: output k; [sizes] = the value of input 1 if it is constant (before opset 13 it must be) *)
Definition split_v (shape : option (list Z)) (sizes : option (list Z)) (axis : Z) (k : nat) : option expr :=
  match sizes with
  | Some l =>
      match split_sizes shape l axis with
      | Some l' => Some (if Nat.ltb opset 13 then Op (SplitSizes axis (Some l') k) [Inp 0]
                         else Op (SplitSizes axis None k) [Inp 0; vec l'])
      | None => None
      end
  | None => if Nat.ltb opset 13 then None else Some (Op (SplitSizes axis None k) [Inp 0; Op Cast [Inp 1]])
  end.
End Handlers.
