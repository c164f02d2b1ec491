(** Model of the handler of Cumprod, tf2onnx/onnx_opset/math.py:560-753.  Casts between integer types and Identity nodes are left out; the
    number one is that of the type of x. *)
From Coq Require Import List Arith ZArith Bool.
From Verif Require Import CumSpec.
Import ListNotations.
Local Open Scope list_scope.

(** get_pads_node, 716-753; [axis]: constant or not; np.zeros of a negative length raises a ValueError *)
Definition zeros (n : Z) : option (list Z) := if (n <? 0)%Z then None else Some (repeat 0%Z (Z.to_nat n)).
Definition pads_node (axis : option Z) (rank : nat) (pad0 pad1 : iexpr) : option iexpr :=
  match axis with
  | Some a =>
      match zeros a, zeros (Z.of_nat rank - a - 1) with
      | Some pre, Some post => Some (IConcat [IVec pre; pad0; IVec post; IVec pre; pad1; IVec post])
      | _, _ => None
      end
  | None =>
      let post_repeat := ISub (ISub (IVec [Z.of_nat rank]) IAxis) (IVec [1%Z]) in
      let pre := ITile (IVec [0%Z]) IAxis in
      let post := ITile (IVec [0%Z]) post_repeat in
      Some (IConcat [pre; pad0; post; pre; pad1; post])
  end.
Definition axis_vec (axis : option Z) : iexpr := match axis with Some a => IVec [a] | None => IAxis end.
(** make_loop_graph, 645-713: the new accumulator *)
Definition loop_body (axis : option Z) (rank : nat) (reverse : bool) : option texpr :=
  let add := IAdd IIter (IVec [1%Z]) in
  let zero := IVec [0%Z] in
  let '(pad0, pad1, st, en) := if reverse then (zero, add, add, ICarried) else (add, zero, zero, INeg add) in
  option_map (fun pads => TMul TAcc (TPad (TSlice TInputs st en (axis_vec axis)) pads)) (pads_node axis rank pad0 pad1).
(** CumProd.version_10, 563-642; [rank]: recorded rank of x, a TypeError if unknown *)
Definition cumprod (axis : option Z) (rank : option nat) (exclusive reverse : bool) : option texpr :=
  match rank with
  | None => None
  | Some rank =>
      let one := IVec [1%Z] in
      let plus_one := IAdd ILen one in
      let num_iter := ISub ILen one in
      match loop_body axis rank reverse with
      | None => None
      | Some body =>
          if exclusive then
            let num_iter := ISub num_iter one in
            let '(pad0, pad1, st, en) := if reverse then (0%Z, 1%Z, one, plus_one) else (1%Z, 0%Z, IVec [0%Z], IVec [(-1)%Z]) in
            match pads_node axis rank (IVec [pad0]) (IVec [pad1]) with
            | None => None
            | Some pads => Some (TPad (TLoop num_iter plus_one (TSlice TX st en (axis_vec axis)) body) pads)
            end
          else Some (TLoop num_iter plus_one TX body)
      end
  end.
