(** Model of the handler OneHot (tf2onnx/onnx_opset/tensor.py:1357-1485) for the default target: the expression that
    replaces the node.  Inputs of the environment: 0 the indices, 1 the depth, 2 the value on, 3 the value off.
    [None] = the handler raises.
    Simplifications: names and the shapes of new tensors are left out; the target RS6 is left out. *)
From Coq Require Import List Arith ZArith Bool.
From Verif Require Import Tensor FoldModel TOps SpaceModel.
Import ListNotations.
Local Open Scope list_scope.

Section Handler.
(** zero, one, eqb: 0, 1 and == of the element type *)
Context {A : Type} (zero one : A) (eqb : A -> A -> bool) (opset : nat).
Notation expr := (expr A).
(** np.eye(n), row by row *)
Definition eye (n : nat) : list A := flat_map (fun i => map (fun j => if Nat.eqb i j then one else zero) (seq 0 n)) (seq 0 n).
(** 1374-1380: a[a == old] = new *)
Definition assign (old new : A) (l : list A) : list A := map (fun x => if eqb x old then new else x) l.
Definition table (n : nat) (on off : A) : list A :=
  if negb (eqb on zero) then assign zero off (assign one on (eye n)) else assign one on (assign zero off (eye n)).
(** 1360-1396; indices_rank, depth, on, off as far as they are known; a negative depth makes np.eye raise *)
Definition one_hot_1 (indices_rank : option nat) (axis : Z) (depth : option Z) (on off : option A) : option expr :=
  match indices_rank, depth, on, off with
  | Some 1, Some d, Some on, Some off =>
      if (d <? 0)%Z then None else
      let n := Z.to_nat d in
      let g := Op (Gather 0) [CD (Tensor [n; n] (table n on off)); Inp 0] in
      Some (if Z.eqb axis 0 then Op (Transpose None) [g] else g)
  | _, _, _, _ => None
  end.
(** 1412-1470 *)
Definition one_hot_9 (indices_rank : option nat) (axis : Z) : expr :=
  let depth := make_unsqueeze opset [0%Z] (Inp 1) in
  let on_value := make_unsqueeze opset [0%Z] (Inp 2) in
  let off_value := make_unsqueeze opset [0%Z] (Inp 3) in
  let off_on_value := Op (Concat 0) [off_value; on_value] in
  match indices_rank with
  | Some 0 =>
      let axis' := if Z.eqb axis 0 then (-1)%Z else axis in
      make_squeeze opset [0%Z] (Op (OneHot axis') [Op Expand [Inp 0; vec [1%Z]]; depth; off_on_value])
  | _ => Op (OneHot axis) [Inp 0; depth; off_on_value]
  end.
(** 1398-1411 and the choice of the version by the opset; is_float = the type of the values is float *)
Definition one_hot (is_float : bool) (indices_rank : option nat) (axis : Z) (depth : option Z) (on off : option A) : option expr :=
  if Nat.ltb opset 9 || negb is_float then one_hot_1 indices_rank axis depth on off
  else Some (one_hot_9 indices_rank axis).
End Handler.
