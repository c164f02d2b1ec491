(** Model of the handler ReverseV2 (tf2onnx/onnx_opset/tensor.py:2201-2364): the expression that replaces the node.
    Input 0 of the environment is the tensor; the axes (input 1) are the value of a Const node.  [None] = the handler
    raises, or no handler for the opset.  Simplifications: names, output shapes and dtypes are left out; the DAG is
    written as a tree. *)
From Coq Require Import List Arith ZArith Bool.
From Verif Require Import Tensor FoldModel TOps SpaceModel RollModel.
Import ListNotations.
Local Open Scope list_scope.

(** python's sorted *)
Fixpoint insert_sorted (a : nat) (l : list nat) : list nat :=
  match l with [] => [a] | b :: l' => if Nat.leb a b then a :: l else b :: insert_sorted a l' end.
Definition sorted (l : list nat) : list nat := fold_right insert_sorted [] l.
(** 2283, 2347: exchange of two entries of a list *)
Definition swap0 (ax : nat) (p : list nat) : list nat := upd ax (nth 0 p 0) (upd 0 (nth ax p 0) p).

Section Reverse.
Context {A : Type} (opset rank : nat) (base : expr A).
Notation expr := (expr A).
Definition orig_perm := seq 0 rank.
(** 2277-2338, one round of the loop *)
Definition reverse_step (data : expr) (axis : nat) : expr :=
  let curr_perm := swap0 axis orig_perm in
  let inp := if negb (Nat.eqb axis 0) then Op (Transpose (Some curr_perm)) [data] else data in
  let batch_size := Op (Gather 0) [Op Shape [inp]; vec [1%Z]] in
  let axis_dim := Op (Gather 0) [Op Shape [base]; vec [Z.of_nat axis]] in
  let seq_array := Op Expand [axis_dim; batch_size] in
  Op (ReverseSequence 0 1) [inp; seq_array].
(** 2342-2348 *)
Definition restore_perm (axes : list nat) : list nat :=
  fold_left (fun p ax => swap0 ax p) (tl (rev axes)) (swap0 (last axes 0) orig_perm).
(** 2265-2360 *)
Definition reverse_axes (axes : list nat) : expr :=
  let data := fold_left reverse_step axes base in
  if list_eqb (swap0 (last axes 0) orig_perm) orig_perm then data
  else Op (Transpose (Some (restore_perm axes))) [data].
End Reverse.

(** 2267-2271: negative axes counted from the end; an axis out of range makes the list access of 2283 raise *)
Definition norm_all (rank : nat) (axes : list Z) : option (list nat) :=
  FoldModel.sequence (map (fun a => let b := if (a <? 0)%Z then (a + Z.of_nat rank)%Z else a in
                          if (0 <=? b)%Z && (b <? Z.of_nat rank)%Z then Some (Z.to_nat b) else None) axes).

Definition reverse_v2 {A} (opset : nat) (rank : option nat) (axes : const_value) : option (expr A) :=
  if Nat.ltb opset 10 then None else
  match axes, rank with
  | Vector axes, Some rank =>
      match axes with
      | [] => Some (Inp 0)
      | _ =>
          if Nat.eqb rank 1 then
            match axes with
            | [a] => if Z.eqb a (-1) || Z.eqb a 0
                     then Some (make_squeeze opset [0%Z] (reverse_axes 2 (make_unsqueeze opset [0%Z] (Inp 0)) [1]))
                     else None
            | _ => None
            end
          else option_map (fun l => reverse_axes rank (Inp 0) (sorted l)) (norm_all rank axes)
      end
  | _, _ => None
  end.
