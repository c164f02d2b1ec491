(** Model of the handlers SpaceToDepth and DepthToSpace (tf2onnx/onnx_opset/nn.py:1061-1083 with conv_convert_inputs, 61-197)
    and ReverseSequence (tf2onnx/onnx_opset/tensor.py:2102-2196).  [None] = the handler raises.
    Simplifications: names, recorded shapes and dtypes are left out (the Cast of the lengths to int64 keeps their values). *)
From Coq Require Import List Arith ZArith Bool String.
From Verif Require Import Tensor FoldModel TOps.
Import ListNotations.
Local Open Scope list_scope.

(** nn.py:30-33 *)
Definition is_channels_last (data_format : string) : bool := negb (String.prefix "NC" data_format).
(** 48-57 for two spatial axes *)
Definition channels_first_perm : list nat := [0; 3] ++ seq 1 2.
Definition channels_last_perm : list nat := [0] ++ seq 2 2 ++ [1].
Section Blocks.
Context {A : Type}.
Notation expr := (expr A).
(** 86-113, 163-190: the node o between the Transposes; constant = the value of input 0 if it is a constant with no other
    consumer, which is then transposed in place *)
Definition convert_inputs (data_format : string) (constant : option (tensor A)) (o : op) : option expr :=
  if is_channels_last data_format then
    match constant with
    | Some c => match f_transpose (Some channels_first_perm) c with
                | Some c' => Some (Op (Transpose (Some channels_last_perm)) [Op o [CD c']])
                | None => None
                end
    | None => Some (Op (Transpose (Some channels_last_perm)) [Op o [Op (Transpose (Some channels_first_perm)) [Inp 0]]])
    end
  else Some (Op o [match constant with Some c => CD c | None => Inp 0 end]).
(** 1061-1067 *)
Definition space_to_depth (data_format : string) (block_size : nat) (constant : option (tensor A)) : option expr :=
  convert_inputs data_format constant (SpaceToDepth block_size).
(** 1070-1083 *)
Definition depth_to_space (data_format : string) (block_size : nat) (constant : option (tensor A)) : option expr :=
  convert_inputs data_format constant (DepthToSpace block_size).
End Blocks.

(** tensor.py:2173-2196, from opset 10 on *)
Definition reverse_sequence_10 {A} (seq_dim : nat) (batch_dim : option nat) : expr A :=
  Op (ReverseSequence seq_dim (match batch_dim with Some b => b | None => 0 end)) [Inp 0; Op Cast [Inp 1]].
(** 2105-2162: the permutation in front of and behind the Scan node ([Some None] = no Transpose), which always works along
    axis 1 with batch axis 0.  batch_dim or seq_dim as attributes are objects and count as true *)
Definition reverse_sequence_8 (rank : option nat) (seq_dim batch_dim : nat) : option (option (list nat)) :=
  let batch_major := Nat.eqb seq_dim 1 && true in
  let time_major := Nat.eqb batch_dim 1 && true in
  if negb batch_major && negb time_major then None
  else match rank with
       | None => None
       | Some r => if time_major then if Nat.leb 2 r then Some (Some ([1; 0] ++ seq 2 (r - 2))) else None else Some None
       end.
(** the versions by opset; 2165-2171: opset 9 is refused *)
Inductive reversal {A : Type} := Direct (e : expr A) | ByScan (perm : option (list nat)).
Arguments reversal : clear implicits.
Definition reverse_sequence {A} (opset : nat) (rank : option nat) (seq_dim : nat) (batch_dim : option nat) : option (reversal A) :=
  if Nat.ltb opset 8 then None
  else if Nat.ltb opset 9 then
    match batch_dim with Some b => option_map ByScan (reverse_sequence_8 rank seq_dim b) | None => None end
  else if Nat.ltb opset 10 then None
  else Some (Direct (reverse_sequence_10 seq_dim batch_dim)).
