(** tf.pad, from the TensorFlow documentation: rows = (how many before, how many after) for every axis. *)
From Coq Require Import List Arith ZArith Bool.
From Verif Require Import Tensor FoldModel OnnxSpec PadModel.
Import ListNotations.
Local Open Scope list_scope.

(** the entry of an axis of length d that is shown at position i of the padded axis; None = the border *)
Definition pad_source (mode : pad_mode) (d before i : nat) : option nat :=
  if Nat.leb before i && Nat.ltb (i - before) d then Some (i - before)
  else match mode with
       | Constant => None
       | Reflect => Some (if Nat.ltb i before then before - i else 2 * (d - 1) - (i - before))
       | Symmetric => Some (if Nat.ltb i before then before - i - 1 else 2 * d - 1 - (i - before))
       end.
Definition pad_allowed (mode : pad_mode) (d : nat) (row : nat * nat) : bool :=
  match mode with
  | Constant => true
  | Reflect => (Nat.eqb (fst row) 0 || Nat.ltb (fst row) d) && (Nat.eqb (snd row) 0 || Nat.ltb (snd row) d)
  | Symmetric => Nat.leb (fst row) d && Nat.leb (snd row) d
  end.
Fixpoint pad_sources (mode : pad_mode) (sh : list nat) (rows : list (nat * nat)) (ix : list nat) : option (list nat) :=
  match sh, rows, ix with
  | [], [], [] => Some []
  | d :: sh', (b, _) :: rows', i :: ix' =>
      match pad_source mode d b i, pad_sources mode sh' rows' ix' with Some j, Some jx => Some (j :: jx) | _, _ => None end
  | _, _, _ => None
  end.
Fixpoint padded_shape (sh : list nat) (rows : list (nat * nat)) : list nat :=
  match sh, rows with d :: sh', (b, a) :: rows' => b + d + a :: padded_shape sh' rows' | _, _ => [] end.
Definition tf_pad {A} (mode : pad_mode) (rows : list (nat * nat)) (value : A) (x : tensor A) : option (tensor A) :=
  if Nat.eqb (length rows) (length (shape x)) && forallb (fun '(d, row) => pad_allowed mode d row) (combine (shape x) rows) then
    build (padded_shape (shape x) rows)
          (fun ix => match pad_sources mode (shape x) rows ix with Some jx => get x jx | None => Some value end)
  else None.
