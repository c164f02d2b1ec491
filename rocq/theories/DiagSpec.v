(** Diagonals of a matrix, from the documentation of TensorFlow's MatrixDiagPartV2 and MatrixDiagPartV3 (tensorflow/core/ops/array_ops.cc). *)
From Coq Require Import String List Arith ZArith Bool.
Import ListNotations.
Local Open Scope Z_scope.

(** one diagonal, or several, from the highest down *)
Inductive diagonals (A : Type) := One (row : list A) | Rows (rows : list (list A)).
Arguments One {A}. Arguments Rows {A}.
(** 0, ..., n - 1 *)
Definition upto (n : Z) : list Z := map Z.of_nat (seq 0 (Z.to_nat n)).
(** where shorter diagonals go: superdiagonals (and the main one) and subdiagonals *)
Record alignment := Align { super_right : bool; sub_right : bool }.
Definition align_of (s : string) : option alignment :=
  if String.eqb s "LEFT_LEFT" then Some (Align false false) else if String.eqb s "LEFT_RIGHT" then Some (Align false true)
  else if String.eqb s "RIGHT_LEFT" then Some (Align true false) else if String.eqb s "RIGHT_RIGHT" then Some (Align true true) else None.
(** V2 aligns to the left; the default of V3's attribute is RIGHT_LEFT *)
Definition tf_align (v3 : bool) (attr : option string) : string :=
  if v3 then match attr with Some s => s | None => "RIGHT_LEFT"%string end else "LEFT_LEFT"%string.

Section Diag.
Context {A : Type}.
(** a matrix of [rows] times [cols] *)
Variables (rows cols : Z) (m : Z -> Z -> A) (padding : A).
Definition diag_len (d : Z) : Z := Z.min (cols - Z.max d 0) (rows + Z.min d 0).
Definition max_diag_len (k0 k1 : Z) : Z := Z.min (rows + Z.min k1 0) (cols + Z.min (- k0) 0).
Definition offset (al : alignment) (k0 k1 d : Z) : Z :=
  if (super_right al && (0 <=? d)) || (sub_right al && (d <=? 0)) then max_diag_len k0 k1 - diag_len d else 0.
Definition entry (al : alignment) (k0 k1 d n : Z) : A :=
  let y := Z.max (- d) 0 - offset al k0 k1 d in
  let x := Z.max d 0 - offset al k0 k1 d in
  if (0 <=? n + y) && (n + y <? rows) && (0 <=? n + x) && (n + x <? cols) then m (n + y) (n + x) else padding.
Definition valid_k (k0 k1 : Z) : Prop := - rows < k0 /\ k0 <= k1 /\ k1 < cols.
(** diagonals k1, k1 - 1, ..., k0; the dimension of diagonals is left out if there is but one *)
Definition tf_diag_part (al : alignment) (k0 k1 : Z) : diagonals A :=
  if k0 =? k1 then One (map (fun n => m (n + Z.max (- k1) 0) (n + Z.max k1 0)) (upto (max_diag_len k0 k1)))
  else Rows (map (fun i => map (entry al k0 k1 (k1 - i)) (upto (max_diag_len k0 k1))) (upto (k1 - k0 + 1))).
End Diag.
