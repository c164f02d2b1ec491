(** Scattering updates into a tensor (tf.scatter_nd, tf.tensor_scatter_nd_add and friends), and the ONNX operator ScatterND. *)
From Coq Require Import List Arith ZArith Bool.
From Verif Require Import Tensor FoldModel OnnxSpec TOps ReduceSpec.
Import ListNotations.
Local Open Scope list_scope.

Section S.
Context {A : Type}.
(** row ix of the indices is the position pos *)
Definition points (idx : tensor Z) (ix pos : list nat) : Prop :=
  forall j, j < length pos -> get idx (ix ++ [j]) = Some (Z.of_nat (nth j pos 0)).
(** what TensorFlow asks of its arguments: rows of length k in range, and one slice of updates for each row *)
Definition scatter_args (sh q : list nat) (k : nat) (idx : tensor Z) (upd : tensor A) : Prop :=
  wf idx /\ wf upd /\ shape idx = q ++ [k] /\ 1 <= k <= length sh /\ shape upd = q ++ skipn k sh /\
  forall ix, inb ix q -> exists pos, inb pos (firstn k sh) /\ points idx ix pos.
(** the rows that point at pos, in an order that TensorFlow leaves open *)
Definition rows_at (q : list nat) (idx : tensor Z) (pos : list nat) (rows : list (list nat)) : Prop :=
  NoDup rows /\ forall ix, In ix rows <-> inb ix q /\ points idx ix pos.
(** every entry is what was there before, combined with all the updates for it, one after the other *)
Definition tf_scatter (f : A -> A -> A) (sh q : list nat) (k : nat) (before : list nat -> option A) (idx : tensor Z) (upd : tensor A) (y : tensor A) : Prop :=
  wf y /\ shape y = sh /\
  forall pos rest, inb pos (firstn k sh) -> inb rest (skipn k sh) -> exists rows d us,
    rows_at q idx pos rows /\ before (pos ++ rest) = Some d /\ Forall2 (fun ix u => get upd (ix ++ rest) = Some u) rows us /\
    get y (pos ++ rest) = Some (fold_left f us d).

(** ** ONNX: ScatterND, one row after the other *)
Definition scatter_row (f : A -> A -> A) (k : nat) (idx : tensor Z) (upd : tensor A) (t : tensor A) (ix : list nat) : option (tensor A) :=
  match sequence (map (fun j => get idx (ix ++ [j])) (seq 0 k)) with
  | Some l => match norm_index (firstn k (shape t)) l with
              | Some pos => build (shape t) (fun p => if list_eqb (firstn k p) pos
                              then match get t p, get upd (ix ++ skipn k p) with Some a, Some u => Some (f a u) | _, _ => None end else get t p)
              | None => None
              end
  | None => None
  end.
Definition f_scatter_nd (f : A -> A -> A) (t : tensor A) (idx : tensor Z) (upd : tensor A) : option (tensor A) :=
  let k := last (shape idx) 0 in let q := removelast (shape idx) in
  if negb (Nat.eqb (length (shape idx)) 0) && Nat.leb 1 k && Nat.leb k (length (shape t)) && list_eqb (shape upd) (q ++ skipn k (shape t)) then
    fold_left (fun o ix => match o with Some t => scatter_row f k idx upd t ix | None => None end) (indices q) (Some t)
  else None.
(** ConstantOfShape *)
Definition f_constant_of_shape (v : A) (sh : tensor Z) : option (tensor A) :=
  match as_vec sh with
  | Some l => if forallb (fun z => (0 <=? z)%Z) l then let d := map Z.to_nat l in Some (Tensor d (repeat v (size d))) else None
  | None => None
  end.
End S.
