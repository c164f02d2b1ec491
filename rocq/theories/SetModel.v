(** Model of the handler of DenseToDenseSetOperation, tf2onnx/onnx_opset/tensor.py:2989-3080, over elements that are 64-bit integers, or become so by
    the Cast of lines 2995-2997.  Matrices are lists of rows.  The operators Unique, Compress, ScatterElements and CumSum are as ONNX describes them. *)
From Coq Require Import String List Arith ZArith Bool.
From Verif Require Import Tensor TOps SetSpec.
Import ListNotations.
Local Open Scope list_scope.

(** ** operators *)
Fixpoint lex (r s : list Z) : comparison :=
  match r, s with
  | [], [] => Eq
  | [], _ :: _ => Lt
  | _ :: _, [] => Gt
  | x :: r', y :: s' => match Z.compare x y with Eq => lex r' s' | c => c end
  end.
Fixpoint insert (r : list Z) (l : list (list Z)) : list (list Z) :=
  match l with
  | [] => [r]
  | s :: l' => match lex r s with Lt => r :: l | Eq => l | Gt => s :: insert r l' end
  end.
Definition row_eqb (r s : list Z) : bool := match lex r s with Eq => true | _ => false end.
(** Unique with axis = 0 and sorted = 1, the default: the rows in order, where each comes first, and how many there are of it *)
Definition unique_rows (l : list (list Z)) : list (list Z) := fold_right insert [] l.
Fixpoint first_at (r : list Z) (l : list (list Z)) : nat := match l with [] => 0 | s :: l' => if row_eqb r s then 0 else S (first_at r l') end.
Definition count_rows (r : list Z) (l : list (list Z)) : nat := length (filter (row_eqb r) l).
Definition f_unique (l : list (list Z)) : list (list Z) * list nat * list Z :=
  let u := unique_rows l in (u, map (fun r => first_at r l) u, map (fun r => Z.of_nat (count_rows r l)) u).
(** NonZero of ones: all positions, in order; cut and transposed, one row for each *)
Definition all_indices (sh : list nat) : list (list nat) := map (unravel sh) (seq 0 (size sh)).
Definition f_compress {A} (l : list A) (keep : list bool) : list A := map fst (filter snd (combine l keep)).
Definition f_reduce_max (l : list Z) : option Z := match l with [] => None | z :: l' => Some (fold_left Z.max l' z) end.
Fixpoint set_at {A} (i : nat) (v : A) (l : list A) : list A :=
  match l, i with [], _ => [] | _ :: l', 0 => v :: l' | x :: l', S i' => x :: set_at i' v l' end.
(** ScatterElements along the only axis: as many updates as there are positions *)
Definition f_scatter {A} (l : list A) (at_ : list nat) (upd : list A) : option (list A) :=
  if Nat.eqb (length at_) (length upd) then Some (fold_left (fun d p => set_at (fst p) (snd p) d) (combine at_ upd) l) else None.
Fixpoint f_cumsum (acc : Z) (l : list Z) : list Z := match l with [] => [] | z :: l' => (acc + z)%Z :: f_cumsum (acc + z)%Z l' end.

(** ** the handler *)
(** tensor.py:3014-3022 *)
Definition concat_indices (t : tensor Z) : list (list Z) :=
  map (fun p => removelast (map Z.of_nat (fst p)) ++ [snd p]) (combine (all_indices (shape t)) (data t)).
(** tensor.py:3044-3056: rows of the two, or three, that come exactly so many times *)
Definition rows_with_count (combined : list (list Z)) (desired_cnt : Z) : list (list Z) :=
  let '(u, _, row_cnts) := f_unique combined in f_compress u (map (fun c => Z.eqb c desired_cnt) row_cnts).
(** tensor.py:3024-3056: the prefix of the shape and the resulting rows *)
Definition result_rows (set_op : string) (inp_a inp_b : tensor Z) : option (list nat * list (list Z)) :=
  if String.eqb set_op "union" then
    match f_concat (-1) [inp_a; inp_b] with
    | None => None
    | Some combined => Some (removelast (shape combined), fst (fst (f_unique (concat_indices combined))))
    end
  else
    let a_unique := fst (fst (f_unique (concat_indices inp_a))) in
    let b_unique := fst (fst (f_unique (concat_indices inp_b))) in
    if String.eqb set_op "intersection" then Some (removelast (shape inp_a), rows_with_count (a_unique ++ b_unique) 2)
    else if String.eqb set_op "a-b" then Some (removelast (shape inp_a), rows_with_count (a_unique ++ b_unique ++ b_unique) 1)
    else None.
(** tensor.py:3058-3080 *)
Definition to_sparse (shape_prefix : list nat) (rows : list (list Z)) : option sparse :=
  let merged_indices := map (@removelast Z) rows in
  let merged_values := map (fun r => last r 0%Z) rows in
  let '(_, idx_loc, idx_cnts) := f_unique merged_indices in
  match f_reduce_max idx_cnts with
  | None => None
  | Some max_cnt =>
      let final_shape := map Z.of_nat shape_prefix ++ [max_cnt] in
      let one_minus_cnts := map (fun c => (1 - c)%Z) idx_cnts in
      let cnts_shifted := 0%Z :: removelast one_minus_cnts in
      match f_scatter (repeat 1%Z (length merged_values)) idx_loc cnts_shifted with
      | None => None
      | Some idx_deltas =>
          let last_dim_idx := f_cumsum 0 idx_deltas in
          Some (Sparse (map (fun p => fst p ++ [snd p]) (combine merged_indices last_dim_idx)) merged_values final_shape)
      end
  end.
(** tensor.py:2991-3001: b-a is a-b of the inputs swapped *)
Definition dense_to_dense (set_op : string) (inp_a inp_b : tensor Z) : option sparse :=
  let '(set_op, inp_a, inp_b) := if String.eqb set_op "b-a" then ("a-b"%string, inp_b, inp_a) else (set_op, inp_a, inp_b) in
  match result_rows set_op inp_a inp_b with
  | None => None
  | Some (shape_prefix, rows) => to_sparse shape_prefix rows
  end.
