(** Model of the handler of MatrixDiagPartV2 and MatrixDiagPartV3 from opset 12 on, tf2onnx/onnx_opset/tensor.py:3440-3600.  One matrix: leading dimensions are
    copied into the shapes only (tensor.py:3484-3486, 3561) and each matrix is gathered from alike.  Tensors of indices are lists, or lists of rows. *)
From Coq Require Import Ascii String List Arith ZArith Bool.
From Verif Require Import DiagSpec.
Import ListNotations.
Local Open Scope Z_scope.

(** ** operators *)
(** Cast of a 64-bit integer to FLOAT: to the nearest number of 24 binary digits, to the even one of two; Cast back of such an integer is exact *)
Definition to_float (z : Z) : Z :=
  if Z.abs z <=? 2 ^ 24 then z
  else let p := 2 ^ (Z.log2 (Z.abs z) - 23) in
       let q := z / p in
       let r := z mod p in
       if 2 * r <? p then q * p else if p <? 2 * r then (q + 1) * p else if Z.even q then q * p else (q + 1) * p.
Definition float_min (a b : Z) : Z := Z.min (to_float a) (to_float b).
Definition float_max (a b : Z) : Z := Z.max (to_float a) (to_float b).
(** Range by steps of -1 *)
Definition range_down (start limit : Z) : list Z := map (fun i => start - Z.of_nat i) (seq 0 (Z.to_nat (start - limit))).
Definition reduce (f : Z -> Z -> Z) (l : list Z) : option Z := match l with [] => None | z :: l' => Some (fold_left f l' z) end.
Fixpoint map_opt {A B} (f : A -> option B) (l : list A) : option (list B) :=
  match l with [] => Some [] | x :: l' => match f x, map_opt f l' with Some y, Some r => Some (y :: r) | _, _ => None end end.

(** tensor.py:3453-3456: str.split at the underscore; the handler's default *)
Definition align_attr (v3 : bool) (attr : option string) : string :=
  if v3 then match attr with Some s => s | None => "LEFT_RIGHT"%string end else "LEFT_LEFT"%string.
Fixpoint before_underscore (s : string) : string := match s with String c r => if Ascii.eqb c "_"%char then EmptyString else String c (before_underscore r) | EmptyString => EmptyString end.
Fixpoint after_underscore (s : string) : string := match s with String c r => if Ascii.eqb c "_"%char then r else after_underscore r | EmptyString => EmptyString end.

Section Handler.
Context {A : Type}.
Variables (rows cols : Z) (m : Z -> Z -> A) (padding : A).
(** tensor.py:3493, 3560: Pad with a column and a row, then Reshape of the last two dimensions to one *)
Definition m_padded (r c : Z) : A := if (r <? rows) && (c <? cols) then m r c else padding.
(** GatherElements: indices from the end if negative, an error if out of range *)
Definition gather (i : Z) : option A :=
  let size := (rows + 1) * (cols + 1) in
  let i := if i <? 0 then i + size else i in
  if (0 <=? i) && (i <? size) then Some (m_padded (i / (cols + 1)) (i mod (cols + 1))) else None.

(** tensor.py:3466-3558 *)
Definition diag_indices (align : string) (k0 k1 : Z) : option (list (list Z)) :=
  let xalign := before_underscore align in
  let yalign := after_underscore align in
  let xlen := cols in
  let ylen := rows in
  let xlenp := xlen + 1 in
  let stride := xlenp + 1 in
  let minxy := Z.min xlen ylen in
  let xmax := xlen * xlenp + xlenp + -1 in
  let ymax := xlenp * ylen + -1 in
  let xstart := range_down k1 (float_max 0 k0 + -1) in
  let ystart := range_down (float_min (-1) k1) (k0 + -1) in
  let xmax := fun d => xmax - d * xlenp in
  let xsize := fun d => float_min (xlen - d) minxy in
  let ysize := fun d => float_min (ylen + d) minxy in
  match reduce Z.max (map xsize xstart ++ map ysize ystart) with
  | None => None
  | Some maxsize =>
      let diagdistances := map (fun i => i * stride) (upto maxsize) in
      let right_align := fun size index start maxval =>
        let op3 := index - (maxsize - size) * stride in if op3 <? start then maxval else op3 in
      let xdiags := map (fun d => map (fun t =>
        let i := d + t in if String.eqb xalign "RIGHT" then right_align (xsize d) i d ymax else float_min i (xmax d)) diagdistances) xstart in
      let ydiags := map (fun d => map (fun t =>
        let start := Z.abs d * xlenp in
        let i := start + t in if String.eqb yalign "RIGHT" then right_align (ysize d) i start ymax else float_min i ymax) diagdistances) ystart in
      Some (xdiags ++ ydiags)
  end.
(** tensor.py:3559-3586; [k] is the second input, flattened *)
Definition diag_part (v3 : bool) (attr : option string) (k : list Z) : option (diagonals A) :=
  match reduce Z.min k, reduce Z.max k with
  | Some k0, Some k1 =>
      match diag_indices (align_attr v3 attr) k0 k1 with
      | None => None
      | Some diags =>
          match map_opt (map_opt gather) diags with
          | None => None
          | Some vals => Some (if k1 =? k0 then One (concat vals) else Rows vals)
          end
      end
  | _, _ => None
  end.
End Handler.
