(** Colours: hue, saturation and value of a pixel, and the ONNX graphs that change them, over the real numbers.  A graph is read for one
    pixel: the vector of its three channels along the last axis; all the operators work on each pixel alone. *)
From Coq Require Import Reals List Arith.
Import ListNotations.
Local Open Scope R_scope.
Local Open Scope list_scope.

(** ** TensorFlow (tf.image.rgb_to_hsv, hsv_to_rgb) *)
Definition clamp01 (v : R) : R := Rmax 0 (Rmin 1 v).
Definition value_of (r g b : R) : R := Rmax r (Rmax g b).
Definition range_of (r g b : R) : R := value_of r g b - Rmin r (Rmin g b).
Definition saturation_of (r g b : R) : R := if Rlt_dec 0 (value_of r g b) then range_of r g b / value_of r g b else 0.
(** the hue as a part of the circle, in [0, 1) *)
Definition hue_of (r g b : R) : R :=
  let v := value_of r g b in let d := range_of r g b in
  if Rlt_dec 0 d then
    let h := if Req_EM_T v r then (g - b) / d / 6 else if Req_EM_T v g then 2 / 6 + (b - r) / d / 6 else 4 / 6 + (r - g) / d / 6 in
    if Rlt_dec h 0 then h + 1 else h
  else 0.
Definition to_rgb (h s v : R) : list R :=
  let dh := 6 * h in
  map (fun c => ((1 - s) + s * c) * v) [clamp01 (Rabs (dh - 3) - 1); clamp01 (2 - Rabs (dh - 2)); clamp01 (2 - Rabs (dh - 4))].
(** tf.image.adjust_saturation and adjust_hue *)
Definition tf_saturation (factor r g b : R) : list R := to_rgb (hue_of r g b) (clamp01 (saturation_of r g b * factor)) (value_of r g b).
Definition tf_hue (delta r g b : R) : list R := to_rgb (frac_part (hue_of r g b + delta)) (saturation_of r g b) (value_of r g b).

(** ** ONNX *)
Inductive vop := VAdd | VSub | VMul | VDiv | VMin.
Inductive vexpr :=
| VPixel
(** the second operand of the node, a scalar *)
| VArg
| VConst (v : R)
| VVec (l : list R)
| VBin (o : vop) (a b : vexpr)
| VAbs (a : vexpr)
(** Clip to [0, 1] *)
| VClip (a : vexpr)
(** Mod with fmod = 1 *)
| VFmod (a b : vexpr)
(** Equal, cast back to the type of the operands *)
| VEqual (a b : vexpr)
(** the values of TopK with k = 3; part k of Split in three; Concat; GatherElements at the indices of TopK of the pixel *)
| VTop (a : vexpr)
| VSplit (k : nat) (a : vexpr)
| VConcat3 (a b c : vexpr)
| VGatherTop (a : vexpr)
(** GatherND of a constant of shape [3, 3, 3, 1] at the indices of TopK of the pixel *)
| VLookup (table : list nat -> R).

(** TopK: descending; of equal values the one with the lower index comes first *)
Fixpoint insert (p : list R) (i : nat) (l : list nat) : list nat :=
  match l with [] => [i] | j :: l' => if Rle_dec (nth j p 0) (nth i p 0) then i :: l else j :: insert p i l' end.
Definition top (p : list R) : list nat := fold_right (insert p) [] (seq 0 (length p)).
(** a vector of one entry is broadcast *)
Definition stretch (n : nat) (l : list R) : list R := match l with [v] => repeat v n | _ => l end.
Fixpoint map2 (f : R -> R -> option R) (l m : list R) : option (list R) :=
  match l, m with
  | [], [] => Some []
  | u :: l', v :: m' => match f u v, map2 f l' m' with Some w, Some r => Some (w :: r) | _, _ => None end
  | _, _ => None
  end.
Definition wide (f : R -> R -> option R) (l m : list R) : option (list R) :=
  let n := Nat.max (length l) (length m) in map2 f (stretch n l) (stretch n m).
Definition vbin (o : vop) (u v : R) : option R :=
  match o with VAdd => Some (u + v) | VSub => Some (u - v) | VMul => Some (u * v) | VDiv => if Req_EM_T v 0 then None else Some (u / v) | VMin => Some (Rmin u v) end.
(** C's fmod(u, v) for v > 0: the sign of u *)
Definition fmod (u v : R) : option R := if Rlt_dec 0 v then Some (if Rle_dec 0 u then v * frac_part (u / v) else - (v * frac_part (- u / v))) else None.
Fixpoint vvalue (pixel : list R) (arg : R) (e : vexpr) : option (list R) :=
  let two a b f := match vvalue pixel arg a, vvalue pixel arg b with Some l, Some m => wide f l m | _, _ => None end in
  match e with
  | VPixel => Some pixel
  | VArg => Some [arg]
  | VConst v => Some [v]
  | VVec l => Some l
  | VBin o a b => two a b (vbin o)
  | VAbs a => option_map (map Rabs) (vvalue pixel arg a)
  | VClip a => option_map (map (fun v => Rmax 0 (Rmin 1 v))) (vvalue pixel arg a)
  | VFmod a b => two a b fmod
  | VEqual a b => two a b (fun u v => Some (if Req_EM_T u v then 1 else 0))
  | VTop a => option_map (fun l => map (fun i => nth i l 0) (top l)) (vvalue pixel arg a)
  | VSplit k a => match vvalue pixel arg a with Some [u; v; w] => Some [nth k [u; v; w] 0] | _ => None end
  | VConcat3 a b c => match vvalue pixel arg a, vvalue pixel arg b, vvalue pixel arg c with Some l, Some m, Some n => Some (l ++ m ++ n) | _, _, _ => None end
  | VGatherTop a => match vvalue pixel arg a with Some l => if Nat.eqb (length l) (length pixel) then Some (map (fun i => nth i l 0) (top pixel)) else None | None => None end
  | VLookup t => Some [t (top pixel)]
  end.
