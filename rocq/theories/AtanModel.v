(** Model of Atan2Op.version_9, tf2onnx/onnx_opset/math.py:909-1013: the output as an expression of the inputs y (input 0) and x
    (input 1).  The casts of the signs to their own type (939-944) change nothing and are left out; -pi/2 is not rounded. *)
From Coq Require Import Reals List String.
From Verif Require Import AtanSpec.
Local Open Scope string_scope.

(** 923-929: the types that are converted *)
Definition atan2_types : list string := "FLOAT" :: "FLOAT16" :: "DOUBLE" :: nil.
Definition atan2 : aexpr :=
  let y := AIn "y" in let x := AIn "x" in
  let sx := ASign x in
  let sy := ASign y in
  let one := AConst 1 1 in
  let pib2 := AConst 0 (- PI / 2) in
  let sxm1 := ABin BSub sx one in
  let sy2m1 := ABin BSub (ABin BMul sy sy) one in
  let m1 := ABin BMul (ABin BAdd sy (ABin BMul sx sy2m1)) sxm1 in
  let pi_part := ABin BMul m1 pib2 in
  let sx2 := ABin BMul sx sx in
  let xsx2m1 := ABin BAdd x (ABin BSub sx2 one) in
  let atan0 := AAtan (ABin BDiv y xsx2m1) in
  ABin BAdd (ABin BMul sx2 atan0) pi_part.
Definition atan2_of (dtype : string) : option aexpr := if List.existsb (String.eqb dtype) atan2_types then Some atan2 else None.
