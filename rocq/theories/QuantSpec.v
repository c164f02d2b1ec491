(** QuantizeLinear and DequantizeLinear on one value, from the ONNX operator documentation, in exact arithmetic and in
    binary32. *)
From Coq Require Import ZArith Reals.
From Flocq Require Import Core.
Local Open Scope R_scope.

(** "it rounds to the nearest even" *)
Definition nearest_even (x : R) (n : Z) : Prop := Rabs (x - IZR n) <= /2 /\ (Rabs (x - IZR n) = /2 -> Z.even n = true).
(** saturation to the range of the quantised type *)
Definition saturate (lo hi v : Z) : Z := Z.max lo (Z.min hi v).
(** y = (x - x_zero_point) * x_scale *)
Definition dequantize (s : R) (z q : Z) : R := IZR (q - z) * s.
(** y = saturate ((x / y_scale) + y_zero_point) *)
Definition quantizes (lo hi : Z) (s : R) (z : Z) (x : R) (q : Z) : Prop := exists n, nearest_even (x / s) n /\ q = saturate lo hi (n + z).

(** the same with the product and the quotient rounded to binary32 (no overflow) *)
Definition f32 (x : R) : R := round radix2 (FLT_exp (-149) 24) ZnearestE x.
Definition is_f32 (x : R) : Prop := generic_format radix2 (FLT_exp (-149) 24) x.
Definition dequantize32 (s : R) (z q : Z) : R := f32 (IZR (q - z) * s).
Definition quantizes32 (lo hi : Z) (s : R) (z : Z) (x : R) (q : Z) : Prop := exists n, nearest_even (f32 (x / s)) n /\ q = saturate lo hi (n + z).
