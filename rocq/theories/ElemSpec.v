(** What elementwise TensorFlow and ONNX operators compute on one element, and on tensors by broadcasting.
    Integers are two's complement, floats are IEEE 754 (Flocq), with one NaN and rounding to nearest even. *)
From Coq Require Import ZArith Reals String List Bool Lia.
From Flocq Require Import Core BinarySingleNaN.
From Verif Require Tensor.
Import ListNotations.
Local Open Scope string_scope.
Local Open Scope list_scope.

(** ** types and values *)
Inductive ity := I8 | I16 | I32 | I64 | U8 | U16 | U32 | U64.
Inductive fty := F16 | F32 | F64.
Inductive dtype := BOOL | INT (t : ity) | FLT (f : fty).
Definition prec (f : fty) : Z := match f with F16 => 11 | F32 => 24 | F64 => 53 end.
Definition emax (f : fty) : Z := match f with F16 => 16 | F32 => 128 | F64 => 1024 end.
Definition fl (f : fty) := binary_float (prec f) (emax f).
#[global] Instance prec_pos f : Prec_gt_0 (prec f).
Proof. destruct f; reflexivity. Defined.
#[global] Instance prec_small f : Prec_lt_emax (prec f) (emax f).
Proof. destruct f; reflexivity. Defined.
Definition bits (t : ity) : Z := match t with I8 | U8 => 8 | I16 | U16 => 16 | I32 | U32 => 32 | I64 | U64 => 64 end.
Definition signed (t : ity) : bool := match t with I8 | I16 | I32 | I64 => true | _ => false end.
Definition lo (t : ity) : Z := if signed t then - 2 ^ (bits t - 1) else 0.
Definition hi (t : ity) : Z := if signed t then 2 ^ (bits t - 1) - 1 else 2 ^ bits t - 1.
Definition wrap (t : ity) (z : Z) : Z := ((z - lo t) mod 2 ^ bits t + lo t)%Z.
Inductive val := VB (b : bool) | VI (t : ity) (z : Z) | VF (f : fty) (x : fl f).
Definition dt (v : val) : dtype := match v with VB _ => BOOL | VI t _ => INT t | VF f _ => FLT f end.
Definition in_range (t : ity) (z : Z) : Prop := (lo t <= z <= hi t)%Z.
(** a value of the type *)
Definition has_type (d : dtype) (v : val) : Prop := dt v = d /\ match v with VI t z => in_range t z | _ => True end.
(** equal, where +0 and -0 are the same number and NaN is the same as NaN *)
Inductive same : val -> val -> Prop :=
| same_refl v : same v v
| same_num f (x y : fl f) : Beqb x y = true -> same (VF f x) (VF f y).

(** ** floats *)
Definition add {f} (x y : fl f) : fl f := Bplus mode_NE x y.
Definition sub {f} (x y : fl f) : fl f := Bminus mode_NE x y.
Definition mul {f} (x y : fl f) : fl f := Bmult mode_NE x y.
Definition div {f} (x y : fl f) : fl f := Bdiv mode_NE x y.
Definition to_int (m : mode) {f} (x : fl f) : fl f := Bnearbyint m x.
(** the integer z times 2^e, rounded *)
Definition round_to (f : fty) (z e : Z) : fl f := binary_normalize (prec f) (emax f) _ _ mode_NE z e false.
Definition of_Z (f : fty) (z : Z) : fl f := round_to f z 0.
Definition convert {f} (g : fty) (x : fl f) : fl g :=
  match x with
  | B754_zero s => B754_zero s
  | B754_infinity s => B754_infinity s
  | B754_nan => B754_nan
  | B754_finite s m e _ => round_to g (if s then Zneg m else Zpos m) e
  end.
(** minimum and maximum; NaN if an argument is *)
Definition fmin {f} (x y : fl f) : fl f := if is_nan x then x else if is_nan y then y else if Bltb y x then y else x.
Definition fmax {f} (x y : fl f) : fl f := if is_nan x then x else if is_nan y then y else if Bltb x y then y else x.
Definition is_inf {f} (x : fl f) : bool := match x with B754_infinity _ => true | _ => false end.
Definition fzero {f} : fl f := B754_zero false.

(** ** ONNX operators on one element; [None]: the types are not allowed in that version of the opset, or the standard
    does not define a result *)
Definition as_fl (f : fty) (v : val) : option (fl f) :=
  match v with
  | VF g y => match f, g return fl g -> option (fl f) with
              | F16, F16 => fun y => Some y
              | F32, F32 => fun y => Some y
              | F64, F64 => fun y => Some y
              | _, _ => fun _ => None
              end y
  | _ => None
  end.
Definition ity_eqb (a b : ity) : bool :=
  match a, b with
  | I8, I8 | I16, I16 | I32, I32 | I64, I64 | U8, U8 | U16, U16 | U32, U32 | U64, U64 => true
  | _, _ => false
  end.
(** a binary operator on two values of the same type *)
Definition both {A} (fb : bool -> bool -> option A) (fi : ity -> Z -> Z -> option A) (ff : forall f, fl f -> fl f -> option A)
  (v w : val) : option A :=
  match v with
  | VB a => match w with VB b => fb a b | _ => None end
  | VI t a => match w with VI u b => if ity_eqb t u then fi t a b else None | _ => None end
  | VF f a => match as_fl f w with Some b => ff f a b | None => None end
  end.
Definition no_bool {A} : bool -> bool -> option A := fun _ _ => None.
Definition no_int {A} : ity -> Z -> Z -> option A := fun _ _ _ => None.
(** Cast (operator Cast of the ONNX standard) *)
Definition cast (d : dtype) (v : val) : option val :=
  match d, v with
  | BOOL, VB b => Some (VB b)
  | BOOL, VI _ z => Some (VB (negb (Z.eqb z 0)))
  | BOOL, VF f x => Some (VB (negb (Beqb x fzero)))
  | INT t, VB b => Some (VI t (if b then 1 else 0))
  | INT t, VI _ z => Some (VI t (wrap t z))
  | INT t, VF f x => let z := Btrunc x in
                     if is_finite x && Z.leb (lo t) z && Z.leb z (hi t) then Some (VI t z) else None
  | FLT g, VB b => Some (VF g (of_Z g (if b then 1 else 0)))
  | FLT g, VI _ z => Some (VF g (of_Z g z))
  | FLT g, VF f x => Some (VF g (convert g x))
  end.
Definition bit32 (t : ity) : bool := match t with I32 | I64 | U32 | U64 => true | _ => false end.
Inductive eattr := NoAttr | To (d : dtype) | Direction (s : string).
(** truncating integer division; undefined for 0 and on overflow *)
Definition int_div (t : ity) (a b : Z) : option val :=
  let q := Z.quot a b in
  if Z.eqb b 0 || Z.ltb (hi t) q then None else Some (VI t q).
Definition shift (left : bool) (t : ity) (a b : Z) : option val :=
  if signed t || Z.ltb b 0 || Z.leb (bits t) b then None
  else Some (VI t (if left then wrap t (a * 2 ^ b) else a / 2 ^ b)).
(** arithmetic is on 32 and 64 bit integers and floats, from opset 14 on on all integers *)
Definition arith (opset : nat) (fi : ity -> Z -> Z -> option val) (ff : forall f, fl f -> fl f -> fl f) : val -> val -> option val :=
  both no_bool (fun t a b => if bit32 t || Nat.leb 14 opset then fi t a b else None) (fun f a b => Some (VF f (ff f a b))).
(** comparisons; [ints] says for which integers *)
Definition compare (ints : ity -> bool) (fi : Z -> Z -> bool) (ff : forall f, fl f -> fl f -> bool) : val -> val -> option val :=
  both no_bool (fun t a b => if ints t then Some (VB (fi a b)) else None) (fun f a b => Some (VB (ff f a b))).
Definition min_max (opset : nat) (fi : Z -> Z -> Z) (ff : forall f, fl f -> fl f -> fl f) : val -> val -> option val :=
  both no_bool (fun t a b => if bit32 t && Nat.leb 12 opset then Some (VI t (fi a b)) else None) (fun f a b => Some (VF f (ff f a b))).
Definition on_float (k : forall f, fl f -> option val) (v : val) : option val := match v with VF f x => k f x | _ => None end.
Definition equal_op (opset : nat) : val -> val -> option val :=
  both (fun a b => Some (VB (Bool.eqb a b)))
       (fun t a b => if Nat.leb 11 opset || match t with I32 | I64 => true | _ => false end then Some (VB (Z.eqb a b)) else None)
       (fun f a b => if Nat.leb 11 opset then Some (VB (Beqb a b)) else None).
Definition where_op (c a b : val) : option val :=
  match c with VB c => both (fun a b => Some (VB (if c then a else b))) (fun t a b => Some (VI t (if c then a else b)))
                            (fun f a b => Some (VF f (if c then a else b))) a b
             | _ => None end.
(** Clip with both bounds: the lower bound first *)
Definition clip_op (opset : nat) (x l h : val) : option val :=
  match x, l, h with
  | VI t x, VI t' l, VI t'' h => if ity_eqb t t' && ity_eqb t t'' && Nat.leb 12 opset then Some (VI t (Z.min (Z.max x l) h)) else None
  | VF f x, _, _ => match as_fl f l, as_fl f h with Some l, Some h => Some (VF f (fmin (fmax x l) h)) | _, _ => None end
  | _, _, _ => None
  end.
Definition sign_op (v : val) : option val :=
  match v with
  | VB _ => None
  | VI t z => Some (VI t (Z.sgn z))
  | VF f x => if is_nan x then None
              else Some (VF f (if Bltb fzero x then of_Z f 1 else if Bltb x fzero then of_Z f (-1) else fzero))
  end.
Definition onnx_op (opset : nat) (op : string) (a : eattr) (args : list val) : option val :=
  match op, a, args with
  | "Cast", To d, [x] => cast d x
  | "Identity", _, [x] => Some x
  | "Not", _, [VB x] => Some (VB (negb x))
  | "And", _, [VB x; VB y] => Some (VB (x && y))
  | "Or", _, [VB x; VB y] => Some (VB (x || y))
  | "Add", _, [x; y] => arith opset (fun t a b => Some (VI t (wrap t (a + b)))) (@add) x y
  | "Sub", _, [x; y] => arith opset (fun t a b => Some (VI t (wrap t (a - b)))) (@sub) x y
  | "Mul", _, [x; y] => arith opset (fun t a b => Some (VI t (wrap t (a * b)))) (@mul) x y
  | "Div", _, [x; y] => arith opset int_div (@div) x y
  | "Equal", _, [x; y] => equal_op opset x y
  | "Greater", _, [x; y] => compare (fun _ => Nat.leb 9 opset) (fun a b => Z.ltb b a) (fun f a b => Bltb b a) x y
  | "Less", _, [x; y] => compare (fun _ => Nat.leb 9 opset) Z.ltb (fun f a b => Bltb a b) x y
  | "GreaterOrEqual", _, [x; y] => if Nat.leb 12 opset then compare (fun _ => true) (fun a b => Z.leb b a) (fun f a b => Bleb b a) x y else None
  | "LessOrEqual", _, [x; y] => if Nat.leb 12 opset then compare (fun _ => true) Z.leb (fun f a b => Bleb a b) x y else None
  | "Min", _, [x; y] => min_max opset Z.min (@fmin) x y
  | "Max", _, [x; y] => min_max opset Z.max (@fmax) x y
  | "Where", _, [c; x; y] => if Nat.leb 9 opset then where_op c x y else None
  | "Clip", _, [x; l; h] => clip_op opset x l h
  | "Floor", _, [x] => on_float (fun f x => Some (VF f (to_int mode_DN x))) x
  | "Ceil", _, [x] => on_float (fun f x => Some (VF f (to_int mode_UP x))) x
  | "Round", _, [x] => on_float (fun f x => if Nat.leb 11 opset then Some (VF f (to_int mode_NE x)) else None) x
  | "IsNaN", _, [x] => on_float (fun f x => if Nat.leb 9 opset then Some (VB (is_nan x)) else None) x
  | "IsInf", _, [x] => on_float (fun f x => if Nat.leb 10 opset && (Nat.leb 20 opset || match f with F16 => false | _ => true end)
                                            then Some (VB (is_inf x)) else None) x
  | "Sign", _, [x] => if Nat.leb 9 opset then sign_op x else None
  | "BitShift", Direction d, [x; y] =>
      if Nat.leb 11 opset then both no_bool (shift (String.eqb d "LEFT")) (fun f a b => None) x y else None
  | _, _, _ => None
  end.

(** ** TensorFlow operators on one element; [None]: an error, or TensorFlow does not define a result *)
(** the remainder of x and y rounded, with the sign of y; x and y finite, y not 0 *)
Definition float_parts {f} (x : fl f) : Z * Z :=
  match x with B754_finite s m e _ => (if s then Zneg m else Zpos m, e) | _ => (0%Z, 0%Z) end.
Definition floor_mod {f} (x y : fl f) : fl f :=
  let '(mx, ex) := float_parts x in let '(my, ey) := float_parts y in
  let e := Z.min ex ey in
  round_to f ((mx * 2 ^ (ex - e)) mod (my * 2 ^ (ey - e))) e.
Definition tf_op (op : string) (args : list val) : option val :=
  match op, args with
  | "Equal", [x; y] => both (fun a b => Some (VB (Bool.eqb a b))) (fun t a b => Some (VB (Z.eqb a b))) (fun f a b => Some (VB (Beqb a b))) x y
  | "NotEqual", [x; y] => both (fun a b => Some (VB (xorb a b))) (fun t a b => Some (VB (negb (Z.eqb a b)))) (fun f a b => Some (VB (negb (Beqb a b)))) x y
  | "Greater", [x; y] => compare (fun _ => true) (fun a b => Z.ltb b a) (fun f a b => Bltb b a) x y
  | "Less", [x; y] => compare (fun _ => true) Z.ltb (fun f a b => Bltb a b) x y
  | "GreaterEqual", [x; y] => compare (fun _ => true) (fun a b => Z.leb b a) (fun f a b => Bleb b a) x y
  | "LessEqual", [x; y] => compare (fun _ => true) Z.leb (fun f a b => Bleb a b) x y
  | "Select", [c; x; y] | "SelectV2", [c; x; y] => where_op c x y
  | "Minimum", [x; y] => both no_bool (fun t a b => Some (VI t (Z.min a b))) (fun f a b => Some (VF f (fmin a b))) x y
  | "Maximum", [x; y] => both no_bool (fun t a b => Some (VI t (Z.max a b))) (fun f a b => Some (VF f (fmax a b))) x y
  | "ClipByValue", [x; l; h] => clip_op 12 x l h
  | "FloorDiv", [x; y] => both no_bool (fun t a b => if Z.eqb b 0 || Z.ltb (hi t) (a / b) then None else Some (VI t (a / b)))
                                       (fun f a b => Some (VF f (to_int mode_DN (div a b)))) x y
  | "FloorMod", [x; y] => both no_bool (fun t a b => if Z.eqb b 0 then None else Some (VI t (a mod b)))
                                       (fun f a b => if is_finite a && is_finite b && negb (Beqb b fzero)
                                                     then Some (VF f (floor_mod a b)) else None) x y
  | "Sign", [x] => sign_op x
  | "DivNoNan", [x; y] => both no_bool no_int (fun f a b => Some (VF f (if Beqb b fzero then fzero else div a b))) x y
  | "Round", [x] | "Rint", [x] => on_float (fun f x => Some (VF f (to_int mode_NE x))) x
  | "IsFinite", [x] => on_float (fun f x => Some (VB (is_finite x))) x
  | "LeftShift", [x; y] => both no_bool (fun t a b => if Z.ltb b 0 || Z.leb (bits t) b then None else Some (VI t (wrap t (a * 2 ^ b)))) (fun _ _ _ => None) x y
  | "RightShift", [x; y] => both no_bool (fun t a b => if Z.ltb b 0 || Z.leb (bits t) b then None else Some (VI t (a / 2 ^ b))) (fun _ _ _ => None) x y
  | "Square", [x] => both no_bool (fun t a b => Some (VI t (wrap t (a * b)))) (fun f a b => Some (VF f (mul a b))) x x
  | "SquaredDifference", [x; y] => both no_bool (fun t a b => let d := wrap t (a - b) in Some (VI t (wrap t (d * d))))
                                                (fun f a b => let d := sub a b in Some (VF f (mul d d))) x y
  | _, _ => None
  end.

(** ** tensors and broadcasting *)
Record ten := Ten { tshape : list nat; telem : list nat -> option val }.
Fixpoint inb (ix sh : list nat) : Prop :=
  match ix, sh with [], [] => True | i :: ix', d :: sh' => i < d /\ inb ix' sh' | _, _ => False end.
(** from the last dimension on (the lists are reversed) the dimensions are equal or 1 *)
Fixpoint bcast_rev (a b : list nat) : option (list nat) :=
  match a, b with
  | [], _ => Some b
  | _, [] => Some a
  | x :: a', y :: b' =>
      match bcast_rev a' b' with
      | None => None
      | Some l => if Nat.eqb x y then Some (x :: l) else if Nat.eqb x 1 then Some (y :: l)
                  else if Nat.eqb y 1 then Some (x :: l) else None
      end
  end.
Definition bcast (a b : list nat) : option (list nat) := option_map (@rev nat) (bcast_rev (rev a) (rev b)).
Fixpoint bcast_all (l : list (list nat)) : option (list nat) :=
  match l with [] => Some [] | s :: l' => match bcast_all l' with Some r => bcast s r | None => None end end.
(** the element of the smaller tensor at an index of the result *)
Definition align (sh ix : list nat) : list nat :=
  map (fun '(d, i) => if Nat.eqb d 1 then 0 else i) (combine sh (skipn (length ix - length sh) ix)).
Fixpoint all_vals (l : list (option val)) : option (list val) :=
  match l with [] => Some [] | Some v :: l' => option_map (cons v) (all_vals l') | None :: _ => None end.
Definition lift (f : list val -> option val) (ts : list ten) : option ten :=
  match bcast_all (map tshape ts) with
  | None => None
  | Some sh => Some (Ten sh (fun ix => match all_vals (map (fun t => telem t (align (tshape t) ix)) ts) with
                                        | Some vs => f vs | None => None end))
  end.

(** ** sequences of ONNX nodes: a node reads inputs and results of earlier nodes *)
Inductive ref := In_ (k : nat) | Tmp (k : nat).
Inductive step := Const (sh : list nat) (v : val) | Node (op : string) (a : eattr) (ins : list ref).
Definition look {A} (ins tmps : list A) (r : ref) : option A :=
  match r with In_ k => nth_error ins k | Tmp k => nth_error tmps k end.
Fixpoint looks {A} (ins tmps : list A) (rs : list ref) : option (list A) :=
  match rs with [] => Some [] | r :: rs' => match look ins tmps r, looks ins tmps rs' with Some x, Some l => Some (x :: l) | _, _ => None end end.
Definition run_step (opset : nat) (ins tmps : list ten) (s : step) : option ten :=
  match s with
  | Const sh v => Some (Ten sh (fun _ => Some v))
  | Node op a rs => match looks ins tmps rs with Some ts => lift (onnx_op opset op a) ts | None => None end
  end.
Fixpoint run (opset : nat) (ins tmps : list ten) (steps : list step) : option (list ten) :=
  match steps with
  | [] => Some tmps
  | s :: steps' => match run_step opset ins tmps s with Some t => run opset ins (tmps ++ [t]) steps' | None => None end
  end.
(** the tensor a sequence of nodes computes *)
Definition result (opset : nat) (p : list step * ref) (ins : list ten) : option ten :=
  match run opset ins [] (fst p) with Some tmps => look ins tmps (snd p) | None => None end.

(** a tensor of a type *)
Definition typed (d : dtype) (t : ten) : Prop := forall ix, inb ix (tshape t) -> exists v, telem t ix = Some v /\ has_type d v.
(** the same tensor: where TensorFlow defines an element, ONNX computes the same one *)
Definition agrees (tf onnx : ten) : Prop :=
  tshape tf = tshape onnx /\
  forall ix, inb ix (tshape tf) -> forall v, telem tf ix = Some v -> exists w, telem onnx ix = Some w /\ same v w.
(** [Q] holds of the elements that meet in an element of the result *)
Definition on_elements (Q : list val -> Prop) (ins : list ten) : Prop :=
  forall sh ix vs, bcast_all (map tshape ins) = Some sh -> inb ix sh ->
    all_vals (map (fun t => telem t (align (tshape t) ix)) ins) = Some vs -> Q vs.
(** the nodes compute what the TensorFlow operator [f] computes, for all inputs that broadcast and whose elements meet [Q] *)
Definition computes (opset : nat) (p : list step * ref) (n : nat) (Q : list val -> Prop) (f : list val -> option val) : Prop :=
  forall ins tf, List.length ins = n -> lift f ins = Some tf -> on_elements Q ins ->
    exists onnx, result opset p ins = Some onnx /\ agrees tf onnx.
(** conditions on elements *)
Definition all_of (d : dtype) (vs : list val) : Prop := Forall (has_type d) vs.
(** integers a float32 represents exactly *)
Definition small_ints (vs : list val) : Prop := Forall (fun v => match v with VI _ z => (Z.abs z <= 2 ^ 24)%Z | _ => True end) vs.
Definition no_nan (vs : list val) : Prop := Forall (fun v => match v with VF _ x => is_nan x = false | _ => True end) vs.
Definition select_args (d : dtype) (vs : list val) : Prop :=
  exists c x y, vs = [VB c; x; y] /\ has_type d x /\ has_type d y.
(** the element that is not selected is no infinity and no NaN *)
Definition unselected_finite (vs : list val) : Prop :=
  match vs with
  | [VB c; x; y] => match (if c then y else x) with VF _ z => is_finite z = true | _ => True end
  | _ => True
  end.
(** ONNX Reshape of a tensor with one dimension: -1 stands for any dimension, the order of the elements stays *)
Definition reshaped (target : list Z) (c c' : ten) : Prop :=
  Forall2 (fun z d => z = Z.of_nat d \/ z = (-1)%Z) target (tshape c') /\
  Tensor.size (tshape c') = Tensor.size (tshape c) /\
  forall ix, inb ix (tshape c') -> telem c' ix = telem c [Tensor.ravel (tshape c') ix].
(** the truncated quotient of the two integers is the floor of the quotient, and does not overflow *)
Definition quotients_agree (vs : list val) : Prop :=
  match vs with
  | [VI t x; VI _ y] => ((0 <= x /\ 0 < y) \/ (x <= 0 /\ y < 0) \/ (y | x))%Z /\ (Z.quot x y <= hi t)%Z
  | _ => True
  end.
(** adding 1/2 to the number is exact, and it is not half-way between two integers *)
Definition rounds_up_exactly (vs : list val) : Prop :=
  match vs with
  | [VF f x] => (exists y : fl f, is_finite y = true /\ B2R y = B2R x + / 2)%R /\ forall z : Z, B2R x <> (IZR z + / 2)%R
  | _ => True
  end.
Definition first_not_negative (vs : list val) : Prop := match vs with VI _ x :: _ => (0 <= x)%Z | _ => True end.
