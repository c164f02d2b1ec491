(** The band of a matrix (tf.linalg.band_part) and the ONNX graphs that mask it. *)
From Coq Require Import List Arith ZArith Bool.
From Verif Require Import Tensor FoldModel OnnxSpec TOps.
Import ListNotations.
Local Open Scope list_scope.

(** ** TensorFlow: at row i and column j; a negative bound keeps the whole triangle *)
Definition in_band (lower upper : Z) (i j : nat) : bool :=
  ((lower <? 0)%Z || (Z.of_nat i - Z.of_nat j <=? lower)%Z) && ((upper <? 0)%Z || (Z.of_nat j - Z.of_nat i <=? upper)%Z).
Definition tf_band_part {A} (zero : A) (lower upper : Z) (x y : tensor A) : Prop :=
  wf y /\ shape y = shape x /\ exists sh r c, shape x = sh ++ [r; c] /\
  forall ix i j, inb ix sh -> i < r -> j < c -> get y (ix ++ [i; j]) = if in_band lower upper i j then get x (ix ++ [i; j]) else Some zero.

(** ** ONNX *)
(** all entries of a tensor of optional values *)
Definition whole {T} (t : tensor (option T)) : option (tensor T) := option_map (Tensor (shape t)) (sequence (data t)).
(** integer Div (rounds to zero) and Mod (sign of the divisor) *)
Definition idiv (a b : Z) : option Z := if Z.eqb b 0 then None else Some (Z.quot a b).
Definition imod (a b : Z) : option Z := if Z.eqb b 0 then None else Some (a mod b)%Z.
(** CumSum of a vector along axis 0 with exclusive = 1 *)
Definition f_cumsum_exclusive (t : tensor Z) : option (tensor Z) :=
  match as_vec t with Some l => Some (zvec (map (fun k => fold_right Z.add 0%Z (firstn k l)) (seq 0 (length l)))) | None => None end.
(** EyeLike *)
Definition f_eye_like {T} (t : tensor T) : option (tensor bool) :=
  match shape t with [r; c] => build [r; c] (fun ix => match ix with [i; j] => Some (Nat.eqb i j) | _ => None end) | _ => None end.
(** ConstantOfShape *)
Definition f_constant_of_shape {T} (v : T) (sh : list Z) : option (tensor T) :=
  if forallb (fun z => (0 <=? z)%Z) sh then Some (Tensor (map Z.to_nat sh) (repeat v (size (map Z.to_nat sh)))) else None.
(** the scan output of a Loop: the values of the iterations, stacked along a new first axis; of no iterations nothing is known *)
Definition f_stack {T} (ts : list (tensor T)) : option (tensor T) :=
  match ts with
  | [] => None
  | t0 :: _ => if forallb (fun t => list_eqb (shape t) (shape t0)) ts then
      build (length ts :: shape t0) (fun ix => match ix with k :: jx => match nth_error ts k with Some t => get t jx | None => None end | [] => None end)
      else None
  end.

Inductive iexpr :=
| IConst (t : tensor Z)
(** the second and the third input *)
| ILower
| IUpper
(** Shape of the first input *)
| IShape
(** Slice along axis 0 *)
| ISlice (a : iexpr) (s e : Z)
| IMul (a b : iexpr)
| IDiv (a b : iexpr)
| IMod (a b : iexpr)
| ISub (a b : iexpr)
| INeg (a : iexpr)
| IExpand (a target : iexpr)
| ICumSum (a : iexpr)
| IReshape (a target : iexpr).
Inductive mexpr :=
| MGreater (a b : iexpr)
| MNot (a : mexpr)
| MAnd (a b : mexpr)
(** EyeLike of the first input, and of a tensor of zeros of a computed shape *)
| MEyeLike
| MEyeOf (sh : iexpr).
Inductive rexpr := RData | RMasked (m : mexpr).

Section Values.
Context {A : Type}.
Variable mul : A -> A -> A.
Variables zero one : A.
Variable x : tensor A.
Variables lower upper : Z.
Fixpoint ival (e : iexpr) : option (tensor Z) :=
  let two f a b := match ival a, ival b with Some t, Some u => f t u | _, _ => None end in
  match e with
  | IConst t => Some t
  | ILower => Some (Tensor [] [lower])
  | IUpper => Some (Tensor [] [upper])
  | IShape => Some (zvec (map Z.of_nat (shape x)))
  | ISlice a s e => obind (ival a) (f_slice [s] [e] (Some [0%Z]))
  | IMul a b => two (f_binary Z.mul) a b
  | IDiv a b => two (fun t u => obind (f_binary idiv t u) whole) a b
  | IMod a b => two (fun t u => obind (f_binary imod t u) whole) a b
  | ISub a b => two (f_binary Z.sub) a b
  | INeg a => option_map (f_unary Z.opp) (ival a)
  | IExpand a s => two (fun t u => obind (as_vec u) (fun l => f_expand l t)) a s
  | ICumSum a => obind (ival a) f_cumsum_exclusive
  | IReshape a s => two (fun t u => obind (as_vec u) (fun l => f_reshape l t)) a s
  end.
Fixpoint mval (m : mexpr) : option (tensor bool) :=
  match m with
  | MGreater a b => match ival a, ival b with Some t, Some u => f_binary Z.gtb t u | _, _ => None end
  | MNot a => option_map (f_unary negb) (mval a)
  | MAnd a b => match mval a, mval b with Some t, Some u => f_binary andb t u | _, _ => None end
  | MEyeLike => f_eye_like x
  | MEyeOf s => obind (ival s) (fun t => obind (as_vec t) (fun l => obind (f_constant_of_shape zero l) f_eye_like))
  end.
(** the mask is cast to the type of the data: false becomes 0 and true 1 *)
Definition cast (b : bool) : A := if b then one else zero.
Definition masked (m : tensor bool) : option (tensor A) := f_binary mul (f_unary cast m) x.
Definition rval (e : rexpr) : option (tensor A) := match e with RData => Some x | RMasked m => obind (mval m) masked end.
End Values.
