(** tf.range, numpy.arange, and the ONNX operators Range and Loop (for a loop with one variable and one scan output), from
    their documentation; numbers as in ElemSpec. *)
From Coq Require Import ZArith List Bool String.
From Flocq Require Import Core BinarySingleNaN.
From Verif Require Import ElemSpec.
Import ListNotations.
Local Open Scope list_scope.
Local Open Scope Z_scope.

(** the smallest integer that is at least a / b (b not 0) *)
Definition ceil_div (a b : Z) : Z := - ((- a) / b).
(** the numbers start + i * delta, i = 0 .. n - 1 *)
Definition progression (t : ity) (start delta : Z) (n : Z) : list val := map (fun i => VI t (start + Z.of_nat i * delta)) (seq 0 (Z.to_nat n)).

(** tf.range on integers: from start by steps of delta up to but not including limit *)
Definition tf_range_ints (t : ity) (start limit delta : Z) : option (list val) :=
  if Z.eqb delta 0 then None
  else if Z.ltb 0 delta then if Z.leb start limit then Some (progression t start delta (ceil_div (limit - start) delta)) else None
  else if Z.leb limit start then Some (progression t start delta (ceil_div (limit - start) delta)) else None.
(** on floats (the CPU kernel): ceil(|(limit - start) / delta|) numbers, each the sum of the one before and delta *)
Fixpoint summed {f} (n : nat) (x delta : fl f) : list val := match n with O => [] | S n' => VF f x :: summed n' (add x delta) delta end.
Definition tf_range_floats {f} (start limit delta : fl f) : option (list val) :=
  let q := Babs (div (sub limit start) delta) in
  if Beqb delta fzero || is_nan delta || negb (is_finite q)
     || (Bltb fzero delta && Bltb limit start) || (Bltb delta fzero && Bltb start limit) || Z.ltb (hi I64) (Btrunc (to_int mode_UP q)) then None
  else Some (summed (Z.to_nat (Btrunc (to_int mode_UP q))) start delta).

(** numpy.arange on integers: the difference in the type of the numbers, then ceil of the float64 quotient *)
Definition np_arange_ints (t : ity) (start limit delta : Z) : option (list val) :=
  if Z.eqb delta 0 then None
  else Some (progression t start delta (Btrunc (to_int mode_UP (div (of_Z F64 (wrap t (limit - start))) (of_Z F64 delta))))).

(** ONNX Range on integers: max(ceil((limit - start) / delta), 0) numbers *)
Definition onnx_range_ints (t : ity) (start limit delta : Z) : option (list val) :=
  if Z.eqb delta 0 then None else Some (progression t start delta (Z.max (ceil_div (limit - start) delta) 0)).

(** ** scalars through sequences of nodes, and ONNX Loop *)
Definition scalar (v : val) : ten := Ten [] (fun _ => Some v).
Definition scalar_result (opset : nat) (p : list step * ref) (ins : list val) : option val :=
  match result opset p (map scalar ins) with Some t => match tshape t with [] => telem t [] | _ => None end | None => None end.
(** Loop with a condition that stays true: the body maps the loop variable to the next one and to a scan output *)
Fixpoint loop (body : val -> option (val * val)) (n : nat) (v : val) : option (list val) :=
  match n with
  | O => Some []
  | S n' => match body v with
            | Some (v', row) => option_map (cons row) (loop body n' v')
            | None => None
            end
  end.
(** a Loop whose number of iterations is computed by [trip], whose variable starts with [start], and whose body computes
    the next value [current] and the scan output [scan] from the variable and delta *)
Definition run_loop (opset : nat) (trip current scan : list step * ref) (start limit delta : val) : option (list val) :=
  match scalar_result opset trip [start; limit; delta] with
  | Some (VI I64 n) =>
      loop (fun prev => match scalar_result opset current [prev; delta], scalar_result opset scan [prev; delta] with
                        | Some v, Some row => Some (v, row) | _, _ => None end) (Z.to_nat n) start
  | _ => None
  end.
