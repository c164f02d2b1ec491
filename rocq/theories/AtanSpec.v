(** The angle of a point, and the elementwise ONNX operators that the converter of Atan2 uses, over the real numbers. *)
From Coq Require Import Reals List Arith String.
Import ListNotations.
Local Open Scope R_scope.

(** ** TensorFlow: tf.atan2(y, x) is the angle of the point (x, y), in (-pi, pi]; 0 for the origin *)
Definition is_angle (y x a : R) : Prop :=
  let r := sqrt (x * x + y * y) in x = r * cos a /\ y = r * sin a /\ - PI < a <= PI /\ (x = 0 -> y = 0 -> a = 0).

(** ** ONNX: an element of a tensor, with the rank of the tensor.  The rank of a result is that of the larger operand *)
Inductive binary := BAdd | BSub | BMul | BDiv.
Inductive aexpr := AIn (s : string) | AConst (rank : nat) (v : R) | ABin (b : binary) (e1 e2 : aexpr) | ASign (e : aexpr) | AAtan (e : aexpr).
Definition sign (v : R) : R := match total_order_T v 0 with inleft (left _) => -1 | inleft (right _) => 0 | inright _ => 1 end.
(** a division by 0 is no number *)
Definition bin (b : binary) (u v : R) : option R :=
  match b with BAdd => Some (u + v) | BSub => Some (u - v) | BMul => Some (u * v) | BDiv => if Req_EM_T v 0 then None else Some (u / v) end.
Fixpoint avalue (env : string -> option R) (e : aexpr) : option R :=
  match e with
  | AIn s => env s
  | AConst _ v => Some v
  | ABin b e1 e2 => match avalue env e1, avalue env e2 with Some u, Some v => bin b u v | _, _ => None end
  | ASign e => option_map sign (avalue env e)
  | AAtan e => option_map atan (avalue env e)
  end.
Fixpoint arank (ranks : string -> nat) (e : aexpr) : nat :=
  match e with
  | AIn s => ranks s
  | AConst r _ => r
  | ABin _ e1 e2 => Nat.max (arank ranks e1) (arank ranks e2)
  | ASign e | AAtan e => arank ranks e
  end.
