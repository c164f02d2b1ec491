(** GlobalAveragePool, GlobalMaxPool and the reductions, from the ONNX operator documentation. *)
From Coq Require Import String List Arith ZArith Bool.
From Verif Require Import FGraph Tensor OnnxSpec NNSpec PushSpec SwitchSpec.
Import ListNotations.
Local Open Scope string_scope.
Local Open Scope list_scope.

(** input (N, C, D1, ..., Dn), output (N, C, 1, ..., 1): [agg] over all of D1 ... Dn *)
Definition global_pool_rel {A} (agg : list A -> A) (x z : tensor A) : Prop :=
  exists n c sp, wf x /\ wf z /\ shape x = n :: c :: sp /\ shape z = n :: c :: map (fun _ => 1) sp /\
  forall i j, i < n -> j < c -> exists vs, map (fun k => get x (i :: j :: k)) (indices sp) = map Some vs /\
    get z (i :: j :: map (fun _ => 0) sp) = Some (agg vs).

Section Means.
Context {A : Type}.
Notation V := (tensor A).
Variable op_rel : string -> string -> list (string * attr) -> nat -> list V -> list (list V -> list V -> Prop) -> list V -> Prop.
(** [ints] reads a tensor of integers, [of_ints] is such a tensor *)
Record pool_means (opset : nat) (ints : V -> option (list Z)) (of_ints : list Z -> V) : Prop := {
  p_reduce : forall red pool, In (red, pool) [("ReduceMean", "GlobalAveragePool"); ("ReduceMax", "GlobalMaxPool")] ->
    exists agg, means op_rel red (fun at_ ws v w => ws = [] /\
        reduce_rel agg (ints_attr "axes" at_ (map Z.of_nat (seq 0 (length (shape v))))) (negb (int_attr "keepdims" at_ 1 =? 0)%Z) v w) /\
      means op_rel pool (fun at_ ws v w => ws = [] /\ global_pool_rel agg v w);
  (** before opset 13 the axes are an attribute, then an input *)
  p_squeeze : if Nat.ltb opset 13 then exists any, means op_rel "Squeeze" (fun at_ ws v w => ws = [] /\
        if existsb (fun p => String.eqb (fst p) "axes") at_ then squeeze_rel (ints_attr "axes" at_ []) v w else any v w)
    else means op_rel "Squeeze" (fun at_ ws v w => exists a l, ws = [a] /\ ints a = Some l /\ squeeze_rel l v w);
  p_ints : forall l, ints (of_ints l) = Some l;
  p_const : forall l dom vs, op_rel "Const" dom [("value", AInts l)] 1 [] [] vs <-> vs = [of_ints l] }.
End Means.
