(** Cumulative products along an axis (tf.math.cumprod), and the ONNX graphs with Slice, Pad, Mul and Loop that compute them. *)
From Coq Require Import List Arith ZArith Bool.
From Verif Require Import Tensor FoldModel OnnxSpec TOps.
Import ListNotations.
Local Open Scope list_scope.

Section Values.
Context {A : Type}.
Variable mul : A -> A -> A.
Variable one : A.
(** the positions along the axis that take part in the product at position k of d *)
Definition positions (exclusive reverse : bool) (d k : nat) : list nat :=
  filter (fun p => if reverse then (if exclusive then Nat.ltb k p else Nat.leb k p) else (if exclusive then Nat.ltb p k else Nat.leb p k)) (seq 0 d).
Definition tf_cumprod (exclusive reverse : bool) (axis : nat) (x y : tensor A) : Prop :=
  wf x /\ wf y /\ shape y = shape x /\ axis < length (shape x) /\
  forall ix, inb ix (shape x) -> exists vs,
    Forall2 (fun p v => get x (set_dim axis p ix) = Some v) (positions exclusive reverse (nth axis (shape x) 0) (nth axis ix 0)) vs /\
    get y ix = Some (fold_right mul one vs).

(** ** ONNX: integer vectors, and tensors of the type of the operand *)
Inductive iexpr :=
| IVec (l : list Z)
(** the operand [axis] as a vector; the dimension of x along it (Gather of the shape) *)
| IAxis
| ILen
(** within a Loop: the number of the iteration, and the carried axis_length_plus_one *)
| IIter
| ICarried
| IAdd (a b : iexpr)
| ISub (a b : iexpr)
| INeg (a : iexpr)
(** Tile of a vector of one entry *)
| ITile (a n : iexpr)
| IConcat (l : list iexpr).
Inductive texpr :=
| TX
(** within a Loop: the carried tensor [inputs] and the accumulator *)
| TInputs
| TAcc
| TSlice (t : texpr) (starts ends axes : iexpr)
(** Pad with ones; the pads are an input, which Pad has from opset 11 on *)
| TPad (t : texpr) (pads : iexpr)
| TMul (a b : texpr)
(** [n] iterations (none if n is negative); [init] is carried as inputs and as accumulator, [carried] as axis_length_plus_one; the value is
    the last accumulator *)
| TLoop (n carried : iexpr) (init body : texpr).
Record state := St { s_inputs : option (tensor A); s_acc : option (tensor A); s_iter : option Z; s_carried : option (list Z) }.
Definition outside : state := St None None None None.
Variable opset : nat.
Variable x : tensor A.
Variable axis : Z.
Definition both (f : Z -> Z -> Z) (u v : option (list Z)) : option (list Z) := match u, v with Some [a], Some [b] => Some [f a b] | _, _ => None end.
Fixpoint ival (s : state) (e : iexpr) : option (list Z) :=
  match e with
  | IVec l => Some l
  | IAxis => Some [axis]
  | ILen => match norm_axis (length (shape x)) axis with Some k => Some [Z.of_nat (nth k (shape x) 0)] | None => None end
  | IIter => option_map (fun i => [i]) (s_iter s)
  | ICarried => s_carried s
  | IAdd a b => both Z.add (ival s a) (ival s b)
  | ISub a b => both Z.sub (ival s a) (ival s b)
  | INeg a => option_map (map Z.opp) (ival s a)
  | ITile a n => match ival s a, ival s n with Some [v], Some [n] => if (n <? 0)%Z then None else Some (repeat v (Z.to_nat n)) | _, _ => None end
  | IConcat l => (fix all l := match l with [] => Some [] | e :: l' => match ival s e, all l' with Some u, Some v => Some (u ++ v) | _, _ => None end end) l
  end.
Fixpoint tval (s : state) (e : texpr) : option (tensor A) :=
  match e with
  | TX => Some x
  | TInputs => s_inputs s
  | TAcc => s_acc s
  | TSlice t st en ax =>
      match tval s t, ival s st, ival s en, ival s ax with Some t, Some st, Some en, Some ax => if Nat.leb 10 opset then f_slice st en (Some ax) t else None | _, _, _, _ => None end
  | TPad t pads => match tval s t, ival s pads with Some t, Some pads => if Nat.leb 11 opset then f_pad one pads t else None | _, _ => None end
  | TMul a b => match tval s a, tval s b with Some a, Some b => f_binary mul a b | _, _ => None end
  | TLoop n c init body =>
      match ival s n, ival s c, tval s init with
      | Some [n], Some c, Some z =>
          (fix go (m : nat) (i : Z) (acc : tensor A) : option (tensor A) :=
             match m with
             | 0 => Some acc
             | S m' => match tval (St (Some z) (Some acc) (Some i) (Some c)) body with Some acc' => go m' (i + 1)%Z acc' | None => None end
             end) (Z.to_nat n) 0%Z z
      | _, _, _ => None
      end
  end.
End Values.
