(** What the operators that constant folding evaluates mean, from the ONNX operator documentation. *)
From Coq Require Import String List ZArith Bool.
From Verif Require Import FGraph Tensor OnnxSpec.
Import ListNotations.
Local Open Scope string_scope.
Local Open Scope list_scope.

Section S.
Variable A : Type.
(** reading an element of an integer tensor, converting to a data type, arithmetic of the element type *)
Variable ival : A -> Z.
Variable cast : Z -> A -> A.
Variable add mul sub : A -> A -> A.
Variable opset : nat.

Definition attr_of (nm : string) (at_ : list (string * attr)) : option attr :=
  match find (fun p => String.eqb (fst p) nm) at_ with Some p => Some (snd p) | None => None end.
Definition int_attr nm at_ : option Z := match attr_of nm at_ with Some (AInt z) => Some z | _ => None end.
Definition ints_attr nm at_ : option (list Z) := match attr_of nm at_ with Some (AInts l) => Some l | _ => None end.
(** a one-dimensional integer tensor holding this list *)
Definition holds_ints (t : tensor A) (l : list Z) : Prop := shape t = [length l] /\ map ival (data t) = l.
Definition flag_set nm at_ : bool := match int_attr nm at_ with Some z => negb (z =? 0)%Z | None => false end.

Inductive onnx_rel : string -> list (string * attr) -> nat -> list (tensor A) -> list (tensor A) -> Prop :=
| R_cast at_ x y to : int_attr "to" at_ = Some to -> wf x -> wf y -> shape y = shape x ->
    (forall ix, inb ix (shape x) -> exists v, get x ix = Some v /\ get y ix = Some (cast to v)) ->
    onnx_rel "Cast" at_ 1 [x] [y]
| R_transpose_perm at_ x y p : ints_attr "perm" at_ = Some p -> Forall (fun d => 0 <= d)%Z p ->
    transpose_rel (map Z.to_nat p) x y -> onnx_rel "Transpose" at_ 1 [x] [y]
| R_transpose at_ x y : ints_attr "perm" at_ = None ->
    transpose_rel (rev (seq 0 (length (shape x)))) x y -> onnx_rel "Transpose" at_ 1 [x] [y]
| R_reshape at_ x s y target : holds_ints s target -> reshape_rel (flag_set "allowzero" at_) target x y ->
    onnx_rel "Reshape" at_ 1 [x; s] [y]
| R_concat at_ xs y axis : int_attr "axis" at_ = Some axis -> concat_rel axis xs y -> onnx_rel "Concat" at_ 1 xs [y]
| R_unsqueeze_attr at_ x y axes : opset < 13 -> ints_attr "axes" at_ = Some axes -> unsqueeze_rel axes x y ->
    onnx_rel "Unsqueeze" at_ 1 [x] [y]
| R_unsqueeze at_ x a y axes : 13 <= opset -> holds_ints a axes -> unsqueeze_rel axes x y ->
    onnx_rel "Unsqueeze" at_ 1 [x; a] [y]
| R_mul at_ x1 x2 y : elementwise_rel mul x1 x2 y -> onnx_rel "Mul" at_ 1 [x1; x2] [y]
| R_add at_ x1 x2 y : elementwise_rel add x1 x2 y -> onnx_rel "Add" at_ 1 [x1; x2] [y]
| R_sub at_ x1 x2 y : elementwise_rel sub x1 x2 y -> onnx_rel "Sub" at_ 1 [x1; x2] [y]
| R_split at_ k x ys axis : axis = match int_attr "axis" at_ with Some a => a | None => 0%Z end -> length ys = k ->
    split_rel axis (match ints_attr "split" at_ with Some l => Some (map Z.to_nat l) | None => None end) x ys ->
    (forall l, ints_attr "split" at_ = Some l -> Forall (fun d => 0 <= d)%Z l) ->
    onnx_rel "Split" at_ k [x] ys
| R_split_input at_ k x s ys axis l : axis = match int_attr "axis" at_ with Some a => a | None => 0%Z end -> length ys = k ->
    holds_ints s l -> Forall (fun d => 0 <= d)%Z l -> split_rel axis (Some (map Z.to_nat l)) x ys ->
    onnx_rel "Split" at_ k [x; s] ys.

(** the operators of the model have this meaning *)
Definition evaluates (op : string) : bool :=
  existsb (String.eqb op) ["Cast"; "Transpose"; "Reshape"; "Concat"; "Unsqueeze"; "Mul"; "Add"; "Sub"; "Split"].
Definition onnx_semantics
  (op_rel : string -> string -> list (string * attr) -> nat -> list (tensor A) ->
            list (list (tensor A) -> list (tensor A) -> Prop) -> list (tensor A) -> Prop) : Prop :=
  forall op dom at_ k ins vs, evaluates op = true -> dom = "" \/ dom = "ai.onnx" ->
    (op_rel op dom at_ k ins [] vs <-> onnx_rel op at_ k ins vs).
(** the nodes covered: one output (Split: at least one), and no Reshape with allowzero *)
Definition covered (op : string) (at_ : list (string * attr)) (nout : nat) : Prop :=
  (if String.eqb op "Split" then 0 < nout else nout = 1) /\ (op = "Reshape" -> flag_set "allowzero" at_ = false).
End S.
