(** What the operators of a shape computation mean on integer tensors, from the ONNX operator documentation, and what
    the optimised nodes compute.  Independent of the code under study. *)
From Coq Require Import String List Arith ZArith Bool.
From Verif Require Import FGraph Tensor OnnxSpec PushSpec.
Import ListNotations.
Local Open Scope string_scope.
Local Open Scope list_scope.

Definition attr_ints (k : string) (at_ : list (string * attr)) : option (list Z) :=
  match find (fun p => String.eqb (fst p) k) at_ with Some (_, AInts l) => Some l | _ => None end.
Definition attr_int (k : string) (at_ : list (string * attr)) (default : Z) : Z :=
  match find (fun p => String.eqb (fst p) k) at_ with Some (_, AInt z) => z | _ => default end.
(** a one-dimensional tensor *)
Definition vector (t : tensor Z) (l : list Z) : Prop := t = Tensor [length l] l.
(** Gather: the indices replace one axis; negative indices count from the end *)
Definition gather_axis_rel {A} (axis : Z) (x : tensor A) (idx : tensor Z) (y : tensor A) : Prop :=
  wf x /\ wf idx /\ wf y /\ exists ax, norm_axis (length (shape x)) axis = Some ax /\
  shape y = firstn ax (shape x) ++ shape idx ++ skipn (S ax) (shape x) /\
  forall pre mid suf, length pre = ax -> length mid = length (shape idx) -> inb (pre ++ mid ++ suf) (shape y) ->
    exists z k, get idx mid = Some z /\ norm_axis (nth ax (shape x) 0) z = Some k /\ get y (pre ++ mid ++ suf) = get x (pre ++ k :: suf).
Definition product (l : list Z) : Z := fold_right Z.mul 1%Z l.

(** one shape operator applied to integer tensors; [opset] decides whether parameters are attributes or inputs;
    [cast] is the conversion to an element type; [cval] the value of a constant node *)
Section Ops.
Variable opset : nat.
Variable cval : list (string * attr) -> option (tensor Z).
Variable cast : Z -> Z -> Z.
(** ReduceProd without axes reduces all dimensions *)
Definition reduced (x : tensor Z) (axes : list Z) : list Z := match axes with [] => map Z.of_nat (seq 0 (length (shape x))) | _ => axes end.
Inductive shape_op (at_ : list (string * attr)) : string -> list (tensor Z) -> tensor Z -> Prop :=
| S_unsqueeze_attr x axes y : opset < 13 -> attr_ints "axes" at_ = Some axes -> unsqueeze_rel axes x y -> shape_op at_ "Unsqueeze" [x] y
| S_unsqueeze x a axes y : 13 <= opset -> vector a axes -> unsqueeze_rel axes x y -> shape_op at_ "Unsqueeze" [x; a] y
| S_squeeze_attr x axes y : opset < 13 -> attr_ints "axes" at_ = Some axes -> squeeze_rel axes x y -> shape_op at_ "Squeeze" [x] y
| S_squeeze x a axes y : 13 <= opset -> vector a axes -> squeeze_rel axes x y -> shape_op at_ "Squeeze" [x; a] y
| S_gather x i y : gather_axis_rel (attr_int "axis" at_ 0) x i y -> shape_op at_ "Gather" [x; i] y
| S_mul x1 x2 y : elementwise_rel Z.mul x1 x2 y -> shape_op at_ "Mul" [x1; x2] y
| S_reduceprod_attr x axes y : opset < 18 -> attr_ints "axes" at_ = Some axes ->
    reduce_rel product (reduced x axes) (negb (attr_int "keepdims" at_ 1 =? 0)%Z) x y -> shape_op at_ "ReduceProd" [x] y
| S_reduceprod x a axes y : 18 <= opset -> vector a axes ->
    reduce_rel product (reduced x axes) (negb (attr_int "keepdims" at_ 1 =? 0)%Z) x y -> shape_op at_ "ReduceProd" [x; a] y
| S_slice x ins starts ends axes steps y : length ends = length starts -> length axes = length starts -> length steps = length starts ->
    (if Nat.ltb opset 10 then ins = [] /\ attr_ints "starts" at_ = Some starts /\ attr_ints "ends" at_ = Some ends /\
        (attr_ints "axes" at_ = Some axes \/ attr_ints "axes" at_ = None /\ axes = map Z.of_nat (seq 0 (length starts))) /\
        steps = repeat 1%Z (length starts)
     else exists s e opt, ins = s :: e :: opt /\ vector s starts /\ vector e ends /\
        match opt with
        | [] => axes = map Z.of_nat (seq 0 (length starts)) /\ steps = repeat 1%Z (length starts)
        | [a] => vector a axes /\ steps = repeat 1%Z (length starts)
        | [a; t] => vector a axes /\ vector t steps
        | _ => False
        end) ->
    slice_rel (combine axes (combine (combine starts ends) steps)) x y -> shape_op at_ "Slice" (x :: ins) y
| S_cast x y : map_rel (cast (attr_int "to" at_ 0)) x y -> shape_op at_ "Cast" [x] y
| S_concat xs y : concat_rel (attr_int "axis" at_ 0) xs y -> shape_op at_ "Concat" xs y
| S_const y : cval at_ = Some y -> wf y -> shape_op at_ "Const" [] y.
End Ops.

(** the operators applied to tensors with scalars of any type, in which the integers are [num z] *)
Definition retype {A} (num : Z -> A) (t : tensor Z) : tensor A := Tensor (shape t) (map num (data t)).
Definition shape_ops : list string := ["Unsqueeze"; "Squeeze"; "Gather"; "Mul"; "ReduceProd"; "Slice"; "Cast"; "Concat"; "Const"].
Definition dims_of {A} (x : tensor A) : tensor Z := Tensor [length (shape x)] (map Z.of_nat (shape x)).
Record shape_semantics {A} (num : Z -> A) (opset : nat) cval cast
  (op_rel : string -> string -> list (string * attr) -> nat -> list (tensor A) -> list (list (tensor A) -> list (tensor A) -> Prop) -> list (tensor A) -> Prop) : Prop := {
  ss_num : forall z z', num z = num z' -> z = z';
  ss_op : forall op dom at_ xs vs, In op shape_ops -> op_rel op dom at_ 1 (map (retype num) xs) [] vs ->
            exists y, vs = [retype num y] /\ shape_op opset cval cast at_ op xs y;
  ss_shape : forall dom x vs, op_rel "Shape" dom [] 1 [x] [] vs -> vs = [retype num (dims_of x)];
  ss_reshape : forall dom at_ x t vs, op_rel "Reshape" dom at_ 1 [x; t] [] vs -> attr_int "allowzero" at_ 0 = 0%Z ->
            exists target y, t = retype num (Tensor [length target] target) /\ vs = [y] /\ reshape_rel false target x y }.

(** a runtime shape has the known dimensions (-1 = unknown) *)
Definition has_shape {A} (known : list Z) (x : tensor A) : Prop :=
  wf x /\ Forall2 (fun k d => k = (-1)%Z \/ k = Z.of_nat d) known (shape x).
(** what the optimised nodes compute: Reshape to the constant [new_shape]; for a positive shift the first [shift]
    dimensions are squeezed away afterwards, for a negative one as many are inserted in front before *)
Definition range (n : Z) : list Z := map Z.of_nat (seq 0 (Z.to_nat n)).
Definition optimised {A} (shift : Z) (new_shape : list Z) (x y : tensor A) : Prop :=
  exists x' y', (if (shift <? 0)%Z then unsqueeze_rel (range (- shift)) x x' else x' = x) /\
    reshape_rel false new_shape x' y' /\
    (if (0 <? shift)%Z then squeeze_rel (range shift) y' y else y = y').

(** cases in which the symbolic execution is right.  [xs]: the values of the inputs at run time. *)
Definition axes_value (opset since : nat) (at_ : list (string * attr)) (xs : list (tensor Z)) : list Z :=
  if Nat.ltb opset since then match attr_ints "axes" at_ with Some l => l | None => [] end else match xs with [_; a] => data a | _ => [] end.
(** a tensor that is computed from constants alone, or by no node *)
Inductive constant_tensor (nodes : list fnode) (t : string) : Prop :=
| Constant_tensor : (forall n, In n nodes -> In t (f_out n) -> In (f_op n) shape_ops /\ forall i, In i (f_in n) -> constant_tensor nodes i) -> constant_tensor nodes t.
(** [constants]: the inputs are computed from constants alone *)
Definition plain (opset : nat) (cast : Z -> Z -> Z) (constants : Prop) (op : string) (at_ : list (string * attr)) (xs : list (tensor Z)) : Prop :=
  (op = "Squeeze" -> Forall (fun a => 0 <= a)%Z (axes_value opset 13 at_ xs)) /\
  (op = "ReduceProd" -> axes_value opset 18 at_ xs <> []) /\
  (op = "Cast" -> constants \/ forall x z, In x xs -> In z (data x) -> cast (attr_int "to" at_ 0) z = z) /\
  (op = "Slice" -> match xs with
    | [x; starts; _; axes; steps] => forall q s st a k, nth_error (data starts) q = Some s -> nth_error (data steps) q = Some st ->
        nth_error (data axes) q = Some a -> norm_axis (length (shape x)) a = Some k -> (0 < st \/ - Z.of_nat (nth k (shape x) 0%nat) <= s)%Z
    | _ => True
    end).
