(** What the operators a Transpose is pushed through mean, as relations between tensors, for every choice of the
    scalar functions.  V = tensor A with one type A of scalars for all element types. *)
From Coq Require Import String List Arith ZArith Bool.
From Verif Require Import FGraph FGraphSpec Tensor OnnxSpec PushSpec.
Import ListNotations.
Local Open Scope string_scope.
Local Open Scope list_scope.

Definition int_attr (k : string) (at_ : list (string * attr)) (default : Z) : Z :=
  match find (fun p => String.eqb (fst p) k) at_ with Some (_, AInt z) => z | _ => default end.
Definition ints_attr (k : string) (at_ : list (string * attr)) (default : list Z) : list Z :=
  match find (fun p => String.eqb (fst p) k) at_ with Some (_, AInts z) => z | _ => default end.

Section Means.
Context {A : Type}.
Notation V := (tensor A).
Variable op_rel : string -> string -> list (string * attr) -> nat -> list V -> list (list V -> list V -> Prop) -> list V -> Prop.
(** an operator with one output and no body: [rel attributes (further inputs) input output] *)
Definition means (op : string) (rel : list (string * attr) -> list V -> V -> V -> Prop) : Prop :=
  forall dom at_ v ws vs, op_rel op dom at_ 1 (v :: ws) [] vs <-> exists w, vs = [w] /\ rel at_ ws v w.

Record onnx_means (opset : nat) : Prop := {
  o_transpose : means "Transpose" (fun at_ ws v w => ws = [] /\ transpose_rel (map Z.to_nat (ints_attr "perm" at_ [])) v w);
  (** Relu, Cast, Clip, ...: a function on the scalars, which may depend on attributes and further inputs *)
  o_simple : forall op, In op ["Abs"; "Cast"; "Clip"; "Elu"; "Erf"; "Exp"; "LeakyRelu"; "Log"; "Neg"; "Reciprocal"; "Relu"; "Selu"; "Sigmoid"; "Softplus"; "Sqrt"; "Tanh"] ->
    exists ok f, means op (fun at_ ws v w => ok at_ ws /\ map_rel (f at_ ws) v w);
  o_softmax : forall op, In op ["Softmax"; "LogSoftmax"] ->
    if Nat.leb 13 opset then exists h, means op (fun at_ ws v w => ws = [] /\ softmax_rel h (int_attr "axis" at_ (-1)) v w)
    else exists h, (forall v, order_free (h v)) /\ means op (fun at_ ws v w => ws = [] /\ softmax12_rel h (int_attr "axis" at_ 1) v w);
  (** the choice among equal elements depends on select_last_index *)
  o_arg : forall op, In op ["ArgMax"; "ArgMin"] ->
    exists g, means op (fun at_ ws v w => ws = [] /\
      arg_rel (g (int_attr "select_last_index" at_ 0)) (int_attr "axis" at_ 0) (negb (int_attr "keepdims" at_ 1 =? 0)%Z) v w);
  (** axes as an attribute: up to opset 17, ReduceSum up to opset 12; without axes all dimensions are reduced *)
  o_reduce : forall op, (In op ["ReduceLogSum"; "ReduceLogSumExp"; "ReduceMax"; "ReduceMean"; "ReduceMin"; "ReduceProd"; "ReduceSumSquare"] /\ opset < 18) \/ (op = "ReduceSum" /\ opset < 13) ->
    exists agg, order_free agg /\ means op (fun at_ ws v w => ws = [] /\
      reduce_rel agg (ints_attr "axes" at_ (map Z.of_nat (seq 0 (length (shape v))))) (negb (int_attr "keepdims" at_ 1 =? 0)%Z) v w);
  (** Squeeze without axes removes all dimensions 1; not used here *)
  o_squeeze : opset <= 12 -> exists any, means "Squeeze" (fun at_ ws v w => ws = [] /\
      if existsb (fun p => String.eqb (fst p) "axes") at_ then squeeze_rel (ints_attr "axes" at_ []) v w else any v w);
  o_unsqueeze : opset <= 12 -> means "Unsqueeze" (fun at_ ws v w => ws = [] /\ unsqueeze_rel (ints_attr "axes" at_ []) v w) }.
End Means.

(** the node's attributes are valid for an input of rank n *)
Definition valid_axes (r : nat) (axes : list Z) : Prop := exists ax, norm_axes r axes = Some ax /\ NoDup ax.
Definition valid_attrs (opset n : nat) (op : string) (at_ : list (string * attr)) : Prop :=
  (op = "Softmax" \/ op = "LogSoftmax" -> n <> 0 /\ if Nat.leb 13 opset then valid_axes n [int_attr "axis" at_ (-1)] else (0 <= int_attr "axis" at_ 1)%Z) /\
  (op = "ArgMax" \/ op = "ArgMin" -> valid_axes n [int_attr "axis" at_ 0]) /\
  (In op ["ReduceLogSum"; "ReduceLogSumExp"; "ReduceMax"; "ReduceMean"; "ReduceMin"; "ReduceProd"; "ReduceSumSquare"; "ReduceSum"] ->
     valid_axes n (ints_attr "axes" at_ (map Z.of_nat (seq 0 n)))) /\
  (op = "Squeeze" -> valid_axes n (ints_attr "axes" at_ [])) /\
  (op = "Unsqueeze" -> valid_axes (n + length (ints_attr "axes" at_ [])) (ints_attr "axes" at_ [])).

(** one execution of a graph: a value for every tensor name that agrees with the surroundings and the arguments and is
    consistent with every node *)
Definition executes {V} (op_rel : string -> string -> list (string * attr) -> nat -> list V -> list (list V -> list V -> Prop) -> list V -> Prop)
  (g : fgraph) (r0 : string -> V) (args : list V) (r : string -> V) : Prop :=
  (forall u, ~ In u (defs g) -> r u = r0 u) /\ map r (f_ins g) = args /\ all_hold op_rel r (f_nodes g).
(** Mul: two inputs, broadcast against each other *)
Definition mul_means {A} (op_rel : string -> string -> list (string * attr) -> nat -> list (tensor A) -> list (list (tensor A) -> list (tensor A) -> Prop) -> list (tensor A) -> Prop)
  (f : list A -> A) : Prop :=
  forall dom at_ a b vs, op_rel "Mul" dom at_ 1 [a; b] [] vs <-> exists w, vs = [w] /\ nary_rel f [a; b] w.
