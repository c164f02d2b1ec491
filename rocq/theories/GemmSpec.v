(** Specification for C59: matrix products, and the groups of nodes that become a Gemm. *)
From Coq Require Import String List Arith Bool ZArith Reals.
From Verif Require Import FGraph Tensor OnnxSpec RewSpec.
Import ListNotations.
Local Open Scope string_scope. Local Open Scope list_scope. Local Open Scope nat_scope.

(** ** matrices *)
Definition elt (t : tensor R) (ix : list nat) : R := match get t ix with Some v => v | None => 0%R end.
Fixpoint sum (n : nat) (f : nat -> R) : R := match n with 0 => 0%R | S n' => (sum n' f + f n')%R end.
(** [x], transposed if [t], is an m x n matrix *)
Definition matrix (t : bool) (x : tensor R) (m n : nat) : Prop := wf x /\ shape x = if t then [n; m] else [m; n].
Definition entry (t : bool) (x : tensor R) (i j : nat) : R := elt x (if t then [j; i] else [i; j]).
Definition product (ta tb : bool) (a b : tensor R) (k i j : nat) : R := sum k (fun l => (entry ta a i l * entry tb b l j)%R).
(** TensorFlow's MatMul of two matrices *)
Definition matmul_rel (ta tb : bool) (a b y : tensor R) : Prop :=
  exists m k n, matrix ta a m k /\ matrix tb b k n /\ wf y /\ shape y = [m; n] /\
    forall i j, i < m -> j < n -> get y [i; j] = Some (product ta tb a b k i j).
(** the shape c broadcasts into the shape x without changing it *)
Definition broadcasts_into (c x : list nat) : Prop :=
  length c <= length x /\ forall k, k < length c -> nth k c 0 = 1 \/ nth k c 0 = nth (length x - length c + k) x 0.
(** ONNX Gemm: alpha * A' * B' + beta * C *)
Definition gemm_rel (ta tb : bool) (al be : R) (a b c y : tensor R) : Prop :=
  exists m k n, matrix ta a m k /\ matrix tb b k n /\ wf c /\ broadcasts_into (shape c) [m; n] /\ wf y /\ shape y = [m; n] /\
    forall i j, i < m -> j < n -> get y [i; j] = Some (al * product ta tb a b k i j + be * elt c (bcast_ix 2 (shape c) [i; j]))%R.

Section Means.
Notation V := (tensor R).
Variable op_rel : string -> string -> list (string * attr) -> nat -> list V -> list (list V -> list V -> Prop) -> list V -> Prop.
Variable cval : nat -> tensor R.
(** a factor that may be left out *)
Definition factor (key : string) (at_ : list (string * attr)) (a : R) : Prop :=
  (lookup key at_ = None /\ a = 1%R) \/ number cval key at_ a.
Definition flag (key : string) (at_ : list (string * attr)) (b : bool) : Prop :=
  exists z, lookup key at_ = Some (AInt z) /\ b = negb (Z.eqb z 0).
Record gemm_means : Prop := {
  g_const : is_op op_rel "Const" (fun at_ ins w => ins = [] /\ exists id, lookup "value" at_ = Some (ATensor id) /\ w = cval id);
  g_mul : is_op op_rel "Mul" (binary Rmult);
  g_add : is_op op_rel "Add" (binary Rplus);
  g_addv2 : is_op op_rel "AddV2" (binary Rplus);
  (** a bias has one dimension; for a matrix it is added to every row *)
  g_bias : forall dom at_ ins vs, op_rel "BiasAdd" dom at_ 1 ins [] vs ->
    exists x b w, ins = [x; b] /\ vs = [w] /\ length (shape b) = 1 /\ (length (shape x) = 2 -> elementwise_rel Rplus x b w);
  g_matmul : forall dom at_ ins vs, op_rel "MatMul" dom at_ 1 ins [] vs ->
    exists a b w, ins = [a; b] /\ vs = [w] /\
      forall ta tb, flag "transpose_a" at_ ta -> flag "transpose_b" at_ tb -> length (shape a) = 2 -> length (shape b) = 2 -> matmul_rel ta tb a b w;
  g_gemm : forall at_ a b c y ta tb al be, flag "transA" at_ ta -> flag "transB" at_ tb -> factor "alpha" at_ al -> factor "beta" at_ be ->
    gemm_rel ta tb al be a b c y -> op_rel "Gemm" "" at_ 1 [a; b; c] [] [y] }.
End Means.

(** ** groups of nodes *)
(** t is u, or u multiplied with a constant *)
Definition times (ns : list fnode) (t u : string) (o : option nat) : Prop :=
  match o with
  | None => t = u
  | Some id => exists k i at1 at2, node_at ns "Mul" i t at1 /\ pair i k u /\ node_at ns "Const" [] k at2 /\ lookup "value" at2 = Some (ATensor id)
  end.
(** y = alpha * ab + beta * c, ab a product; the constants may be missing *)
Definition gemm_group (ns : list fnode) (ab c y : string) (alpha beta : option nat) : Prop :=
  exists op i at_ l r i' at', In op ["Add"; "AddV2"; "BiasAdd"] /\ node_at ns op i y at_ /\ pair i l r /\
    times ns l ab alpha /\ times ns r c beta /\ node_at ns "MatMul" i' ab at'.
(** a known shape, -1 for an unknown dimension, fits *)
Definition conforms (sh : list Z) (s : list nat) : Prop := Forall2 (fun d n => d = (-1)%Z \/ d = Z.of_nat n) sh s.
Definition well_shaped (shapes : string -> option (list Z)) (r : env (tensor R)) : Prop := forall t sh, shapes t = Some sh -> conforms sh (shape (r t)).
(** [r'] gives all tensors of a run of the graph *)
Definition run_with {V} (op_rel : string -> string -> list (string * attr) -> nat -> list V -> list (list V -> list V -> Prop) -> list V -> Prop)
  (r : env V) (g : fgraph) (args : list V) (r' : env V) (res : list V) : Prop :=
  (forall t, ~ In t (defs g) -> r' t = r t) /\ map r' (f_ins g) = args /\ all_hold op_rel r' (f_nodes g) /\ map r' (f_outs g) = res.

Definition gemm_ops : list string := ["Add"; "AddV2"; "BiasAdd"; "Mul"; "Const"; "MatMul"].
Record gemm_ok (cval : nat -> tensor R) (go : list string) (ns : list fnode) (shapes : string -> option (list Z)) : Prop := {
  k_plain : plain gemm_ops ns;
  (** neither the result nor the product is an output of the graph *)
  k_out : forall ab c y al be, gemm_group ns ab c y al be -> ~ In y go /\ ~ In ab go;
  (** no factor of shape [1; ...] *)
  k_factor : forall ab c y al be id, gemm_group ns ab c y al be -> al = Some id \/ be = Some id -> hd 0 (shape (cval id)) = 1 -> shape (cval id) = [1];
  (** the summand has no more dimensions than the product *)
  k_rank : forall ab c y al be sh sh', gemm_group ns ab c y al be -> shapes c = Some sh -> shapes ab = Some sh' -> length sh <= length sh';
  (** a MatMul has two inputs, and both flags or none *)
  k_matmul : forall n, In n ns -> f_op n = "MatMul" -> length (f_in n) = 2 /\
    ((lookup "transpose_a" (f_attrs n) = None /\ lookup "transpose_b" (f_attrs n) = None) \/
     exists a b, lookup "transpose_a" (f_attrs n) = Some (AInt a) /\ lookup "transpose_b" (f_attrs n) = Some (AInt b)) }.
