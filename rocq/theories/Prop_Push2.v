(** C23, continued: Mul behind a Transpose and Transposes that do nothing, in a graph. *)
From Coq Require Import String List Arith ZArith Bool Lia.
From Verif Require Import FGraph FGraphSpec ValidCheck Tensor OnnxSpec PushSpec SwitchSpec FoldModel NNModel PushModel SwitchModel PushProofs SwitchProofs4.
Import ListNotations.
Local Open Scope nat_scope.
Local Open Scope string_scope.
Local Open Scope list_scope.

(** Mul of the Transpose with itself, with a constant scalar on either side, or with a second Transpose of the same permutation
    (which is then removed).  Results stay results; conversely results of the new graph are results of the old graph where the
    inputs of the two Transposes have the rank of the permutation (before, the Transpose would have failed otherwise). *)
Theorem C23_mul_in_graph_partial {A} op_rel (f : list A -> A) g tr nd x t y a b p n const_shape : op_ext op_rel ->
  means op_rel "Transpose" (fun at_ ws v w => ws = [] /\ transpose_rel (map Z.to_nat (ints_attr "perm" at_ [])) v w) -> mul_means op_rel f ->
  valid g -> In tr (f_nodes g) -> f_op tr = "Transpose" -> f_in tr = [x] -> f_out tr = [t] -> f_bodies tr = [] -> t <> "" -> perm_of tr = Some p -> is_perm p n ->
  In nd (f_nodes g) -> f_op nd = "Mul" -> f_in nd = [a; b] -> f_out nd = [y] -> f_bodies nd = [] -> y <> "" -> consumers t g = [nd] -> ~ In t (f_outs g) /\ ~ In y (f_outs g) ->
  (** the recorded shapes of constants are right; a multiplier of shape [1] is multiplied to something of rank 2 at least *)
  (forall w m sh r, node_of w g = Some m -> const_shape w = Some sh -> holds op_rel r m -> shape (r w) = sh /\ wf (r w)) ->
  (forall w, const_shape w = Some [1] -> 2 <= n) ->
  (** a second Transpose has one input and one output, which is no output of the graph *)
  (forall w m, In w [a; b] -> w <> t -> node_of w g = Some m -> f_op m = "Transpose" -> perm_of m = Some p ->
     f_out m = [w] /\ w <> "" /\ f_bodies m = [] /\ ~ In w (f_outs g) /\ exists z, f_in m = [z]) ->
  exists g' changed, push_mul const_shape g tr nd = Some (g', changed) /\ valid g' /\
  forall r0 args res, (body_rel op_rel r0 g args res -> body_rel op_rel r0 g' args res) /\
    ((forall r, executes op_rel g' r0 args r -> forall w z m, In w [a; b] /\ w <> t /\ node_of w g = Some m /\ f_op m = "Transpose" /\ perm_of m = Some p /\ f_in m = [z] ->
        length (shape (r x)) = n /\ wf (r z) /\ length (shape (r z)) = n) ->
     body_rel op_rel r0 g' args res -> body_rel op_rel r0 g args res).
Proof. intros. apply (push_mul_ok op_rel) with (f := f) (x := x) (t := t) (y := y); auto. Qed.
Print Assumptions C23_mul_in_graph_partial.

(** A Transpose with the identity permutation is removed, when it is no output of the graph *)
Theorem C23_useless_partial {A} op_rel g tr x t p : op_ext op_rel ->
  means op_rel "Transpose" (fun at_ ws v w => ws = [] /\ @transpose_rel A (map Z.to_nat (ints_attr "perm" at_ [])) v w) ->
  valid g -> In tr (f_nodes g) -> f_in tr = [x] -> f_out tr = [t] -> f_bodies tr = [] -> t <> "" -> x <> "" -> perm_of tr = Some p -> is_useless tr = true -> ~ In t (f_outs g) ->
  exists g', remove_useless g tr = Some g' /\ valid g' /\
  forall r0 args res, (body_rel op_rel r0 g args res -> body_rel op_rel r0 g' args res) /\
    ((forall r, executes op_rel g' r0 args r -> wf (r x) /\ length (shape (r x)) = length p) -> body_rel op_rel r0 g' args res -> body_rel op_rel r0 g args res).
Proof. intros. apply (remove_useless_ok op_rel) with (t := t); auto. Qed.
Print Assumptions C23_useless_partial.

(** *** hypotheses are met: Mul of two Transposes, of a Transpose and a scalar at its left, and of a Transpose with itself *)
Definition swap := [("perm", perm_attr [1; 0])].
Definition mul_tr := FNode "tr" "Transpose" "" swap ["x"] ["t"] [].
Definition mul_nd (a b : string) := FNode "nd" "Mul" "" [] [a; b] ["y"] [].
Definition mul_out := FNode "out" "Relu" "" [] ["y"] ["z"] [].
Definition mul_two := FGraph [mul_tr; FNode "tr2" "Transpose" "" swap ["v"] ["w"] []; mul_nd "w" "t"; mul_out] ["x"; "v"] ["z"].
Definition mul_const := FGraph [mul_tr; FNode "c" "Const" "" [] [] ["c"] []; mul_nd "c" "t"; mul_out] ["x"] ["z"].
Definition mul_self := FGraph [mul_tr; mul_nd "t" "t"; mul_out] ["x"] ["z"].
Definition scalar_c (w : string) : option (list nat) := if String.eqb w "c" then Some [1] else None.
Example mul_meets :
  (valid mul_two /\ valid mul_const /\ valid mul_self) /\ is_perm [1; 0] 2 /\
  (consumers "t" mul_two = [mul_nd "w" "t"] /\ consumers "t" mul_const = [mul_nd "c" "t"] /\ consumers "t" mul_self = [mul_nd "t" "t"]) /\
  push_mul scalar_c mul_two mul_tr (mul_nd "w" "t") =
    Some (FGraph [FNode "tr" "Transpose" "" swap ["y"] ["t"] []; mul_nd "v" "x"; FNode "out" "Relu" "" [] ["t"] ["z"] []] ["x"; "v"] ["z"], true) /\
  push_mul scalar_c mul_const mul_tr (mul_nd "c" "t") =
    Some (FGraph [FNode "tr" "Transpose" "" swap ["y"] ["t"] []; FNode "c" "Const" "" [] [] ["c"] []; mul_nd "c" "x"; FNode "out" "Relu" "" [] ["t"] ["z"] []] ["x"] ["z"], true) /\
  push_mul scalar_c mul_self mul_tr (mul_nd "t" "t") =
    Some (FGraph [FNode "tr" "Transpose" "" swap ["y"] ["t"] []; mul_nd "x" "x"; FNode "out" "Relu" "" [] ["t"] ["z"] []] ["x"] ["z"], true).
Proof.
  split; [split; [|split]; apply (valid_check_spec [("x", 0); ("v", 0); ("c", 0); ("t", 1); ("w", 1); ("y", 2); ("z", 3)]); reflexivity|].
  split; [apply Permutation.perm_swap|]. repeat split; reflexivity.
Qed.
(** operators on natural numbers that mean what is assumed; the constant is [[5]] *)
Definition product (l : list nat) : nat := fold_right Nat.mul 1 l.
Definition mul_sample : string -> string -> list (string * attr) -> nat -> list (tensor nat) -> list (list (tensor nat) -> list (tensor nat) -> Prop) -> list (tensor nat) -> Prop :=
  fun op _ at_ _ ins _ vs =>
    if String.eqb op "Transpose" then match ins with v :: ws => exists w, vs = [w] /\ ws = [] /\ transpose_rel (map Z.to_nat (ints_attr "perm" at_ [])) v w | [] => False end
    else if String.eqb op "Mul" then match ins with [a; b] => exists w, vs = [w] /\ nary_rel product [a; b] w | _ => False end
    else if String.eqb op "Const" then vs = [Tensor [1] [5]] else True.
Example mul_sample_meets : op_ext mul_sample /\
  means mul_sample "Transpose" (fun at_ ws v w => ws = [] /\ transpose_rel (map Z.to_nat (ints_attr "perm" at_ [])) v w) /\ mul_means mul_sample product /\
  (forall w m sh r, node_of w mul_const = Some m -> scalar_c w = Some sh -> holds mul_sample r m -> shape (r w) = sh /\ wf (r w)).
Proof.
  split; [intros op dom at_ k ins bs bs' vs _ H; exact H|]. split; [intros dom at_ v ws vs; reflexivity|]. split; [intros dom at_ a b vs; reflexivity|].
  intros w m sh r N S H. unfold scalar_c in S. destruct (String.eqb_spec w "c") as [->|]; [|discriminate]. injection S as <-. cbn in N. injection N as <-.
  rewrite holds_eq in H. destruct H as (vs & Hv & Pr). cbn in Hv. subst vs. specialize (Pr 0 "c" eq_refl ltac:(discriminate)). cbn in Pr. injection Pr as E. rewrite <- E. split; reflexivity.
Qed.
Example useless_meets : let g := FGraph [FNode "tr" "Transpose" "" [("perm", perm_attr [0; 1])] ["x"] ["t"] []; FNode "out" "Relu" "" [] ["t"] ["z"] []] ["x"] ["z"] in
  valid g /\ remove_useless g (FNode "tr" "Transpose" "" [("perm", perm_attr [0; 1])] ["x"] ["t"] []) = Some (FGraph [FNode "out" "Relu" "" [] ["x"] ["z"] []] ["x"] ["z"]) /\
  is_useless (FNode "tr" "Transpose" "" [("perm", perm_attr [0; 1])] ["x"] ["t"] []) = true /\ is_useless (FNode "tr" "Transpose" "" [("perm", perm_attr [1; 0])] ["x"] ["t"] []) = false.
Proof. split; [apply (valid_check_spec [("x", 0); ("t", 1); ("z", 2)]); reflexivity|repeat split; reflexivity]. Qed.

(** Where the code does not check that the tensor is no output of the graph, the graph loses its output.  The main loop
    (transpose_optimizer.py:176-183) removes a Transpose with the identity permutation wherever it is ... *)
Definition useless_out := FGraph [FNode "tr" "Transpose" "" [("perm", perm_attr [0; 1])] ["x"] ["t"] []] ["x"] ["t"].
Theorem C23_useless_output_refuted : valid useless_out /\ exists g', remove_useless useless_out (FNode "tr" "Transpose" "" [("perm", perm_attr [0; 1])] ["x"] ["t"] []) = Some g' /\ ~ valid g'.
Proof.
  split; [apply (valid_check_spec [("x", 0); ("t", 1)]); reflexivity|].
  eexists. split; [reflexivity|]. intros [rk W]. assert (G := W _ (within_refl _)). assert (K := g_outs _ _ G "t" (or_introl eq_refl)). cbn in K. intuition discriminate.
Qed.
(** ... and _mul_handler the second Transpose *)
Definition mul_two_out := FGraph [mul_tr; FNode "tr2" "Transpose" "" swap ["v"] ["w"] []; mul_nd "w" "t"; mul_out] ["x"; "v"] ["z"; "w"].
Theorem C23_mul_second_output_refuted : valid mul_two_out /\ exists g', push_mul scalar_c mul_two_out mul_tr (mul_nd "w" "t") = Some (g', true) /\ ~ valid g'.
Proof.
  split; [apply (valid_check_spec [("x", 0); ("v", 0); ("t", 1); ("w", 1); ("y", 2); ("z", 3)]); reflexivity|].
  eexists. split; [reflexivity|]. intros [rk W]. assert (G := W _ (within_refl _)). assert (K := g_outs _ _ G "w" (or_intror (or_introl eq_refl))). cbn in K. intuition discriminate.
Qed.
Print Assumptions C23_useless_output_refuted.
Print Assumptions C23_mul_second_output_refuted.
