(** C58: fusing TensorFlow nodes into LeakyRelu and ThresholdedRelu. *)
From Coq Require Import String List Bool Arith Lia ZArith Reals Lra.
From Verif Require Import FGraph FGraphSpec Tensor OnnxSpec PushSpec DetProofs RewModel RewSpec RewProofs RewProofs3 RewProofs4 RewWitness ValidCheck.
Import ListNotations.
Local Open Scope string_scope. Local Open Scope list_scope. Local Open Scope nat_scope.

(** C58, partial: for all TensorFlow operators with their meaning over the real numbers, all graphs and all opsets, the LeakyRelu
    rewriter succeeds and the graph it leaves is valid and gives the result the graph gave, if every group max(c * x, x) has
    a scalar c, is not followed by another group, and neither its result nor its product is an output of the graph.
    Missing: those cases (refuted below), rounding, and graphs inside of control flow bodies. *)
Theorem C58_leakyrelu_partial :
  forall op_rel (cval : nat -> tensor R) (name : nat -> string) (opset : nat) (s : state) (gi go : list string),
    op_ext op_rel -> deterministic op_rel -> (forall id, wf (cval id)) -> relu_means op_rel cval ->
    let g := FGraph (s_nodes s) gi go in
    valid g -> unused name g -> plain ["Maximum"; "Mul"; "Const"] (s_nodes s) ->
    (forall x m y id, leaky_group (s_nodes s) x m y id ->
       shape (cval id) = [] /\ ~ In y go /\ ~ In m go /\
       forall x' m' y' id', leaky_group (s_nodes s) x' m' y' id' -> x <> y') ->
    exists k s', rewrite_leakyrelu cval name opset s = Some (k, s') /\
      let g' := FGraph (s_nodes s') gi go in valid g' /\ same_results op_rel g g'.
Proof.
  intros op_rel cval name opset s gi go OE DET CW RM g [rk W] [NI FR] PL H.
  apply (leaky_ok op_rel OE cval CW RM name NI gi go s rk W PL); auto.
  - intros x m y id G. exact (proj1 (H x m y id G)).
  - intros x m y id x' m' y' id' G G'. destruct (H x m y id G) as (_ & _ & _ & K). exact (K _ _ _ _ G').
  - intros x m y id G. destruct (H x m y id G) as (_ & K1 & K2 & _). auto.
Qed.
Print Assumptions C58_leakyrelu_partial.

(** C58, partial: the same for ThresholdedRelu, if in addition no group compares the wrong way round *)
Theorem C58_thresholded_relu_partial :
  forall op_rel (cval : nat -> tensor R) (name : nat -> string) (opset : nat) (s : state) (gi go : list string),
    op_ext op_rel -> deterministic op_rel -> (forall id, wf (cval id)) -> relu_means op_rel cval ->
    let g := FGraph (s_nodes s) gi go in
    valid g -> unused name g -> plain ["Mul"; "Cast"; "Greater"; "Const"] (s_nodes s) ->
    (forall x k y id, ~ threshold_group true (s_nodes s) x k y id) ->
    (forall x k y id, threshold_group false (s_nodes s) x k y id ->
       shape (cval id) = [] /\ ~ In y go /\ ~ In k go /\
       forall x' k' y' id', threshold_group false (s_nodes s) x' k' y' id' -> x <> y') ->
    exists k s', rewrite_thresholded_relu cval name opset s = Some (k, s') /\
      let g' := FGraph (s_nodes s') gi go in valid g' /\ same_results op_rel g g'.
Proof.
  intros op_rel cval name opset s gi go OE DET CW RM g [rk W] [NI FR] PL NS H.
  apply (threshold_ok op_rel OE cval CW RM name NI gi go s rk W PL); auto.
  - intros x m y id G. exact (proj1 (H x m y id G)).
  - intros x m y id x' m' y' id' G G'. destruct (H x m y id G) as (_ & _ & _ & K). exact (K _ _ _ _ G').
  - intros x m y id G. destruct (H x m y id G) as (_ & K1 & K2 & _). auto.
Qed.
Print Assumptions C58_thresholded_relu_partial.

(** ** the hypotheses are met by graphs that are changed *)
Definition st (ns : list fnode) : state := State ns no_shape no_type.
Ltac run := cbv -[Rle_dec IZR half]; destruct (Rle_dec 1 half) as [L|_]; [contradiction (half_small L)|]; try reflexivity.
Definition leaky_result : list fnode :=
  [const "c" 0; op "Identity" ["new:0"] "z"; FNode "new" "LeakyRelu" "" [("alpha", ATensor 0)] ["x"] ["new:0"] []].
Example C58_leaky_run : exists s', rewrite_leakyrelu consts names 9 (st leaky_nodes) = Some (1, s') /\ s_nodes s' = leaky_result.
Proof. eexists. split; [run|reflexivity]. Qed.
Example C58_leaky_old : rewrite_leakyrelu consts names 5 (st leaky_nodes) = Some (0, st leaky_nodes).
Proof. reflexivity. Qed.
Definition threshold_result : list fnode :=
  [const "c" 0; op "Greater" ["x"; "c"] "b"; op "Identity" ["new:0"] "z"; FNode "new" "ThresholdedRelu" "" [("alpha", ATensor 0)] ["x"] ["new:0"] []].
Example C58_threshold_run : exists s', rewrite_thresholded_relu consts names 10 (st threshold_nodes) = Some (1, s') /\ s_nodes s' = threshold_result.
Proof. eexists. split; [cbv -[half]; reflexivity|reflexivity]. Qed.
Example C58_threshold_old : rewrite_thresholded_relu consts names 9 (st threshold_nodes) = Some (0, st threshold_nodes).
Proof. reflexivity. Qed.
Example C58_leaky_applies : let g := FGraph leaky_nodes ["x"] ["z"] in
  valid g /\ unused names g /\ plain ["Maximum"; "Mul"; "Const"] leaky_nodes /\ leaky_group leaky_nodes "x" "m" "y" 0 /\
  forall x m y id, leaky_group leaky_nodes x m y id -> shape (consts id) = [] /\ ~ In y ["z"] /\ ~ In m ["z"] /\ forall x' m' y' id', leaky_group leaky_nodes x' m' y' id' -> x <> y'.
Proof.
  split; [apply (valid_check_spec [("m", 1); ("y", 2); ("z", 3); ("new:0", 1)]); reflexivity|]. split; [apply names_unused; reflexivity|].
  split; [apply plain_check; reflexivity|]. split.
  { exists "c", ["x"; "c"], ["m"; "x"], [], [], [("value", ATensor 0)]. split; [eexists; split; [right; right; left; reflexivity|auto]|]. split; [left; reflexivity|].
    split; [eexists; split; [right; left; reflexivity|auto]|]. split; [right; reflexivity|]. split; [eexists; split; [left; reflexivity|auto]|reflexivity]. }
  assert (G : forall x m y id, leaky_group leaky_nodes x m y id -> x = "x" /\ m = "m" /\ y = "y" /\ id = 0).
  { intros x m y id (c & i1 & i2 & a1 & a2 & a3 & H1 & P1 & H2 & P2 & H3 & L). nodes H1. nodes H2. nodes H3. same. cbn in L. injection L as <-.
    destruct P1 as [P1|P1]; injection P1; intros; subst; auto; discriminate. }
  intros x m y id H. destruct (G _ _ _ _ H) as (-> & -> & -> & ->). split; [reflexivity|]. split; [intros [K|[]]; discriminate K|]. split; [intros [K|[]]; discriminate K|].
  intros x' m' y' id' H'. destruct (G _ _ _ _ H') as (_ & _ & -> & _). discriminate.
Qed.
Example C58_threshold_applies : let g := FGraph threshold_nodes ["x"] ["z"] in
  valid g /\ unused names g /\ plain ["Mul"; "Cast"; "Greater"; "Const"] threshold_nodes /\ threshold_group false threshold_nodes "x" "k" "y" 0 /\
  (forall x k y id, ~ threshold_group true threshold_nodes x k y id) /\
  forall x k y id, threshold_group false threshold_nodes x k y id -> shape (consts id) = [] /\ ~ In y ["z"] /\ ~ In k ["z"] /\ forall x' k' y' id', threshold_group false threshold_nodes x' k' y' id' -> x <> y'.
Proof.
  split; [apply (valid_check_spec [("b", 1); ("k", 2); ("y", 3); ("z", 4)]); reflexivity|]. split; [apply names_unused; reflexivity|].
  split; [apply plain_check; reflexivity|]. split.
  { exists "b", "c", ["k"; "x"], [], [], [], [("value", ATensor 0)]. split; [eexists; split; [right; right; right; left; reflexivity|auto]|]. split; [left; reflexivity|].
    split; [eexists; split; [right; right; left; reflexivity|auto]|]. split; [eexists; split; [right; left; reflexivity|auto]|]. split; [eexists; split; [left; reflexivity|auto]|reflexivity]. }
  assert (G : forall sw x k y id, threshold_group sw threshold_nodes x k y id -> sw = false /\ x = "x" /\ k = "k" /\ y = "y" /\ id = 0).
  { intros sw x k y id (b & c & i1 & a1 & a2 & a3 & a4 & H1 & P1 & H2 & H3 & H4 & L). nodes H1. nodes H2. nodes H4. nodes H3. same. cbn in L. injection L as <-.
    destruct sw; [discriminate|]. same. destruct P1 as [P1|P1]; inversion P1; subst; auto 6. }
  split; [intros x k y id H; destruct (G _ _ _ _ _ H) as (K & _); discriminate K|].
  intros x m y id H. destruct (G _ _ _ _ _ H) as (_ & -> & -> & -> & ->). split; [reflexivity|]. split; [intros [K|[]]; discriminate K|]. split; [intros [K|[]]; discriminate K|].
  intros x' m' y' id' H'. destruct (G _ _ _ _ _ H') as (_ & _ & _ & -> & _). discriminate.
Qed.
(** such operators exist *)
Example C58_operators : op_ext (relu_ops consts) /\ deterministic (relu_ops consts) /\ (forall id, wf (consts id)) /\ relu_means (relu_ops consts) consts.
Proof. split; [apply relu_ops_ext|]. split; [apply relu_ops_det|]. split; [apply consts_wf|apply relu_ops_means]. Qed.
(** and the graphs give results *)
Ltac in_defs := intros t H; cbn in H; repeat (destruct H as [H|H]; [subst t; cbn; tauto|]); contradiction.
Ltac each_node := intros n H; cbn in H; repeat (destruct H as [H|H]; [subst n; eapply holds_op; [reflexivity|discriminate|]|]); try contradiction.
Lemma half_times (a : R) : (half * a)%R = (a / 2)%R.
Proof. unfold half. lra. Qed.
Example C58_leaky_result : body_rel (relu_ops consts) (env_of []) (FGraph leaky_nodes ["x"] ["z"]) [sc (-4)] [sc (-2)].
Proof.
  apply (runs_with consts [("x", (-4)%R); ("c", half); ("m", (-2)%R); ("y", (-2)%R); ("z", (-2)%R)] leaky_nodes ["x"] ["z"]); [in_defs|].
  each_node; [apply sem_const| |  |reflexivity]; try reflexivity.
  - eapply sem_mul; [reflexivity|reflexivity|cbn [snd]; unfold half; lra].
  - eapply sem_max; [reflexivity|reflexivity|cbn [snd]; symmetry; apply Rmax_left; lra].
Qed.

(** ** where it fails *)
(** two activations in a row: the second LeakyRelu reads a tensor that no longer exists, although the graph was complete *)
Theorem C58_stacked_refuted :
  let g := FGraph leaky_twice ["x"] ["z"] in
  valid g /\ fv_graph g = [] /\
  exists s', rewrite_leakyrelu consts names 9 (st leaky_twice) = Some (2, s') /\
    let g' := FGraph (s_nodes s') ["x"] ["z"] in fv_graph g' = ["y"] /\ ~ same_results (relu_ops consts) g g'.
Proof.
  split; [apply (valid_check_spec [("m", 1); ("y", 2); ("m2", 3); ("y2", 4); ("z", 5)]); reflexivity|]. split; [reflexivity|].
  eexists. split; [run|]. split; [reflexivity|]. intros SR.
  assert (B : body_rel (relu_ops consts) (env_of []) (FGraph leaky_twice ["x"] ["z"]) [sc 2] [sc 2]).
  { apply (runs_with consts [("x", 2%R); ("c", half); ("m", 1%R); ("y", 2%R); ("m2", 1%R); ("y2", 2%R); ("z", 2%R)] leaky_twice ["x"] ["z"]); [in_defs|].
    assert (E1 : (1 = half * 2)%R) by (unfold half; lra). assert (E2 : (2 = Rmax 1 2)%R) by (symmetry; apply Rmax_right; lra).
    each_node; [apply sem_const| | | | |reflexivity]; try reflexivity; first [eapply sem_mul; [reflexivity|reflexivity|exact E1]|eapply sem_max; [reflexivity|reflexivity|exact E2]]. }
  pose proof (proj2 (SR _ _ _ B _) eq_refl) as B'. apply body_rel_eq in B'. destruct B' as (r & R0 & R1 & R2 & R3).
  assert (Y : r "y" = sc 0). { rewrite R0; [reflexivity|]. cbn. intros K. repeat (destruct K as [K|K]; [discriminate K|]). exact K. }
  assert (N1 := R2 _ (or_intror (or_intror (or_intror (or_introl eq_refl))))).
  assert (N2 := R2 _ (or_intror (or_introl eq_refl))).
  apply holds_op_inv in N1; [|discriminate]. apply holds_op_inv in N2; [|discriminate].
  destruct N1 as (x & a & E & _ & M). injection E as <-. rewrite Y in M. apply map_sc in M. cbn [map] in N2. injection N2 as N2. injection R3 as R3.
  rewrite M, R3 in N2. unfold leaky_relu in N2. destruct (Rlt_dec 0 0); [lra|]. injection N2 as N2. lra.
Qed.
Print Assumptions C58_stacked_refuted.

(** c > x, the comparison the other way round, is taken for x > c, because inputs are tried in every order *)
Theorem C58_swapped_refuted :
  let g := FGraph threshold_swapped ["x"] ["z"] in
  valid g /\ exists s', rewrite_thresholded_relu consts names 10 (st threshold_swapped) = Some (1, s') /\
    let g' := FGraph (s_nodes s') ["x"] ["z"] in
    valid g' /\ body_rel (relu_ops consts) (env_of []) g [sc 1] [sc 0] /\ body_rel (relu_ops consts) (env_of []) g' [sc 1] [sc 1].
Proof.
  split; [apply (valid_check_spec [("b", 1); ("k", 2); ("y", 3); ("z", 4)]); reflexivity|]. eexists. split; [cbv -[half]; reflexivity|].
  split; [apply (valid_check_spec [("b", 1); ("new:0", 3); ("z", 4)]); reflexivity|].
  assert (G : greater half 1 = 0%R) by (unfold greater, half; destruct (Rlt_dec 1 (1 / 2)); lra).
  split.
  - apply (runs_with consts [("x", 1%R); ("c", half); ("b", 0%R); ("k", 0%R); ("y", 0%R); ("z", 0%R)] threshold_swapped ["x"] ["z"]); [in_defs|].
    each_node; [apply sem_const; reflexivity| |reflexivity| |reflexivity].
    + eapply sem_greater; [reflexivity|reflexivity|symmetry; exact G].
    + eapply sem_mul; [reflexivity|reflexivity|cbn [snd]; lra].
  - cbn [s_nodes]. match goal with |- body_rel _ _ (FGraph ?l _ _) _ _ => set (ns := l) end.
    apply (runs_with consts [("x", 1%R); ("c", half); ("b", 0%R); ("new:0", 1%R); ("z", 1%R)] ns ["x"] ["z"]); [in_defs|].
    each_node; [apply sem_const; reflexivity| |reflexivity|].
    + eapply sem_greater; [reflexivity|reflexivity|symmetry; exact G].
    + exists (sc 1), half. split; [reflexivity|]. split; [exists 0; split; reflexivity|].
      assert (E : thresholded_relu half 1 = 1%R) by (unfold thresholded_relu; destruct (Rlt_dec half 1); [reflexivity|unfold half in *; lra]).
      change (map_rel (thresholded_relu half) (sc 1) (sc 1)). rewrite <- E at 2. apply sc_map.
Qed.
Print Assumptions C58_swapped_refuted.

(** an alpha of shape [1] is an exception, although the graph is fine *)
Definition leaky_vector : list fnode := [const "c" 1; op "Mul" ["x"; "c"] "m"; op "Maximum" ["m"; "x"] "y"; op "Identity" ["y"] "z"].
Theorem C58_alpha_vector_refuted : valid (FGraph leaky_vector ["x"] ["z"]) /\ rewrite_leakyrelu consts names 9 (st leaky_vector) = None.
Proof. split; [apply (valid_check_spec [("m", 1); ("y", 2); ("z", 3)]); reflexivity|reflexivity]. Qed.
(** a theta of shape [1] becomes a list attribute *)
Definition threshold_vector : list fnode :=
  [const "c" 1; op "Greater" ["x"; "c"] "b"; op "Cast" ["b"] "k"; op "Mul" ["k"; "x"] "y"; op "Identity" ["y"] "z"].
Theorem C58_theta_vector_refuted : exists s', rewrite_thresholded_relu consts names 10 (st threshold_vector) = Some (1, s') /\
  In (FNode "new" "ThresholdedRelu" "" [("alpha", AStr "list")] ["x"] ["new:0"] []) (s_nodes s') /\
  forall r args res, ~ body_rel (relu_ops consts) r (FGraph (s_nodes s') ["x"] ["z"]) args res.
Proof.
  eexists. split; [cbv -[half]; reflexivity|]. cbn [s_nodes]. split; [right; right; right; left; reflexivity|].
  intros r args res B. apply body_rel_eq in B. destruct B as (r' & _ & _ & H & _). specialize (H _ (or_intror (or_intror (or_intror (or_introl eq_refl))))).
  apply holds_op_inv in H; [|discriminate]. destruct H as (x & a & _ & (id & L & _) & _). discriminate L.
Qed.
(** a group whose result is an output of the graph: the output is gone *)
Theorem C58_output_removed_refuted :
  valid (FGraph leaky_nodes ["x"] ["y"]) /\ exists s', rewrite_leakyrelu consts names 9 (st leaky_nodes) = Some (1, s') /\
    ~ In "y" (defs (FGraph (s_nodes s') ["x"] ["y"])) /\ ~ valid (FGraph (s_nodes s') ["x"] ["y"]).
Proof.
  split; [apply (valid_check_spec [("m", 1); ("y", 2); ("z", 3)]); reflexivity|]. eexists. split; [run|]. cbn [s_nodes].
  match goal with |- ~ In ?y (defs ?g) /\ _ => assert (N : ~ In y (defs g)) end. { cbn. intros K. repeat (destruct K as [K|K]; [discriminate K|]). exact K. }
  split; [exact N|]. intros [rk W]. apply N. apply (g_outs rk _ (W _ (within_refl _))). left. reflexivity.
Qed.
Print Assumptions C58_alpha_vector_refuted.
Print Assumptions C58_theta_vector_refuted.
Print Assumptions C58_output_removed_refuted.
