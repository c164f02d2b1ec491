(** C59: fusing a matrix product and a sum into Gemm. *)
From Coq Require Import String List Bool Arith Lia ZArith Reals Lra.
From Verif Require Import FGraph FGraphSpec Tensor OnnxSpec PushSpec RewriteProofs DetProofs RewModel RewSpec RewProofs GemmSpec GemmProofs GemmProofs2 RewWitness GemmWitness ValidCheck.
Import ListNotations.
Local Open Scope string_scope. Local Open Scope list_scope. Local Open Scope nat_scope.

(** C59, partial: for all operators with their meaning over the real numbers, all graphs with any known shapes and types, and all
    opsets, the five patterns of the Gemm rewriter succeed one after the other and leave a valid graph that gives the result of every
    run of the old graph in which the tensors have the shapes that are known ([gemm_ok]: group results and products are not
    outputs of the graph - Graph.__init__ puts an Identity before every output -, no factor of shape [1, ...], and the summand has no
    more dimensions than the product).  Missing: those cases (refuted below), rounding, graphs inside of control flow bodies. *)
Theorem C59_gemm_partial :
  forall op_rel (cval : nat -> tensor R) (name : nat -> string) (opset : nat) (s : state) (gi go : list string),
    op_ext op_rel -> deterministic op_rel -> (forall id, wf (cval id)) -> gemm_means op_rel cval ->
    let g := FGraph (s_nodes s) gi go in
    valid g -> unused name g -> gemm_ok cval go (s_nodes s) (s_shape s) ->
    exists k s', rewrite_gemm cval name opset s = Some (k, s') /\
      let g' := FGraph (s_nodes s') gi go in
      valid g' /\ forall r args all res, run_with op_rel r g args all res -> well_shaped (s_shape s) all ->
        forall res', body_rel op_rel r g' args res' <-> res' = res.
Proof.
  intros op_rel cval name opset s gi go OE DET CW GM g V [NI FR] K. exact (gemm_all op_rel OE cval CW GM name NI gi go DET opset s V K FR).
Qed.
Print Assumptions C59_gemm_partial.

(** ** the hypotheses are met by a graph that is changed *)
Definition dense_result : list fnode :=
  [matmul "new':0" "w" "q"; const "k" 0; op "Mul" ["k"; "q"] "kq"; op "Identity" ["new:0"] "o";
   FNode "new" "Gemm" "" [("alpha", ATensor 0); ("transA", AInt 0); ("transB", AInt 0)] ["new':0"; "w"; "b"] ["new:0"] [];
   FNode "new'" "Gemm" "" [("transA", AInt 0); ("transB", AInt 0)] ["x"; "w"; "b"] ["new':0"] []].
Example C59_dense_run : exists s', rewrite_gemm factors names 9 (State dense small floats) = Some (2, s') /\ s_nodes s' = dense_result.
Proof. eexists. split; [cbv -[IZR]; reflexivity|reflexivity]. Qed.
Example C59_dense_old : rewrite_gemm factors names 6 (State dense small floats) = Some (0, State dense small floats).
Proof. reflexivity. Qed.
(** other types and unknown shapes are left alone *)
Example C59_not_float : exists s', rewrite_gemm factors names 9 (State dense small (fun _ => Some 11%Z)) = Some (0, s') /\ s_nodes s' = dense.
Proof. eexists. split; [cbv -[IZR]; reflexivity|reflexivity]. Qed.
Example C59_no_shape : exists s', rewrite_gemm factors names 9 (State dense (fun _ => None) floats) = Some (0, s') /\ s_nodes s' = dense.
Proof. eexists. split; [cbv -[IZR]; reflexivity|reflexivity]. Qed.
Ltac group H := destruct H as (op0 & i & at0 & l & r & i' & at' & O & N1 & P1 & T1 & T2 & N2); nodes N1; nodes N2; same;
  destruct P1 as [P1|P1]; inversion P1; subst; clear P1.
Ltac factor H o := let k := fresh "k" in let M1 := fresh "M" in let M2 := fresh "M" in let P := fresh "P" in let L := fresh "L" in
  destruct o as [?id|]; cbn [times] in H; [destruct H as (k & ?i & ?a1 & ?a2 & M1 & P & M2 & L); nodes M1; nodes M2; same; destruct P as [P|P]; inversion P; subst; cbn in L; try discriminate L|try discriminate H].
Lemma dense_groups ab c y al be : gemm_group dense ab c y al be -> (ab = "p" /\ c = "b" /\ y = "y" /\ al = None /\ be = None) \/ (ab = "q" /\ c = "b" /\ y = "z" /\ al = Some 0 /\ be = None).
Proof. intros H. group H; factor T1 al; factor T2 be; subst; auto; try discriminate; try (injection L as <-); auto 8. destruct O as [O|[O|[O|[]]]]; discriminate O. Qed.
Example C59_dense_applies : let g := FGraph dense ["x"; "w"; "b"] ["o"] in
  valid g /\ unused names g /\ gemm_ok factors ["o"] dense small /\ gemm_group dense "q" "b" "z" (Some 0) None.
Proof.
  split; [apply (valid_check_spec [("p", 1); ("y", 2); ("q", 3); ("kq", 4); ("z", 5); ("o", 6)]); reflexivity|]. split; [apply names_unused; reflexivity|]. split.
  - constructor.
    + apply plain_check. reflexivity.
    + intros ab c y al be H. apply dense_groups in H. destruct H as [(-> & _ & -> & _)|(-> & _ & -> & _)]; split; intros [K|[]]; discriminate K.
    + intros ab c y al be id H E. apply dense_groups in H. destruct H as [(_ & _ & _ & -> & ->)|(_ & _ & _ & -> & ->)], E as [E|E]; try discriminate E. injection E as <-. cbn. discriminate.
    + intros ab c y al be sh sh' H E E'. apply dense_groups in H. destruct H as [(-> & -> & _)|(-> & -> & _)]; cbv in E, E'; injection E as <-; injection E' as <-; cbn; lia.
    + intros n H Ho. unfold dense in H. cbn in H. repeat (destruct H as [H|H]; [subst n; cbn in *; try discriminate Ho; (split; [reflexivity|right; eauto])|]). contradiction.
  - exists "AddV2", ["b"; "kq"], [], "kq", "b", ["y"; "w"], [("transpose_a", AInt 0); ("transpose_b", AInt 0)]. split; [right; left; reflexivity|].
    split; [eexists; split; [do 5 right; left; reflexivity|auto]|]. split; [right; reflexivity|]. split; [|split; [reflexivity|eexists; split; [do 2 right; left; reflexivity|auto]]].
    exists "k", ["k"; "q"], [], [("value", ATensor 0)]. split; [eexists; split; [do 4 right; left; reflexivity|auto]|]. split; [left; reflexivity|]. split; [eexists; split; [do 3 right; left; reflexivity|auto]|reflexivity].
Qed.
Example C59_operators : op_ext (gemm_op_rel factors) /\ deterministic (gemm_op_rel factors) /\ (forall id, wf (factors id)) /\ gemm_means (gemm_op_rel factors) factors.
Proof. split; [apply gemm_op_ext|]. split; [apply gemm_op_det|]. split; [intros [|id]; reflexivity|apply gemm_op_means]. Qed.
(** 2 * ((5 * 3 + 1) * 3) + 1 = 97 *)
Definition dense_env : env (tensor R) :=
  tenv [("x", m1 5); ("w", m1 3); ("b", v1 1); ("p", m1 15); ("y", m1 16); ("q", m1 48); ("k", sc 2); ("kq", m1 96); ("z", m1 97); ("o", m1 97)].
Ltac flags := split; [exists 0%Z; split; reflexivity|split; [exists 0%Z; split; reflexivity|]].
Lemma conforms11 : conforms [1%Z; 1%Z] [1; 1].
Proof. constructor; [right; reflexivity|constructor; [right; reflexivity|constructor]]. Qed.
Lemma conforms1 : conforms [1%Z] [1].
Proof. constructor; [right; reflexivity|constructor]. Qed.
Example C59_dense_result : run_with (gemm_op_rel factors) (tenv []) (FGraph dense ["x"; "w"; "b"] ["o"]) [m1 5; m1 3; v1 1] dense_env [m1 97] /\ well_shaped small dense_env.
Proof.
  split.
  - split; [|split; [reflexivity|split; [|reflexivity]]].
    + intros t Ht. unfold dense_env, tenv. cbn [find fst]. repeat match goal with |- context [String.eqb ?a t] => destruct (String.eqb_spec a t); [exfalso; apply Ht; subst t; cbn; tauto|] end. reflexivity.
    + intros n H. cbn [f_nodes] in H. unfold dense in H. cbn in H. repeat (destruct H as [H|H]; [subst n; apply gholds; [discriminate|]|]); try contradiction.
      * exists (m1 5), (m1 3), false, false. split; [reflexivity|]. flags. apply m1_matmul. lra.
      * apply (m1_add Rplus). lra.
      * exists (m1 16), (m1 3), false, false. split; [reflexivity|]. flags. apply m1_matmul. lra.
      * split; [reflexivity|]. exists 0. split; reflexivity.
      * apply (m1_mul Rmult). lra.
      * apply (m1_add' Rplus). lra.
      * reflexivity.
  - intros t sh E. unfold small in E. destruct (mem t ["x"; "w"; "p"; "y"; "q"; "kq"; "z"; "o"]) eqn:K.
    + injection E as <-. unfold mem in K. apply existsb_exists in K. destruct K as (u & Hu & K). apply String.eqb_eq in K. subst u. cbn in Hu.
      repeat (destruct Hu as [Hu|Hu]; [subst t; apply conforms11|]). contradiction.
    + destruct (String.eqb_spec t "b") as [->|]; [|discriminate E]. injection E as <-. apply conforms1.
Qed.

(** the result of one layer is the summand of the next one: that one is left alone, as the tensor has no shape any more *)
Lemma residual_groups ab c y al be : gemm_group residual ab c y al be -> (ab = "p" /\ c = "b" /\ y = "y" /\ al = None /\ be = None) \/ (ab = "q" /\ c = "y" /\ y = "z" /\ al = None /\ be = None).
Proof. intros H. group H; factor T1 al; factor T2 be; subst; auto 8; try discriminate. Qed.
Example C59_residual : let g := FGraph residual ["x"; "w"; "b"] ["o"] in
  valid g /\ gemm_ok factors ["o"] residual small /\ gemm_group residual "q" "y" "z" None None /\
  exists s', rewrite_gemm factors names 9 (State residual small floats) = Some (1, s') /\
    s_nodes s' = [matmul "x" "w" "q"; op "AddV2" ["q"; "new:0"] "z"; op "Identity" ["z"] "o";
                  FNode "new" "Gemm" "" [("transA", AInt 0); ("transB", AInt 0)] ["x"; "w"; "b"] ["new:0"] []].
Proof.
  split; [apply (valid_check_spec [("p", 1); ("y", 2); ("q", 3); ("z", 5); ("o", 6)]); reflexivity|]. split; [|split].
  - constructor.
    + apply plain_check. reflexivity.
    + intros ab c y al be H. apply residual_groups in H. destruct H as [(-> & _ & -> & _)|(-> & _ & -> & _)]; split; intros [K|[]]; discriminate K.
    + intros ab c y al be id H E. apply residual_groups in H. destruct H as [(_ & _ & _ & -> & ->)|(_ & _ & _ & -> & ->)], E as [E|E]; discriminate E.
    + intros ab c y al be sh sh' H E E'. apply residual_groups in H. destruct H as [(-> & -> & _)|(-> & -> & _)]; cbv in E, E'; injection E as <-; injection E' as <-; cbn; lia.
    + intros n H Ho. unfold residual in H. cbn in H. repeat (destruct H as [H|H]; [subst n; cbn in *; try discriminate Ho; (split; [reflexivity|right; eauto])|]). contradiction.
  - exists "AddV2", ["q"; "y"], [], "q", "y", ["x"; "w"], [("transpose_a", AInt 0); ("transpose_b", AInt 0)]. split; [right; left; reflexivity|].
    split; [eexists; split; [do 3 right; left; reflexivity|auto]|]. split; [left; reflexivity|]. split; [reflexivity|]. split; [reflexivity|]. eexists; split; [do 2 right; left; reflexivity|auto].
  - eexists. split; [cbv -[IZR]; reflexivity|reflexivity].
Qed.

(** ** where it fails *)
(** a summand with three dimensions: the conversion stops with an exception *)
Definition cube (t : string) : option (list Z) := if String.eqb t "b" then Some [1%Z; 1%Z; 1%Z] else small t.
Definition one_layer : list fnode := [matmul "x" "w" "p"; op "AddV2" ["p"; "b"] "y"; op "Identity" ["y"] "o"].
Definition c1 (a : R) : tensor R := Tensor [1; 1; 1] [a].
Lemma c1_add f a b c : c = f a b -> binary f [] [m1 a; c1 b] (c1 c).
Proof.
  intros ->. exists (m1 a), (c1 b). split; [reflexivity|]. repeat (split; [reflexivity|]). split; [intros [|[|[|n]]] H; cbn in H; [cbn; auto|cbn; auto|cbn; auto|lia]|].
  intros ix H. destruct ix as [|i [|j [|l [|? ?]]]]; cbn in H; try tauto. assert (i = 0) by lia. assert (j = 0) by lia. assert (l = 0) by lia. subst. exists a, b. repeat split.
Qed.
Ltac outside := let t := fresh in let Ht := fresh in intros t Ht; unfold tenv; cbn [find fst];
  repeat match goal with |- context [String.eqb ?a t] => destruct (String.eqb_spec a t); [exfalso; apply Ht; subst t; cbn; tauto|] end; reflexivity.
Ltac each_node := let n := fresh in let H := fresh in intros n H; cbn in H; repeat (destruct H as [H|H]; [subst n; apply gholds; [discriminate|]|]); try contradiction.
Theorem C59_rank_refuted :
  valid (FGraph one_layer ["x"; "w"; "b"] ["o"]) /\
  (exists all, run_with (gemm_op_rel factors) (tenv []) (FGraph one_layer ["x"; "w"; "b"] ["o"]) [m1 5; m1 3; c1 1] all [c1 16]) /\
  rewrite_gemm factors names 9 (State one_layer cube floats) = None.
Proof.
  split; [apply (valid_check_spec [("p", 1); ("y", 2); ("o", 6)]); reflexivity|]. split; [|cbv -[IZR]; reflexivity].
  exists (tenv [("x", m1 5); ("w", m1 3); ("b", c1 1); ("p", m1 15); ("y", c1 16); ("o", c1 16)]). split; [outside|]. split; [reflexivity|]. split; [|reflexivity]. each_node.
  - exists (m1 5), (m1 3), false, false. split; [reflexivity|]. flags. apply m1_matmul. lra.
  - apply (c1_add Rplus). lra.
  - reflexivity.
Qed.
(** a factor of shape [1, 1]: the attribute is a list, and the new graph has no run *)
Definition scaled_layer : list fnode := [matmul "x" "w" "p"; const "k" 1; op "Mul" ["p"; "k"] "kp"; op "AddV2" ["kp"; "b"] "y"; op "Identity" ["y"] "o"].
Theorem C59_factor_refuted :
  valid (FGraph scaled_layer ["x"; "w"; "b"] ["o"]) /\
  (exists all, run_with (gemm_op_rel factors) (tenv []) (FGraph scaled_layer ["x"; "w"; "b"] ["o"]) [m1 5; m1 3; v1 1] all [m1 31]) /\
  exists s', rewrite_gemm factors names 9 (State scaled_layer small floats) = Some (1, s') /\
    In (FNode "new" "Gemm" "" [("alpha", AStr "list"); ("transA", AInt 0); ("transB", AInt 0)] ["x"; "w"; "b"] ["new:0"] []) (s_nodes s') /\
    forall r args res, ~ body_rel (gemm_op_rel factors) r (FGraph (s_nodes s') ["x"; "w"; "b"] ["o"]) args res.
Proof.
  split; [apply (valid_check_spec [("p", 1); ("kp", 2); ("y", 3); ("o", 6)]); reflexivity|]. split.
  { exists (tenv [("x", m1 5); ("w", m1 3); ("b", v1 1); ("p", m1 15); ("k", m1 2); ("kp", m1 30); ("y", m1 31); ("o", m1 31)]). split; [outside|]. split; [reflexivity|]. split; [|reflexivity]. each_node.
    - exists (m1 5), (m1 3), false, false. split; [reflexivity|]. flags. apply m1_matmul. lra.
    - split; [reflexivity|]. exists 1. split; reflexivity.
    - apply (m1_sum Rmult). lra.
    - apply (m1_add Rplus). lra.
    - reflexivity. }
  eexists. split; [cbv -[IZR]; reflexivity|]. cbn [s_nodes]. match goal with |- In ?n ?l /\ _ => assert (K : In n l) by (cbn; auto 10) end. split; [exact K|].
  intros r args res B. apply body_rel_eq in B. destruct B as (r' & _ & _ & H & _). specialize (H _ K). apply gholds_inv in H; [|discriminate].
  destruct H as (a & b & c & ta & tb & al & be & _ & _ & _ & [[L _]|(id & L & _)] & _); discriminate L.
Qed.
(** a group whose result is an output of the graph: the output is gone *)
Theorem C59_output_removed_refuted :
  valid (FGraph one_layer ["x"; "w"; "b"] ["y"]) /\ exists s', rewrite_gemm factors names 9 (State one_layer small floats) = Some (1, s') /\
    ~ In "y" (defs (FGraph (s_nodes s') ["x"; "w"; "b"] ["y"])) /\ ~ valid (FGraph (s_nodes s') ["x"; "w"; "b"] ["y"]).
Proof.
  split; [apply (valid_check_spec [("p", 1); ("y", 2); ("o", 3)]); reflexivity|]. eexists. split; [cbv -[IZR]; reflexivity|]. cbn [s_nodes].
  match goal with |- ~ In ?y (defs ?g) /\ _ => assert (N : ~ In y (defs g)) end. { cbn. intros K. repeat (destruct K as [K|K]; [discriminate K|]). exact K. }
  split; [exact N|]. intros [rk W]. apply N. apply (g_outs rk _ (W _ (within_refl _))). left. reflexivity.
Qed.
Print Assumptions C59_rank_refuted.
Print Assumptions C59_factor_refuted.
Print Assumptions C59_output_removed_refuted.
