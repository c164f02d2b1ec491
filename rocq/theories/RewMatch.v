(** C58: what a match of one of the rewriters' patterns says about the nodes. *)
From Coq Require Import String List Bool Arith Lia Permutation.
From Verif Require Import FGraph FGraphProofs MatchModel MatchSpec MatchProofs RewModel.
Import ListNotations.
Local Open Scope string_scope. Local Open Scope list_scope. Local Open Scope nat_scope.

Section M.
Variable g : graph.
Notation fits := (fits g true).
Lemma type_ok_some ty op : ty <> "*" -> type_ok g ty op -> exists o, op = Some o /\ In (gtype (g o)) (type_set ty).
Proof. intros N H. inversion H; subst; [contradiction|]. exists o. split; auto. apply type_set_spec. assumption. Qed.
Lemma fits_leaf_inv i nm ty op t bs : ty <> "*" -> fits (leaf i nm ty) op t bs ->
  bs = [(leaf i nm ty, op, t)] /\ exists o, op = Some o /\ In (gtype (g o)) (type_set ty).
Proof.
  intros N H. inversion H as [p op' t' E|p ty' op' t' E1 E2 E3|p ty' o t' ins bs' E1 E2 E3]; subst; try discriminate.
  - cbn in E1. injection E1 as <-. split; auto. apply type_ok_some; auto.
  - cbn in E3. congruence.
Qed.
Lemma fits_star_inv i nm op t bs : fits (star i nm) op t bs -> bs = [(star i nm, op, t)].
Proof. intros H. inversion H as [p op' t' E|p ty' op' t' E1 E2 E3|p ty' o t' ins bs' E1 E2 E3]; subst; try discriminate; auto. cbn in E3. congruence. Qed.
Lemma fits1_inv i nm ty p op t bs : ty <> "*" -> fits (Pat i nm (Some ty) None [p]) op t bs ->
  exists o x b, op = Some o /\ In (gtype (g o)) (type_set ty) /\ ginputs (g o) = [x] /\ fits p (snd x) (Some (fst x)) b /\
    bs = (Pat i nm (Some ty) None [p], Some o, t) :: b.
Proof.
  intros N H. inversion H as [p' op' t' E|p' ty' op' t' E1 E2 E3|p' ty' o t' ins bs' E1 E2 E3 E4 E5]; subst; try discriminate.
  cbn in E1. injection E1 as <-. destruct (type_ok_some _ _ N E2) as (o' & Eo & Hin). injection Eo as <-. cbn in E4. apply Permutation_length_1_inv in E4. subst ins.
  inversion E5 as [|p1 ps t1 op1 xs b1 bs1 F1 F2 Q1 Q2]; subst. inversion F2; subst. exists o, (t1, op1), b1. rewrite app_nil_r. auto 6.
Qed.
Lemma fits2_inv i nm ty p q op t bs : ty <> "*" -> fits (Pat i nm (Some ty) None [p; q]) op t bs ->
  exists o x y b1 b2, op = Some o /\ In (gtype (g o)) (type_set ty) /\ (ginputs (g o) = [x; y] /\ bs = (Pat i nm (Some ty) None [p; q], Some o, t) :: b1 ++ b2 \/
     ginputs (g o) = [y; x] /\ bs = (Pat i nm (Some ty) None [p; q], Some o, t) :: b2 ++ b1) /\
    fits p (snd x) (Some (fst x)) b1 /\ fits q (snd y) (Some (fst y)) b2.
Proof.
  intros N H. inversion H as [p' op' t' E|p' ty' op' t' E1 E2 E3|p' ty' o t' ins bs' E1 E2 E3 E4 E5]; subst; try discriminate.
  cbn in E1. injection E1 as <-. destruct (type_ok_some _ _ N E2) as (o' & Eo & Hin). injection Eo as <-. cbn in E4. apply Permutation_length_2_inv in E4.
  destruct E4 as [-> | ->]; inversion E5 as [|p1 ps t1 op1 xs b1 bs1 F1 F2 Q1 Q2]; subst; inversion F2 as [|p2 ps2 t2 op2 xs2 b2 bs2 F3 F4 Q3 Q4]; subst; inversion F4; subst; rewrite app_nil_r.
  - exists o, (t1, op1), (t2, op2), b1, b2. auto 8.
  - exists o, (t2, op2), (t1, op1), b2, b1. auto 8.
Qed.
(** the results come in the order of the nodes, and each fits *)
Lemma match_ops_inv p ops : forall ms, match_ops g true p ops = Some ms ->
  (forall o m, In (o, m) ms -> exists bs, fits p (Some o) None bs /\ m = fold_left add_binding bs (MatchResult [] [])) /\
  (forall o m, In (o, m) ms -> In o ops) /\ (NoDup ops -> NoDup (map fst ms)).
Proof.
  induction ops as [|o ops IH]; cbn [match_ops]; intros ms E.
  - injection E as <-. split; [intros ? ? []|]. split; [intros ? ? []|]. constructor.
  - unfold match_op in E. destruct (match_pattern g true p (Some o) None) as [[[|] l]|] eqn:M; try discriminate E.
    + destruct (match_ops g true p ops) as [ms'|]; [|discriminate E]. injection E as <-. destruct (IH ms' eq_refl) as (I1 & I2 & I3). split; [|split].
      * intros o' m [K|K]; [|eauto]. injection K as <- <-. exists l. split; auto. apply (proj1 (all_good g true p (Some o) None)). exact M.
      * intros o' m [K|K]; [injection K as <- _; left; auto|right; eauto].
      * intros N. inversion N as [|? ? N1 N2]; subst. cbn. constructor; auto. intros K. apply in_map_iff in K. destruct K as ([o' m] & E & K). cbn in E. subst o'. apply N1. eauto.
    + destruct (match_ops g true p ops) as [ms'|]; [|discriminate E]. injection E as <-. destruct (IH ms' eq_refl) as (I1 & I2 & I3). split; [auto|]. split; [intros; right; eauto|].
      intros N. inversion N; subst; auto.
Qed.
Lemma match_ops_some p ops : closed g -> match_ops g true p ops <> None.
Proof.
  intros C. induction ops as [|o ops IH]; cbn [match_ops]; [discriminate|]. unfold match_op.
  assert (K : match_pattern g true p (Some o) None <> None) by (apply (all_good g true p (Some o) None); auto; discriminate).
  destruct (match_pattern g true p (Some o) None) as [[[|] l]|]; [| |contradiction]; (destruct (match_ops g true p ops); [discriminate|contradiction]).
Qed.
End M.
