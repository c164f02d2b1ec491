(** C25: the optimizer driver. *)
From Coq Require Import List Arith Bool Lia.
From Verif Require Import DriverModel DriverSpec DriverProofs.
Import ListNotations.

(** With error catching on, whatever the optimizers do to the graph object they are given, and wherever they fail: the
    driver raises nothing; if the loop ends, the result is what results from running the same optimizers with every
    failing one skipped, up to the final sort; and no object that existed before is changed (the caller's graph
    included), except that the final sort reorders the caller's graph if that is still the current one. *)
Theorem C25_failures_are_isolated :
  forall G (same : G -> G -> Prop) ts os bs fuel h r g,
    sorts G same ts -> Forall2 (realises G) os bs -> obj G h r = Some g -> r < next G h ->
    exists res, optimize_graph G ts fuel true os h r = Some res /\
      forall h' r', res = Some (h', r') ->
        exists g1 g', runs G bs 0 g g1 /\ same g1 g' /\ obj G h' r' = Some g' /\
          (forall k, k < next G h -> k <> r -> obj G h' k = obj G h k) /\
          (r' <> r -> obj G h' r = Some g) /\ (r' = r -> g1 = g).
Proof.
  intros G same ts os bs fuel h r g Ts F Ho Hr. unfold optimize_graph.
  destruct (rounds_catch G fuel 0 os bs h r g F Ho Hr) as (res & E & M). rewrite E. destruct res as [[h1 r1]|].
  - destruct M as (g1 & Rn & O1 & L1 & N1 & F1 & A1). eexists. split; [reflexivity|]. intros h' r' Eq. injection Eq as <- <-.
    destruct (Ts h1 r1 g1 O1) as (_ & Fr & g' & Og & Sm). exists g1, g'. split; [exact Rn|]. split; [exact Sm|]. split; [exact Og|].
    split; [|split].
    + intros k Hk Hne. rewrite Fr; [apply F1; exact Hk|]. destruct A1 as [->|A1]; lia.
    + intro Ne. rewrite Fr by auto. rewrite F1 by auto. exact Ho.
    + intros ->. rewrite F1 in O1 by auto. congruence.
  - eexists. split; [reflexivity|]. intros h' r' Eq. discriminate.
Qed.
Print Assumptions C25_failures_are_isolated.

(** Hence a relation that each optimizer keeps when it succeeds (such as "computes the same") holds between the model
    given and the model returned, whichever optimizers fail. *)
Theorem C25_relation_kept_despite_failures :
  forall G (R : G -> G -> Prop) bs it g g',
    (forall g, R g g) -> (forall a b c, R a b -> R b c -> R a c) ->
    Forall (fun b => forall it g g' ch, b it g = Yields G (Some g') ch -> R g g') bs ->
    runs G bs it g g' -> R g g'.
Proof.
  intros G R bs it g g' Rf Tr F Rn.
  assert (One : forall it l, Forall (fun b => forall it g g' ch, b it g = Yields G (Some g') ch -> R g g') l ->
    forall st, R (fst st) (fst (fold_left (fun st b => run_one G it b st) l st))).
  { intros i l Fl. induction Fl as [|b l Hb _ IH]; intro st; cbn [fold_left]; [apply Rf|]. eapply Tr; [|apply IH].
    unfold run_one. destruct (b i (fst st)) as [|[x|] ch] eqn:E; [apply Rf| |apply Rf]. cbn [fst]. eapply Hb; eauto. }
  induction Rn as [it g g' E|it g g1 g' E _ IH].
  - assert (K := One it bs F (g, false)). unfold run_round in E. rewrite E in K. exact K.
  - assert (K := One it bs F (g, false)). unfold run_round in E. rewrite E in K. eapply Tr; [exact K|exact IH].
Qed.
Print Assumptions C25_relation_kept_despite_failures.

(** a round with failing optimizers is the round without them *)
Theorem C25_failing_optimizers_are_skipped :
  forall G it (bs : list (behaviour G)) bad g, (forall g', bad it g' = Fails G) ->
    forall bs', run_round G it (bs ++ bad :: bs') g = run_round G it (bs ++ bs') g.
Proof.
  intros G it bs bad g B bs'. unfold run_round. rewrite !fold_left_app. cbn [fold_left].
  match goal with |- fold_left _ _ (run_one G it bad ?st) = _ => replace (run_one G it bad st) with st; auto end.
  unfold run_one. now rewrite B.
Qed.
Print Assumptions C25_failing_optimizers_are_skipped.

(** With error catching off, a round raises exactly when one of the optimizers fails on the graph it is given (or
    returns no graph); otherwise it is the same round. *)
Theorem C25_strict_mode_raises :
  forall G os bs it h r g, Forall2 (realises G) os bs -> obj G h r = Some g -> r < next G h ->
    (apply_all G false it os (h, r, false) = None <-> strict_round G it bs g = None) /\
    forall g' fl, strict_round G it bs g = Some (g', fl) ->
      run_round G it bs g = (g', fl) /\
      exists h' r', apply_all G false it os (h, r, false) = Some (h', r', fl) /\ obj G h' r' = Some g'.
Proof.
  intros G os bs it h r g F Ho Hr. assert (K := apply_all_strict G it os bs h r g false F Ho Hr). fold (strict_round G it bs g) in K.
  split.
  - destruct (strict_round G it bs g) as [[g' fl]|]; [|tauto]. destruct K as (h' & r' & E & _). rewrite E. split; discriminate.
  - intros g' fl E. rewrite E in K. destruct K as (h' & r' & E' & O & _). split; [|eauto].
    clear -E. unfold strict_round, run_round in *. revert E. generalize (g, false). induction bs as [|b bs IH]; cbn [fold_left]; intros st E; [congruence|].
    unfold strict_one at 2 in E. unfold run_one at 2. destruct st as [x fx]. cbn [fst snd]. destruct (b it x) as [|[y|] ch].
    + exfalso. clear -E. induction bs; cbn in E; [discriminate|auto].
    + apply IH. exact E.
    + exfalso. clear -E. induction bs; cbn in E; [discriminate|auto].
Qed.
Print Assumptions C25_strict_mode_raises.

(** the assumptions can be met: an optimizer that destroys its argument and fails, one that adds one; the caller's graph
    7 becomes 10 in a new object, its own object still holds 7 *)
Definition w_bad : optimizer nat := fun _ h r => (write nat h r 99, Raised).
Definition w_inc : optimizer nat := fun it h r => match obj nat h r with
  | Some g => if Nat.ltb g 10 then (write nat h r (S g), Returned (Some r) true) else (h, Returned (Some r) false)
  | None => (h, Raised) end.
Example C25_witness_realises :
  realises nat w_bad (fun _ _ => Fails nat) /\
  realises nat w_inc (fun _ g => if Nat.ltb g 10 then Yields nat (Some (S g)) true else Yields nat (Some g) false).
Proof.
  split; intros it h r g Ho Hr; unfold w_bad, w_inc.
  - cbn [write next obj]. split; [lia|]. split; auto. intros k _ Hk. cbn. destruct (Nat.eqb_spec k r); [contradiction|reflexivity].
  - rewrite Ho. destruct (Nat.ltb g 10); cbn [write next obj].
    + split; [lia|]. split; [intros k _ Hk; cbn; destruct (Nat.eqb_spec k r); [contradiction|reflexivity]|]. cbn. rewrite Nat.eqb_refl. auto.
    + split; [lia|]. split; auto.
Qed.
Example C25_witness_run :
  exists h' r', optimize_graph nat (fun h _ => (h, false)) 5 true [w_bad; w_inc; w_bad] (Heap nat (fun k => if Nat.eqb k 0 then Some 7 else None) 1) 0 = Some (Some (h', r')) /\
    obj nat h' r' = Some 10 /\ obj nat h' 0 = Some 7.
Proof. eexists _, _. vm_compute. auto. Qed.
