From Coq Require Import List Arith Bool Lia.
From Verif Require Import DriverModel DriverSpec.
Import ListNotations.

Section S.
Variable G : Type.
Notation obj := (obj G). Notation next := (next G). Notation heap := (heap G).

Lemma apply_one_catch it o b h r g fl : realises G o b -> obj h r = Some g -> r < next h ->
  exists h' r', apply_one G true it o (h, r, fl) = Some (h', r', snd (run_one G it b (g, fl))) /\
    obj h' r' = Some (fst (run_one G it b (g, fl))) /\ r' < next h' /\ next h <= next h' /\
    (forall k, k < next h -> obj h' k = obj h k) /\ (r' = r \/ next h <= r').
Proof.
  intros R Ho Hr. unfold apply_one, deepcopy, run_one. rewrite Ho. cbn [fst snd].
  set (h1 := Heap G (fun k => if Nat.eqb k (next h) then Some g else obj h k) (S (next h))).
  assert (O1 : obj h1 (next h) = Some g) by (cbn; now rewrite Nat.eqb_refl).
  assert (N1 : next h < next h1) by (cbn; lia).
  assert (K := R it h1 (next h) g O1 N1). destruct (o it h1 (next h)) as [h2 out]. destruct K as (Ln & Fr & M).
  assert (Fr' : forall k, k < next h -> obj h2 k = obj h k).
  { intros k Hk. rewrite Fr by (cbn; lia). cbn. destruct (Nat.eqb_spec k (next h)); [lia|reflexivity]. }
  cbn [DriverModel.next h1] in Ln.
  destruct (b it g) as [|[g'|] ch]; destruct out as [|[r'|] ch']; try contradiction.
  - exists h2, r. rewrite Fr' by auto. repeat split; auto; lia.
  - destruct M as (-> & Hg' & Hr' & Hor). exists h2, r'. repeat split; auto; try lia; destruct Hor as [->|Hor]; right; cbn in *; lia.
  - subst ch'. exists h2, r. rewrite Fr' by auto. repeat split; auto; lia.
Qed.
Lemma apply_all_catch it os : forall bs h r g fl, Forall2 (realises G) os bs -> obj h r = Some g -> r < next h ->
  exists h' r' , let st := fold_left (fun st b => run_one G it b st) bs (g, fl) in
    apply_all G true it os (h, r, fl) = Some (h', r', snd st) /\
    obj h' r' = Some (fst st) /\ r' < next h' /\ next h <= next h' /\ (forall k, k < next h -> obj h' k = obj h k) /\ (r' = r \/ next h <= r').
Proof.
  induction os as [|o os IH]; intros bs h r g fl F Ho Hr; inversion F as [|? b ? bs' Rb F' E1 E2]; subst; cbn [apply_all fold_left].
  - exists h, r. cbn. repeat split; auto; lia.
  - destruct (apply_one_catch it o b h r g fl Rb Ho Hr) as (h1 & r1 & E & O1 & L1 & N1 & F1 & A1). rewrite E.
    destruct (IH bs' h1 r1 _ (snd (run_one G it b (g, fl))) F' O1 L1) as (h2 & r2 & E2 & O2 & L2 & N2 & F2 & A2). cbn zeta in *.
    rewrite <- surjective_pairing in *. exists h2, r2. split; [exact E2|]. split; [exact O2|]. split; [exact L2|]. split; [lia|]. split.
    + intros k Hk. rewrite F2 by lia. auto.
    + destruct A2 as [->|A2]; [exact A1|right; lia].
Qed.
Lemma iter_r {X} (f : X -> X) n x : Nat.iter (S n) f x = Nat.iter n f (f x).
Proof. induction n as [|n IH]; [reflexivity|]. cbn in *. now rewrite IH. Qed.
Lemma rounds_catch fuel : forall it os bs h r g, Forall2 (realises G) os bs -> obj h r = Some g -> r < next h ->
  exists res, rounds G fuel true it os h r = Some res /\
    match res with
    | Some (h', r') => exists g', runs G bs it g g' /\ obj h' r' = Some g' /\ r' < next h' /\ next h <= next h' /\
                        (forall k, k < next h -> obj h' k = obj h k) /\ (r' = r \/ next h <= r')
    | None => forall n, n < fuel -> exists g' , Nat.iter n (fun p => let '(i, x) := p in (S i, fst (run_round G i bs x))) (it, g) = (it + n, g') /\
                        snd (run_round G (it + n) bs g') = true
    end.
Proof.
  induction fuel as [|fuel IH]; intros it os bs h r g F Ho Hr; cbn [rounds].
  - exists None. split; auto. intros n Hn. lia.
  - destruct (apply_all_catch it os bs h r g false F Ho Hr) as (h1 & r1 & E & O1 & L1 & N1 & F1 & A1). cbn zeta in *.
    fold (run_round G it bs g) in *. rewrite E. destruct (run_round G it bs g) as [g1 fl] eqn:Er. cbn [fst snd] in *. destruct fl.
    + destruct (IH (S it) os bs h1 r1 g1 F O1 L1) as (res & E2 & M). exists res. split; auto. destruct res as [[h' r']|].
      * destruct M as (g' & Rn & O2 & L2 & N2 & F2 & A2). exists g'. split; [eapply runs_more; eauto|]. split; auto. split; auto. split; [lia|]. split.
        -- intros k Hk. rewrite F2 by lia. auto.
        -- destruct A2 as [->|A2]; [exact A1|right; lia].
      * intros n Hn. destruct n as [|n].
        -- exists g. cbn. rewrite Nat.add_0_r, Er. auto.
        -- destruct (M n ltac:(lia)) as (g' & I & S1). exists g'. rewrite Nat.add_succ_r.
           replace (S (it + n)) with (S it + n) by lia. split; auto. rewrite iter_r. rewrite Er. cbn [fst]. exact I.
    + exists (Some (h1, r1)). split; auto. exists g1. split; [constructor; exact Er|]. auto.
Qed.

Lemma apply_all_strict it os : forall bs h r g fl, Forall2 (realises G) os bs -> obj h r = Some g -> r < next h ->
  match fold_left (fun st b => strict_one G it b st) bs (Some (g, fl)) with
  | None => apply_all G false it os (h, r, fl) = None
  | Some (g', fl') => exists h' r', apply_all G false it os (h, r, fl) = Some (h', r', fl') /\ obj h' r' = Some g' /\ r' < next h'
  end.
Proof.
  induction os as [|o os IH]; intros bs h r g fl F Ho Hr; inversion F as [|? b ? bs' Rb F' E1 E2]; subst; cbn [apply_all fold_left strict_one].
  - exists h, r. auto.
  - unfold apply_one. assert (K := Rb it h r g Ho Hr). destruct (o it h r) as [h2 out]. destruct K as (_ & _ & M).
    assert (Nn : forall l, fold_left (fun st b0 => strict_one G it b0 st) l None = None) by (induction l; cbn; auto).
    destruct (b it g) as [|[g'|] ch]; destruct out as [|[r'|] ch']; try contradiction; try (rewrite Nn; reflexivity).
    destruct M as (-> & Hg' & Hr' & _). apply IH; auto.
Qed.
End S.
