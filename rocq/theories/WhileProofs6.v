(** Converting While: the loops, given that their iterations agree. *)
From Coq Require Import String List Bool ZArith Arith Lia.
From Verif Require Import FGraph WhileSpec WhileProofs WhileProofs3 WhileProofs4 WhileProofs5.
Import ListNotations.
Local Open Scope list_scope.

Section Rows.
Context {V : Type} (vo : value_ops V).
(** the written lists after some iterations *)
Definition filled (rows : list (list V)) (ls : list (list (option V))) : list (list (option V)) :=
  map (fun il => map (fun row => Some (nth (fst il) (rev row) (absent vo))) rows ++ skipn (length rows) (snd il)) (combine (seq 0 (length ls)) ls).
Lemma filled_nil ls : filled [] ls = ls.
Proof. unfold filled. cbn. generalize 0. induction ls as [|l ls IH]; intro n; [reflexivity|]. cbn. f_equal. apply IH. Qed.
Lemma filled_length rows ls : length (filled rows ls) = length ls.
Proof. unfold filled. rewrite map_length, combine_length, seq_length. lia. Qed.
Lemma skipn_S_skipn {A} (l : list A) k : skipn 1 (skipn k l) = skipn (S k) l.
Proof. revert l. induction k as [|k IH]; intros [|x l]; try reflexivity. cbn [skipn]. apply IH. Qed.
Lemma set_item_spec {A} (xs : list (option A)) k x l : k = length xs -> k < length l -> firstn k (xs ++ skipn k l) ++ Some x :: skipn (S k) (xs ++ skipn k l) = (xs ++ [Some x]) ++ skipn (S k) l.
Proof.
  intros -> L. rewrite firstn_app, Nat.sub_diag, firstn_all, firstn_O, app_nil_r, <- app_assoc. cbn [app]. f_equal. f_equal.
  rewrite skipn_app, skipn_all2 by lia. replace (S (length xs) - length xs) with 1 by lia. cbn [app]. apply skipn_S_skipn.
Qed.
Lemma filled_step rows ls row : length row = length ls -> (forall l, In l ls -> length rows < length l) ->
  written V (length rows) (filled rows ls) row = filled (rows ++ [row]) ls.
Proof.
  intros L Lk. unfold written, filled. set (rr := rev row). assert (Lr : length rr = length ls) by (unfold rr; rewrite rev_length; auto).
  assert (G : forall n ls1, (forall l, In l ls1 -> length rows < length l) -> (forall i, i < length ls1 -> i + n < length rr) ->
    map (fun xl : V * list (option V) => set_item (length rows) (fst xl) (snd xl))
      (combine (skipn n rr) (map (fun il : nat * list (option V) => map (fun row0 => Some (nth (fst il) (rev row0) (absent vo))) rows ++ skipn (length rows) (snd il)) (combine (seq n (length ls1)) ls1))) =
    map (fun il : nat * list (option V) => map (fun row0 => Some (nth (fst il) (rev row0) (absent vo))) (rows ++ [row]) ++ skipn (length (rows ++ [row])) (snd il)) (combine (seq n (length ls1)) ls1)).
  { intros n ls1. revert n. induction ls1 as [|l ls1 IH]; intros n Lk1 Ln; [cbn; now destruct (skipn n rr)|]. cbn [length seq combine map fst snd].
    assert (Hn : n < length rr) by (specialize (Ln 0); cbn in Ln; lia). destruct (skipn n rr) as [|x tl] eqn:E; [exfalso; assert (length (skipn n rr) = 0) by (rewrite E; auto); rewrite skipn_length in *; lia|].
    assert (Et : tl = skipn (S n) rr) by (rewrite <- (skipn_S_skipn rr n), E; reflexivity). assert (Ex : x = nth n rr (absent vo)).
    { rewrite <- (Nat.add_0_r n), <- (firstn_skipn n rr), app_nth2; rewrite firstn_length; [|lia]. rewrite E. replace (n + 0 - Nat.min n (length rr)) with 0 by lia. reflexivity. }
    cbn [combine map fst snd]. f_equal.
    - unfold set_item. rewrite set_item_spec; [|now rewrite map_length|apply Lk1; left; auto]. rewrite map_app, app_length. cbn [map length]. fold rr. rewrite <- Ex. f_equal. f_equal. lia.
    - rewrite Et. apply IH; [intros; apply Lk1; right; auto|]. intros i Hi. specialize (Ln (S i)). cbn in Ln. lia. }
  specialize (G 0 ls Lk). rewrite skipn_O in G. apply G. intros. lia.
Qed.
End Rows.

Section Loop.
Context {V : Type} (vo : value_ops V).
Notation rel := (list V -> list V -> Prop).
Variables (C B W : rel) (ks : list kind) (reads : list V) (limit : option Z) (z : Z) (q : list V -> bool -> Prop) (args : list V) (ls0 : list (list (option V))) (idx : nat -> list V -> Prop).
Notation st k rest := (num vo (Z.of_nat k) :: num vo z :: rest).
Hypothesis Hc : forall k rest v, C (st k rest) [v] <-> length rest = length ks /\ exists b, q rest b /\ v = truth vo (below limit k && b).
Hypothesis Hst : forall k s, iteration vo C B args k s -> firstn 2 s = [num vo (Z.of_nat k); num vo z] /\ of_kind Read ks (skipn 2 s) = reads.
Hypothesis Hidx : forall k s, iteration vo C B args k s -> C s [truth vo true] -> idx k s /\ forall l, In l ls0 -> k < length l.
Hypothesis Hb : forall s s', B s s' -> length s' = 2 + length ks.
Hypothesis Hs : forall k rest ls, length rest = length ks -> of_kind Read ks rest = reads -> of_kind Lst ks rest = map (tlist vo) ls -> (forall l, In l ls -> k < length l) -> idx k (st k rest) ->
  forall cv c' vs' row, W (num vo (Z.of_nat k) :: cv :: of_kind Var ks rest) (c' :: vs' ++ row) -> length vs' = length (of_kind Var ks rest) ->
  exists s', B (st k rest) s' /\ of_kind Var ks (skipn 2 s') = vs' /\ of_kind Lst ks (skipn 2 s') = map (tlist vo) (written V k ls row) /\ length row = length ls0 /\
    forall rest', length rest' = length ks -> of_kind Var ks rest' = vs' -> of_kind Read ks rest' = reads -> C (st k rest') [c'].
Definition simulates (W : rel) : Prop := forall k rest ls, length rest = length ks -> of_kind Read ks rest = reads -> of_kind Lst ks rest = map (tlist vo) ls -> idx k (st k rest) ->
  forall cv s' c', B (st k rest) s' -> of_kind Read ks (skipn 2 s') = reads -> C (st k (skipn 2 s')) [c'] ->
  exists row, W (num vo (Z.of_nat k) :: cv :: of_kind Var ks rest) (c' :: of_kind Var ks (skipn 2 s') ++ row) /\ length row = length ls0 /\ of_kind Lst ks (skipn 2 s') = map (tlist vo) (written V k ls row).

Lemma next_state k s s' : iteration vo C B args k s -> C s [truth vo true] -> B s s' -> iteration vo C B args (S k) s' /\ s' = st (S k) (skipn 2 s') /\ length (skipn 2 s') = length ks /\ of_kind Read ks (skipn 2 s') = reads.
Proof.
  intros I HC HB. assert (I' : iteration vo C B args (S k) s') by (econstructor; eauto). split; auto. destruct (Hst _ _ I') as [E R]. pose proof (Hb _ _ HB) as L. repeat split; auto.
  - rewrite <- (firstn_skipn 2 s') at 1. rewrite E. reflexivity.
  - rewrite skipn_length. lia.
Qed.
Lemma step_lists k prev row : length prev = k -> length row = length ls0 -> (forall l, In l ls0 -> k < length l) -> written V k (filled vo prev ls0) row = filled vo (prev ++ [row]) ls0.
Proof. intros <- L Lk. now apply filled_step. Qed.
Lemma filled_lk k prev : length prev = k -> (forall l, In l ls0 -> k < length l) -> forall l, In l (filled vo prev ls0) -> k < length l.
Proof.
  intros <- Lk l I. unfold filled in I. apply in_map_iff in I. destruct I as ([i l0] & <- & I). apply in_combine_r in I. specialize (Lk l0 I). cbn [fst snd]. rewrite app_length, map_length, skipn_length. lia.
Qed.

Lemma loop_sound k c vs fin rows : onnx_loop vo W limit k c vs fin rows ->
  forall prev rest b, length prev = k -> length rest = length ks -> iteration vo C B args k (st k rest) -> of_kind Var ks rest = vs -> of_kind Lst ks rest = map (tlist vo) (filled vo prev ls0) -> q rest b ->
  below limit k && c = below limit k && b ->
  exists final, tf_while vo C B (st k rest) final /\ length final = 2 + length ks /\ of_kind Var ks (skipn 2 final) = fin /\ of_kind Lst ks (skipn 2 final) = map (tlist vo) (filled vo (prev ++ rows) ls0) /\
    of_kind Read ks (skipn 2 final) = reads /\ forall row, In row rows -> length row = length ls0.
Proof.
  induction 1 as [k c vs E|k c vs c' vs' row fin rows E HW Lvs HL IH]; intros prev rest b Lp Lr It EV EL Q Eb.
  - exists (st k rest). split; [constructor; apply Hc; split; auto; exists b; split; auto; congruence|]. cbn [length skipn]. rewrite app_nil_r. repeat split; auto; try (intros row []); try (cbn; congruence). now apply (Hst _ _ It).
  - assert (HC : C (st k rest) [truth vo true]) by (apply Hc; split; auto; exists b; split; auto; congruence). destruct (Hidx _ _ It HC) as [Ix Lk]. destruct (Hst _ _ It) as [_ RR]. cbn [skipn] in RR.
    subst vs. destruct (Hs k rest _ Lr RR EL (filled_lk k prev Lp Lk) Ix _ _ _ _ HW Lvs) as (s' & HB & EV' & EL' & Lrow & HC'). destruct (next_state _ _ _ It HC HB) as (It' & Es & Ls & Rs).
    specialize (HC' _ Ls EV' Rs). apply Hc in HC'. destruct HC' as (_ & b' & Q' & Et). apply (truth_inj vo) in Et. apply andb_true_iff in E. destruct E as [E1 E2]. rewrite E1 in Et. cbn [andb] in Et. subst c'.
    rewrite step_lists in EL' by auto. rewrite Es in It'. destruct (IH (prev ++ [row]) (skipn 2 s') b') as (final & H1 & H2 & H3 & H4 & H5 & H6); auto; [rewrite app_length; cbn; lia|].
    exists final. rewrite <- Es in H1. split; [econstructor; eauto|]. rewrite <- app_assoc in H4. cbn [app] in H4. repeat split; auto. intros r [<-|I]; auto.
Qed.

Lemma loop_complete s final : tf_while vo C B s final ->
  forall k rest, s = st k rest -> iteration vo C B args k s ->
  exists b, q rest b /\ length rest = length ks /\ forall W1, simulates W1 -> forall prev c, length prev = k -> of_kind Lst ks rest = map (tlist vo) (filled vo prev ls0) -> below limit k && c = below limit k && b ->
  exists rows, onnx_loop vo W1 limit k c (of_kind Var ks rest) (of_kind Var ks (skipn 2 final)) rows /\ of_kind Lst ks (skipn 2 final) = map (tlist vo) (filled vo (prev ++ rows) ls0) /\
    forall row, In row rows -> length row = length ls0.
Proof.
  induction 1 as [s HC|s s' s'' HC HB HT IH]; intros k rest -> It.
  - pose proof HC as HC'. apply Hc in HC'. destruct HC' as (Lr & b & Q & Et). apply (truth_inj vo) in Et. exists b. split; auto. split; auto. intros W1 Hd prev c Lp EL E. exists []. cbn [skipn]. rewrite app_nil_r. split; [constructor; congruence|]. split; auto. intros row [].
  - pose proof HC as HC'. apply Hc in HC'. destruct HC' as (Lr & b & Q & Et). apply (truth_inj vo) in Et. exists b. split; auto. split; auto. intros W1 Hd prev c Lp EL E.
    destruct (Hidx _ _ It HC) as [Ix Lk]. destruct (Hst _ _ It) as [_ RR]. cbn [skipn] in RR. destruct (next_state _ _ _ It HC HB) as (It' & Es & Ls & Rs).
    destruct (IH (S k) (skipn 2 s') Es It') as (b' & Q' & _ & IHc).
    assert (HC1 : C (st k (skipn 2 s')) [truth vo (below limit k && b')]) by (apply Hc; split; auto; eauto).
    symmetry in Et. pose proof Et as Eb. apply andb_true_iff in Et. destruct Et as [E1 E2]. rewrite E1 in HC1. cbn [andb] in HC1.
    destruct (Hd k rest _ Lr RR EL Ix (truth vo c) _ _ HB Rs HC1) as (row & HW & Lrow & EL1). rewrite step_lists in EL1 by auto.
    destruct (IHc W1 Hd (prev ++ [row]) b') as (rows & HL & EL'' & HR); auto; [rewrite app_length; cbn; lia|].
    exists (row :: rows). split.
    + apply (loop_step vo W1 limit k c _ b' (of_kind Var ks (skipn 2 s'))); auto; [congruence|]. apply of_kind_len; auto.
    + rewrite <- app_assoc in EL''. cbn [app] in EL''. split; auto. intros r [<-|I]; auto.
Qed.
End Loop.
