From Coq Require Import String List Arith Bool Lia.
From Verif Require Import Util HandlerModel HandlerSpec.
Import ListNotations.
Local Open Scope list_scope.

Section DictFacts.
Context {V : Type}.
Implicit Types (d e : list (string * V)).
Lemma dget_dset d k v k' : dget (dset d k v) k' = if String.eqb k k' then Some v else dget d k'.
Proof.
  induction d as [|[a b] d IH]; simpl.
  - destruct (String.eqb k k'); reflexivity.
  - destruct (String.eqb a k) eqn:E; simpl.
    + apply String.eqb_eq in E; subst. destruct (String.eqb k k'); reflexivity.
    + rewrite IH. destruct (String.eqb a k') eqn:E2; auto.
      apply String.eqb_eq in E2; subst. rewrite String.eqb_sym, E. reflexivity.
Qed.
Lemma dget_None d k : dget d k = None <-> ~ In k (map fst d).
Proof.
  induction d as [|[a b] d IH]; simpl; [tauto|].
  destruct (String.eqb a k) eqn:E.
  - apply String.eqb_eq in E; subst. split; [discriminate|]. tauto.
  - apply String.eqb_neq in E. rewrite IH. tauto.
Qed.
Lemma keys_dset d k v : map fst (dset d k v) = if dget d k then map fst d else map fst d ++ [k].
Proof.
  induction d as [|[a b] d IH]; simpl; auto.
  destruct (String.eqb a k) eqn:E; simpl; auto.
  rewrite IH. destruct (dget d k); auto.
Qed.
Lemma dupdate_app d e e' : dupdate d (e ++ e') = dupdate (dupdate d e) e'.
Proof. apply fold_left_app. Qed.
(** the last binding of a key in an update sequence *)
Definition lastof e k : option V := dget (rev e) k.
Lemma dget_dupdate d e k : dget (dupdate d e) k = match lastof e k with Some v => Some v | None => dget d k end.
Proof.
  induction e as [|[a b] e IH] using rev_ind; simpl; auto.
  rewrite dupdate_app. cbn. rewrite dget_dset. unfold lastof. rewrite rev_app_distr. cbn.
  destruct (String.eqb a k); auto.
Qed.
Lemma dget_app d e k : dget (d ++ e) k = match dget d k with Some v => Some v | None => dget e k end.
Proof. induction d as [|[a b] d IH]; simpl; auto. destruct (String.eqb a k); auto. Qed.
Lemma dget_In d k v : dget d k = Some v -> In (k, v) d.
Proof.
  induction d as [|[a b] d IH]; simpl; [discriminate|].
  destruct (String.eqb a k) eqn:E; intro Hq; [|auto].
  apply String.eqb_eq in E. left. congruence.
Qed.
Lemma In_dget d k v : NoDup (map fst d) -> In (k, v) d -> dget d k = Some v.
Proof.
  induction d as [|[a b] d IH]; simpl; [tauto|]. intros ND [Hq|Hq]; inversion ND; subst.
  - inversion Hq; subst. rewrite String.eqb_refl. reflexivity.
  - destruct (String.eqb a k) eqn:E; [|auto]. apply String.eqb_eq in E; subst.
    exfalso. apply H1. apply in_map_iff. exists (k, v). auto.
Qed.
Lemma dset_split d k v : NoDup (map fst d) -> In k (map fst d) ->
  exists d1 v0 d2, d = d1 ++ (k, v0) :: d2 /\ dset d k v = d1 ++ (k, v) :: d2.
Proof.
  induction d as [|[a b] d IH]; simpl; [tauto|]. intros ND Hin. inversion ND; subst.
  destruct (String.eqb a k) eqn:E.
  - apply String.eqb_eq in E; subst. exists [], b, d. auto.
  - apply String.eqb_neq in E. destruct Hin as [|Hin]; [contradiction|].
    destruct (IH H2 Hin) as (d1 & v0 & d2 & -> & ->). exists ((a, b) :: d1), v0, d2. auto.
Qed.
(** as long as keys are unique, the last binding is the only one *)
Lemma lastof_nodup d k : NoDup (map fst d) -> lastof d k = dget d k.
Proof.
  intro ND. unfold lastof. destruct (dget d k) eqn:E.
  - apply In_dget. rewrite map_rev. apply NoDup_rev. exact ND. rewrite <- in_rev. apply dget_In. exact E.
  - apply dget_None. apply dget_None in E. rewrite map_rev, <- in_rev. exact E.
Qed.
Lemma NoDup_dset d k v : NoDup (map fst d) -> NoDup (map fst (dset d k v)).
Proof.
  intro ND. rewrite keys_dset. destruct (dget d k) eqn:E; auto.
  apply dget_None in E. apply NoDup_rev in ND. rewrite <- (rev_involutive (map fst d ++ [k])). apply NoDup_rev.
  rewrite rev_app_distr. cbn. constructor; auto. rewrite <- in_rev. exact E.
Qed.
End DictFacts.

Section RegProofs.
Variable H : Type.
Implicit Types (reg : registry H) (hist : list (registration H)).

Definition run hist : registry H :=
  fold_left (fun r x => register r (rfunc x) (rversion x) (rnames x) (rdomain x)) hist [].
Lemma run_snoc hist x : run (hist ++ [x]) = register (run hist) (rfunc x) (rversion x) (rnames x) (rdomain x).
Proof. unfold run. rewrite fold_left_app. reflexivity. Qed.

Lemma length_replace_nth {A} n (x : A) l : length (replace_nth n x l) = length l.
Proof. revert n. induction l as [|a l IH]; intros [|n]; simpl; auto. Qed.
Lemma nth_replace_nth {A} n (x d : A) l k : n < length l ->
  nth k (replace_nth n x l) d = if Nat.eqb n k then x else nth k l d.
Proof.
  revert n k. induction l as [|a l IH]; intros [|n] [|k] Hn; cbn [length] in Hn; cbn [replace_nth nth Nat.eqb]; auto; try lia.
  apply IH. lia.
Qed.
Lemma nth_pad {A} (l : list (list A)) n k : nth k (l ++ repeat [] n) [] = nth k l [].
Proof.
  destruct (Nat.lt_ge_cases k (length l)) as [Hk|Hk].
  - apply app_nth1. exact Hk.
  - rewrite (nth_overflow l) by lia. rewrite app_nth2 by lia.
    generalize (k - length l). intro m. clear. revert m. induction n; intros [|m]; simpl; auto.
Qed.
Lemma dget_names (f : H) names d nm :
  dget (fold_left (fun d nm => dset d nm f) names d) nm = if in_dec string_dec nm names then Some f else dget d nm.
Proof.
  revert d. induction names as [|n names IH]; intro d; [reflexivity|]. cbn [fold_left]. rewrite IH, dget_dset.
  destruct (in_dec string_dec nm (n :: names)) as [I|I].
  - destruct (in_dec string_dec nm names); auto. destruct I as [->|I]; [|contradiction]. rewrite String.eqb_refl. auto.
  - destruct (in_dec string_dec nm names) as [J|J]; [exfalso; apply I; right; auto|].
    destruct (String.eqb n nm) eqn:E; auto. apply String.eqb_eq in E. exfalso. apply I. left. auto.
Qed.
Lemma NoDup_names (f : H) names d : NoDup (map fst d) -> NoDup (map fst (fold_left (fun d nm => dset d nm f) names d)).
Proof. revert d. induction names as [|n names IH]; intros d ND; cbn; auto. apply IH. apply NoDup_dset. exact ND. Qed.

(** what is registered for (domain, version, name) *)
Definition cell reg d v nm : option H :=
  match dget reg d with Some l => dget (nth v l []) nm | None => None end.
Lemma cell_register reg f v names d d' v' nm :
  cell (register reg f v names d) d' v' nm =
  if String.eqb d d' && Nat.eqb v v' && (if in_dec string_dec nm names then true else false) then Some f else cell reg d' v' nm.
Proof.
  unfold cell, register. rewrite dget_dset. destruct (String.eqb d d') eqn:E; [|reflexivity].
  apply String.eqb_eq in E; subst d'. cbn [andb].
  rewrite nth_replace_nth by (rewrite app_length, repeat_length; destruct (dget reg d); cbn [length]; lia).
  destruct (Nat.eqb v v') eqn:Ev; cbn [andb].
  - apply Nat.eqb_eq in Ev; subst v'. rewrite dget_names. destruct (in_dec string_dec nm names); auto.
    rewrite nth_pad. destruct (dget reg d); [reflexivity|]. destruct v; reflexivity.
  - rewrite nth_pad. destruct (dget reg d); [reflexivity|]. destruct v'; reflexivity.
Qed.

Definition last_reg hist d v nm f : Prop :=
  exists i, registered_at hist i d v nm f /\ forall j f', registered_at hist j d v nm f' -> j <= i.
Lemma registered_snoc hist x i d v nm f :
  registered_at (hist ++ [x]) i d v nm f <->
  registered_at hist i d v nm f \/ (i = length hist /\ rdomain x = d /\ rversion x = v /\ In nm (rnames x) /\ rfunc x = f).
Proof.
  unfold registered_at. split.
  - intros (r & Hr & Hq). destruct (Nat.lt_ge_cases i (length hist)) as [L|L].
    + rewrite nth_error_app1 in Hr by exact L. left. exists r. tauto.
    + rewrite nth_error_app2 in Hr by exact L. destruct (i - length hist) as [|[|?]] eqn:E; cbn in Hr; inversion Hr; subst.
      right. split; [lia|tauto].
  - intros [(r & Hr & Hq)|(-> & Hq)].
    + exists r. split; [|exact Hq]. rewrite nth_error_app1; [exact Hr|]. apply nth_error_Some. congruence.
    + exists x. split; [|tauto]. rewrite nth_error_app2, Nat.sub_diag by lia. reflexivity.
Qed.
Lemma registered_lt hist i d v nm f : registered_at hist i d v nm f -> i < length hist.
Proof. intros (r & Hr & _). apply nth_error_Some. congruence. Qed.
Lemma cell_spec hist d v nm :
  match cell (run hist) d v nm with
  | Some f => last_reg hist d v nm f
  | None => forall i f, ~ registered_at hist i d v nm f
  end.
Proof.
  induction hist as [|x hist IH] using rev_ind.
  - cbn. intros i f (r & Hr & _). destruct i; discriminate.
  - rewrite run_snoc, cell_register.
    destruct (String.eqb (rdomain x) d && Nat.eqb (rversion x) v && (if in_dec string_dec nm (rnames x) then true else false)) eqn:E.
    + apply andb_prop in E. destruct E as [E E3]. apply andb_prop in E. destruct E as [E1 E2].
      apply String.eqb_eq in E1. apply Nat.eqb_eq in E2. destruct (in_dec string_dec nm (rnames x)) as [I|]; [|discriminate].
      exists (length hist). split.
      * apply registered_snoc. right. auto.
      * intros j f' Hj. apply registered_snoc in Hj. destruct Hj as [Hj|[-> _]]; auto. apply registered_lt in Hj. lia.
    + assert (N : ~ (rdomain x = d /\ rversion x = v /\ In nm (rnames x))).
      { intros (<- & <- & I). rewrite String.eqb_refl, Nat.eqb_refl in E. cbn in E. destruct (in_dec string_dec nm (rnames x)); [discriminate|contradiction]. }
      destruct (cell (run hist) d v nm) as [f|].
      * destruct IH as (i & Hi & Hm). exists i. split; [apply registered_snoc; auto|].
        intros j f' Hj. apply registered_snoc in Hj. destruct Hj as [Hj|Hj]; [eauto|tauto].
      * intros i f Hi. apply registered_snoc in Hi. destruct Hi as [Hi|Hi]; [exact (IH _ _ Hi)|tauto].
Qed.

(** the order of the domains in the registry *)
Lemma keys_run hist : NoDup (map fst (run hist)) /\
  (forall d, In d (map fst (run hist)) <-> exists i, first_use hist d i) /\
  (forall l1 d l2 d', map fst (run hist) = l1 ++ d :: l2 -> In d' l2 -> domain_before hist d d').
Proof.
  assert (FU : forall hist x d i, first_use hist d i -> first_use (hist ++ [x]) d i).
  { intros h x d i ((r & Hr & Hd) & Hn). assert (i < length h) by (apply nth_error_Some; congruence). split.
    - exists r. split; auto. rewrite nth_error_app1 by lia. exact Hr.
    - intros j r' Hj Hr'. rewrite nth_error_app1 in Hr' by lia. eauto. }
  induction hist as [|x hist (ND & Hk & Ho)] using rev_ind.
  - cbn. split; [constructor|]. split.
    + intro d. split; [tauto|]. intros (i & (r & Hr & _) & _). destruct i; discriminate.
    + intros [|? ?] d l2 d' E; discriminate.
  - rewrite run_snoc. unfold register. rewrite keys_dset.
    destruct (dget (run hist) (rdomain x)) as [l|] eqn:E.
    + split; [exact ND|]. split.
      * intro d. rewrite Hk. split; intros (i & Hi).
        -- exists i. apply FU. exact Hi.
        -- destruct (Nat.lt_ge_cases i (length hist)) as [L|L].
           ++ exists i. destruct Hi as ((r & Hr & Hd) & Hn). rewrite nth_error_app1 in Hr by exact L. split; [eauto|].
              intros j r' Hj Hr'. apply (Hn j); auto. rewrite nth_error_app1 by lia. exact Hr'.
           ++ destruct Hi as ((r & Hr & Hd) & Hn). rewrite nth_error_app2 in Hr by exact L.
              destruct (i - length hist) as [|[|?]]; cbn in Hr; inversion Hr; subst r.
              apply Hk. rewrite <- Hd. apply dget_In in E. apply in_map_iff. exists (rdomain x, l). auto.
      * intros l1 d l2 d' E1 I2. destruct (Ho _ _ _ _ E1 I2) as (a & b & A & B & C). exists a, b. auto.
    + assert (NX : ~ In (rdomain x) (map fst (run hist))) by (apply dget_None; exact E).
      assert (FX : first_use (hist ++ [x]) (rdomain x) (length hist)).
      { split.
        - exists x. split; auto. rewrite nth_error_app2, Nat.sub_diag by lia. reflexivity.
        - intros j r Hj Hr K. rewrite nth_error_app1 in Hr by exact Hj. apply NX. apply Hk.
          clear - Hr K. revert r Hr K. induction j as [j IHj] using lt_wf_ind. intros r Hr K.
          destruct (in_dec (fun a b => string_dec a b) (rdomain x) (map rdomain (firstn j hist))) as [I|I].
          + apply in_map_iff in I. destruct I as (r' & K' & I). apply In_nth_error in I. destruct I as (j' & Hj').
            assert (j' < j). { apply Nat.lt_le_trans with (length (firstn j hist)). apply nth_error_Some; congruence. rewrite firstn_length; lia. }
            rewrite nth_error_firstn in Hj' by assumption. eapply IHj; eauto.
          + exists j. split; [eauto|]. intros j' r' L Hr' K'. apply I. apply in_map_iff. exists r'. split; auto.
            apply nth_error_In with j'. rewrite nth_error_firstn by exact L. exact Hr'. }
      split; [|split].
      * rewrite <- (rev_involutive (_ ++ _)). apply NoDup_rev. rewrite rev_app_distr. cbn. constructor.
        -- rewrite <- in_rev. exact NX.
        -- apply NoDup_rev. exact ND.
      * intro d. rewrite in_app_iff, Hk. cbn. split.
        -- intros [(i & Hi)|[<-|[]]]; eauto.
        -- intros (i & Hi). destruct (Nat.lt_ge_cases i (length hist)) as [L|L].
           ++ left. exists i. destruct Hi as ((r & Hr & Hd) & Hn). rewrite nth_error_app1 in Hr by exact L. split; [eauto|].
              intros j r' Hj Hr'. apply (Hn j); auto. rewrite nth_error_app1 by lia. exact Hr'.
           ++ destruct Hi as ((r & Hr & Hd) & Hn). rewrite nth_error_app2 in Hr by exact L.
              destruct (i - length hist) as [|[|?]]; cbn in Hr; inversion Hr; subst r. auto.
      * intros l1 d l2 d' E1 I2.
        destruct (exists_last (l := l2)) as (l2' & y & ->). { intros ->. contradiction. }
        replace (l1 ++ d :: l2' ++ [y]) with ((l1 ++ d :: l2') ++ [y]) in E1 by (rewrite <- app_assoc; reflexivity).
        apply app_inj_tail in E1. destruct E1 as [E1 Ey].
        apply in_app_iff in I2. destruct I2 as [I2|[I2|[]]].
        -- destruct (Ho _ _ _ _ E1 I2) as (a & b & A & B & C). exists a, b. auto.
        -- subst y d'. assert (I : In d (map fst (run hist))) by (rewrite E1; apply in_app_iff; right; left; auto).
           apply Hk in I. destruct I as (a & Ha). exists a, (length hist). split; [auto|]. split; [exact FX|].
           destruct Ha as ((r & Hr & _) & _). apply nth_error_Some. congruence.
Qed.

(** every dictionary in the registry has unique keys *)
Lemma maps_NoDup hist d l v : dget (run hist) d = Some l -> NoDup (map fst (nth v l [])).
Proof.
  revert d l v. induction hist as [|x hist IH] using rev_ind; intros d l v E; [discriminate|].
  rewrite run_snoc in E. unfold register in E. rewrite dget_dset in E.
  destruct (String.eqb (rdomain x) d) eqn:Ed; [|eauto].
  apply (f_equal (fun o => match o with Some y => y | None => [] end)) in E. cbv beta iota in E. subst l.
  rewrite nth_replace_nth by (rewrite app_length, repeat_length; lia).
  assert (K : forall v, NoDup (map fst (nth v ((match dget (run hist) (rdomain x) with Some l => l | None => [] end) ++ repeat [] (S (rversion x) - length (match dget (run hist) (rdomain x) with Some l => l | None => [] end))) []))).
  { intro u. rewrite nth_pad. destruct (dget (run hist) (rdomain x)) eqn:E2; [eauto|]. destruct u; constructor. }
  destruct (Nat.eqb (rversion x) v); [apply NoDup_names|]; apply K.
Qed.

(** the stacking loops *)
Definition ok (lim : list (string * nat)) d v := match dget lim d with Some (S m) => Nat.leb v (S m) | _ => false end.
Lemma fst_step_version d m st vm : fst (step_version H d m st vm) =
  if (match m with Some (S m') => Nat.leb (fst vm) (S m') | _ => false end) then dupdate (fst st) (snd vm) else fst st.
Proof.
  destruct st as [ops doms]. unfold step_version. destruct m as [[|m]|]; auto.
  destruct (Nat.leb (fst vm) (S m)); cbn [andb]; auto. destruct (snd vm) eqn:E; cbn; auto.
Qed.
Lemma stack_versions d m (l : list (list (string * H))) off st nm :
  (forall v, NoDup (map fst (nth v l []))) ->
  let ok v := match m with Some (S m') => Nat.leb v (S m') | _ => false end in
  match dget (fst (fold_left (step_version H d m) (combine (seq off (length l)) l) st)) nm with
  | Some f => (exists v, off <= v /\ ok v = true /\ dget (nth (v - off) l []) nm = Some f /\
                  forall v', v < v' -> ok v' = true -> dget (nth (v' - off) l []) nm = None) \/
              (dget (fst st) nm = Some f /\ forall v', off <= v' -> ok v' = true -> dget (nth (v' - off) l []) nm = None)
  | None => dget (fst st) nm = None /\ forall v', off <= v' -> ok v' = true -> dget (nth (v' - off) l []) nm = None
  end.
Proof.
  intros ND ok'. revert off st. induction l as [|mp l IH] using rev_ind; intros off st.
  - cbn. destruct (dget (fst st) nm) eqn:E.
    + right. split; auto. intros. destruct (v' - off); auto.
    + split; auto. intros. destruct (v' - off); auto.
  - assert (NDl : forall v, NoDup (map fst (nth v l []))).
    { intro v. destruct (Nat.lt_ge_cases v (length l)) as [L|L].
      - specialize (ND v). rewrite app_nth1 in ND by exact L. exact ND.
      - rewrite nth_overflow by exact L. constructor. }
    assert (NDm : NoDup (map fst mp)). { specialize (ND (length l)). rewrite app_nth2, Nat.sub_diag in ND by lia. exact ND. }
    specialize (IH NDl off st). rewrite app_length, seq_app. cbn [length seq].
    assert (CA : combine (seq off (length l) ++ [off + length l]) (l ++ [mp]) = combine (seq off (length l)) l ++ [(off + length l, mp)]).
    { clear. revert off. induction l as [|a l IH]; intro off; cbn [length seq app combine].
      - rewrite Nat.add_0_r. reflexivity.
      - specialize (IH (S off)). replace (S off + length l) with (off + S (length l)) in IH by lia. rewrite IH. reflexivity. }
    rewrite CA, fold_left_app. cbn [fold_left]. rewrite fst_step_version. cbn [fst snd]. clear CA.
    assert (NT : forall v, v - off < length l -> nth (v - off) (l ++ [mp]) [] = nth (v - off) l []) by (intros; apply app_nth1; auto).
    assert (NL : nth (off + length l - off) (l ++ [mp]) [] = mp).
    { replace (off + length l - off) with (length l) by lia. rewrite app_nth2, Nat.sub_diag by lia. reflexivity. }
    assert (NG : forall v, length l < v - off -> nth (v - off) (l ++ [mp]) [] = []).
    { intros. apply nth_overflow. rewrite app_length. cbn. lia. }
    assert (NO : forall v, length l <= v - off -> nth (v - off) l [] = []) by (intros; apply nth_overflow; auto).
    fold (ok' (off + length l)). destruct (ok' (off + length l)) eqn:Eok.
    + rewrite dget_dupdate, lastof_nodup by exact NDm.
      destruct (dget mp nm) as [f|] eqn:Em.
      * left. exists (off + length l). rewrite NL. repeat split; auto; try lia.
        intros v' L _. rewrite NG by lia. reflexivity.
      * assert (EX : forall v', off <= v' -> dget (nth (v' - off) l []) nm = None -> dget (nth (v' - off) (l ++ [mp]) []) nm = None).
        { intros v' L E0. destruct (Nat.lt_total (v' - off) (length l)) as [L1|[L1|L1]].
          - rewrite NT by exact L1. exact E0.
          - replace v' with (off + length l) by lia. rewrite NL. exact Em.
          - rewrite NG by exact L1. reflexivity. }
        destruct (dget (fst (fold_left (step_version H d m) (combine (seq off (length l)) l) st)) nm) as [f|].
        -- destruct IH as [(v & L0 & O & Ev & Hv)|(E0 & Hv)].
           ++ left. exists v. repeat split; auto.
              ** rewrite NT; auto. destruct (Nat.lt_ge_cases (v - off) (length l)) as [L1|L1]; auto. rewrite NO in Ev by exact L1. discriminate.
              ** intros v' L O'. apply EX; [lia|]. apply Hv; auto.
           ++ right. split; auto.
        -- destruct IH as (E0 & Hv). split; auto.
    + assert (EX : forall v', off <= v' -> ok' v' = true -> dget (nth (v' - off) l []) nm = None -> dget (nth (v' - off) (l ++ [mp]) []) nm = None).
        { intros v' L O' E0. destruct (Nat.lt_total (v' - off) (length l)) as [L1|[L1|L1]].
          - rewrite NT by exact L1. exact E0.
          - exfalso. assert (v' = off + length l) by lia. congruence.
          - rewrite NG by exact L1. reflexivity. }
      destruct (dget (fst (fold_left (step_version H d m) (combine (seq off (length l)) l) st)) nm) as [f|].
      * destruct IH as [(v & L0 & O & Ev & Hv)|(E0 & Hv)].
        -- left. exists v. repeat split; auto.
           ++ rewrite NT; auto. destruct (Nat.lt_ge_cases (v - off) (length l)) as [L1|L1]; auto. rewrite NO in Ev by exact L1. discriminate.
           ++ intros v' L O'. apply EX; auto; lia.
        -- right. split; auto.
      * destruct IH as (E0 & Hv). split; auto.
Qed.

Lemma stack_domains lim reg nm :
  (forall d l v, In (d, l) reg -> NoDup (map fst (nth v l []))) ->
  match dget (fst (fold_left (step_domain H lim) reg ([], []))) nm with
  | Some f => exists r1 d l r2 v, reg = r1 ++ (d, l) :: r2 /\ ok lim d v = true /\ dget (nth v l []) nm = Some f /\
                (forall v', v < v' -> ok lim d v' = true -> dget (nth v' l []) nm = None) /\
                (forall d' l' v', In (d', l') r2 -> ok lim d' v' = true -> dget (nth v' l' []) nm = None)
  | None => forall d l v, In (d, l) reg -> ok lim d v = true -> dget (nth v l []) nm = None
  end.
Proof.
  induction reg as [|[d l] reg IH] using rev_ind; intro ND.
  - cbn. tauto.
  - rewrite fold_left_app. cbn [fold_left]. unfold step_domain at 1, enumerate. cbn [fst snd].
    assert (NDr : forall d l v, In (d, l) reg -> NoDup (map fst (nth v l []))) by (intros ? ? ? I; apply (ND _ _ v (in_or_app _ _ _ (or_introl I)))).
    specialize (IH NDr). set (st := fold_left (step_domain H lim) reg ([], [])) in *.
    assert (NDl : forall v, NoDup (map fst (nth v l []))) by (intro v; apply (ND d l v); apply in_or_app; right; left; auto).
    pose proof (stack_versions d (dget lim d) l 0 st nm NDl) as S0. cbv zeta in S0.
    destruct (dget (fst (fold_left (step_version H d (dget lim d)) (combine (seq 0 (length l)) l) st)) nm) as [f|].
    + destruct S0 as [(v & _ & O & Ev & Hv)|(E0 & Hv)].
      * exists reg, d, l, [], v. rewrite Nat.sub_0_r in Ev. repeat split; auto.
        -- intros v' L O'. specialize (Hv v' L O'). rewrite Nat.sub_0_r in Hv. exact Hv.
        -- cbn. tauto.
      * rewrite E0 in IH. destruct IH as (r1 & d1 & l1 & r2 & v & -> & O & Ev & H1 & H2).
        exists r1, d1, l1, (r2 ++ [(d, l)]), v. rewrite <- app_assoc. cbn. repeat split; auto.
        intros d' l' v' I O'. apply in_app_iff in I. destruct I as [I|[I|[]]]; [eauto|]. inversion I; subst.
        specialize (Hv v' (Nat.le_0_l _) O'). rewrite Nat.sub_0_r in Hv. exact Hv.
    + destruct S0 as (E0 & Hv). rewrite E0 in IH. intros d' l' v' I O'.
      apply in_app_iff in I. destruct I as [I|[I|[]]]; [eauto|]. inversion I; subst.
      specialize (Hv v' (Nat.le_0_l _) O'). rewrite Nat.sub_0_r in Hv. exact Hv.
Qed.

Lemma limits_requested mx extra d m : dget (limits mx extra) d = Some m <-> requested ONNX mx extra d m.
Proof.
  unfold limits. rewrite dget_dupdate. unfold requested, lastof.
  assert (K : forall m, dget (rev extra) d = Some m -> exists l1 l2, extra = l1 ++ (d, m) :: l2 /\ ~ In d (map fst l2)).
  { clear. induction extra as [|[a b] e IH] using rev_ind; intros m E; [discriminate|].
    rewrite rev_app_distr in E. cbn in E. destruct (String.eqb a d) eqn:Ed.
    - apply String.eqb_eq in Ed. inversion E; subst. exists e, []. auto.
    - destruct (IH _ E) as (l1 & l2 & -> & N). exists l1, (l2 ++ [(a, b)]). rewrite <- app_assoc. split; auto.
      rewrite map_app, in_app_iff. cbn. apply String.eqb_neq in Ed. tauto. }
  destruct (dget (rev extra) d) as [m0|] eqn:E.
  - destruct (K _ eq_refl) as (l1 & l2 & -> & N). split.
    + intro Q. inversion Q; subst. left. eauto.
    + intros [(l1' & l2' & Q & N')|(N' & _)].
      * f_equal. rewrite Q in E. rewrite rev_app_distr in E. cbn in E. rewrite !dget_app in E.
        assert (NR : dget (rev l2') d = None) by (apply dget_None; rewrite map_rev, <- in_rev; exact N').
        rewrite NR in E. cbn in E. rewrite String.eqb_refl in E. congruence.
      * exfalso. apply N'. rewrite map_app, in_app_iff. right. left. auto.
  - apply dget_None in E. rewrite map_rev, <- in_rev in E. cbn [dget].
    split.
    + destruct (String.eqb ONNX d) eqn:Ed; [|discriminate]. apply String.eqb_eq in Ed. intro Q. inversion Q. right. auto.
    + intros [(l1 & l2 & -> & _)|(_ & -> & ->)].
      * exfalso. apply E. rewrite map_app, in_app_iff. right. left. auto.
      * rewrite String.eqb_refl. reflexivity.
Qed.
Lemma ok_usable mx extra d v : ok (limits mx extra) d v = true <-> usable ONNX mx extra d v.
Proof.
  unfold ok, usable. split.
  - destruct (dget (limits mx extra) d) as [[|m]|] eqn:E; try discriminate. intro L. apply Nat.leb_le in L.
    exists (S m). apply limits_requested in E. repeat split; auto. lia.
  - intros (m & R & P & L). apply limits_requested in R. rewrite R. destruct m; [lia|]. apply Nat.leb_le. exact L.
Qed.

Lemma cell_In hist d l v nm : In (d, l) (run hist) -> cell (run hist) d v nm = dget (nth v l []) nm.
Proof. intro I. unfold cell. rewrite (In_dget _ d l); auto. apply keys_run. Qed.

Theorem create_mapping_newest hist mx extra nm f :
  dget (create_mapping (run hist) mx extra) nm = Some f -> newest ONNX mx extra hist nm f.
Proof.
  intro E. unfold create_mapping, create_mapping2 in E.
  destruct (keys_run hist) as (ND & Hk & Ho).
  assert (NDm : forall d l v, In (d, l) (run hist) -> NoDup (map fst (nth v l []))).
  { intros d l v I. apply (maps_NoDup hist d). apply In_dget; auto. }
  pose proof (stack_domains (limits mx extra) (run hist) nm NDm) as SD. rewrite E in SD.
  destruct SD as (r1 & d & l & r2 & v & Er & O & Ev & H1 & H2).
  assert (I : In (d, l) (run hist)) by (rewrite Er; apply in_app_iff; right; left; auto).
  pose proof (cell_spec hist d v nm) as C. rewrite (cell_In _ _ _ _ _ I), Ev in C. destruct C as (i & Hi & Hm).
  exists i, d, v. split; [exact Hi|]. split; [apply ok_usable; exact O|].
  intros j d' v' f' Hj U. apply ok_usable in U.
  pose proof (cell_spec hist d' v' nm) as C'. unfold cell in C'.
  destruct (dget (run hist) d') as [l'|] eqn:E'; [|exfalso; exact (C' _ _ Hj)].
  assert (I' := dget_In _ _ _ E'). rewrite Er in I'. apply in_app_iff in I'. cbn in I'. destruct I' as [I'|[I'|I']].
  - left. apply in_split in I'. destruct I' as (a & b & ->). apply (Ho (map fst a) d' (map fst b ++ d :: map fst r2)).
    + rewrite Er, !map_app. cbn. rewrite <- app_assoc. reflexivity.
    + apply in_app_iff. right. left. auto.
  - inversion I'; subst d' l'. right. split; auto.
    destruct (Nat.lt_total v' v) as [L|[->|L]]; auto.
    + right. split; auto. eauto.
    + exfalso. rewrite (H1 _ L U) in C'. exact (C' _ _ Hj).
  - exfalso. rewrite (H2 _ _ _ I' U) in C'. exact (C' _ _ Hj).
Qed.
Theorem create_mapping_none hist mx extra nm :
  dget (create_mapping (run hist) mx extra) nm = None <-> ~ supported ONNX mx extra hist nm.
Proof.
  destruct (keys_run hist) as (ND & Hk & Ho).
  assert (NDm : forall d l v, In (d, l) (run hist) -> NoDup (map fst (nth v l []))).
  { intros d l v I. apply (maps_NoDup hist d). apply In_dget; auto. }
  split.
  - intros E (i & d & v & f & R & U). unfold create_mapping, create_mapping2 in E.
    pose proof (stack_domains (limits mx extra) (run hist) nm NDm) as SD. rewrite E in SD.
    pose proof (cell_spec hist d v nm) as C. unfold cell in C.
    destruct (dget (run hist) d) as [l|] eqn:E'; [|exact (C _ _ R)].
    rewrite (SD d l v) in C; [exact (C _ _ R)|apply dget_In; exact E'|apply ok_usable; exact U].
  - intro N. destruct (dget (create_mapping (run hist) mx extra) nm) as [f|] eqn:E; auto.
    exfalso. apply N. destruct (create_mapping_newest _ _ _ _ _ E) as (i & d & v & R & U & _). exists i, d, v, f. auto.
Qed.

(** the winner is unique *)
Lemma first_use_inj hist d a b : first_use hist d a -> first_use hist d b -> a = b.
Proof.
  intros ((r & Hr & Hd) & Hn) ((r' & Hr' & Hd') & Hn'). destruct (Nat.lt_total a b) as [L|[L|L]]; auto; exfalso.
  - exact (Hn' a r L Hr Hd).
  - exact (Hn b r' L Hr' Hd').
Qed.
Lemma registered_fun hist i d v d' v' nm f f' : registered_at hist i d v nm f -> registered_at hist i d' v' nm f' -> f = f'.
Proof. intros (r & A & B & C & D & E) (r' & A' & B' & C' & D' & E'). congruence. Qed.
Lemma before_asym hist d d' : domain_before hist d d' -> ~ domain_before hist d' d.
Proof.
  intros (a & b & A & B & L) (a' & b' & A' & B' & L').
  assert (a = b') by (eapply first_use_inj; eauto). assert (b = a') by (eapply first_use_inj; eauto). lia.
Qed.
Theorem newest_unique mx extra hist nm f f' : newest ONNX mx extra hist nm f -> newest ONNX mx extra hist nm f' -> f = f'.
Proof.
  intros (i & d & v & R & U & M) (i' & d' & v' & R' & U' & M').
  destruct (M _ _ _ _ R' U') as [B|(-> & B)]; destruct (M' _ _ _ _ R U) as [B'|(Q & B')].
  - exfalso. exact (before_asym _ _ _ B B').
  - subst d'. exfalso. exact (before_asym _ _ _ B B).
  - exfalso. exact (before_asym _ _ _ B' B').
  - assert (i = i') by lia. subst i'. eapply registered_fun; eauto.
Qed.
Theorem create_mapping_spec hist mx extra nm f :
  dget (create_mapping (run hist) mx extra) nm = Some f <-> newest ONNX mx extra hist nm f.
Proof.
  split; [apply create_mapping_newest|]. intro N.
  destruct (dget (create_mapping (run hist) mx extra) nm) as [f'|] eqn:E.
  - f_equal. eapply newest_unique; [apply create_mapping_newest; exact E|exact N].
  - exfalso. apply create_mapping_none in E. apply E. destruct N as (i & d & v & R & U & _). exists i, d, v, f. auto.
Qed.
End RegProofs.

Section DomainLookup.
Variable H : Type.
Lemma NoDup_dupdate {V} (e d : list (string * V)) : NoDup (map fst d) -> NoDup (map fst (dupdate d e)).
Proof. revert d. induction e as [|[a b] e IH]; intros d ND; cbn; auto. apply IH. apply NoDup_dset. exact ND. Qed.
Lemma dupdate_mono {V} (d e : list (string * V)) nm : dget (dupdate d e) nm = None -> dget d nm = None.
Proof. rewrite dget_dupdate. destruct (lastof e nm); [discriminate|auto]. Qed.

Definition vers d m (l : list (list (string * H))) := fold_left (step_version H d m) (combine (seq 0 (length l)) l) ([], []).
Lemma combine_snoc {A} (l : list A) x off : combine (seq off (length (l ++ [x]))) (l ++ [x]) = combine (seq off (length l)) l ++ [(off + length l, x)].
Proof.
  revert off. induction l as [|a l IH]; intro off; cbn [length seq app combine].
  - rewrite Nat.add_0_r. reflexivity.
  - specialize (IH (S off)). replace (S off + length l) with (off + S (length l)) in IH by lia. rewrite IH. reflexivity.
Qed.
Lemma vers_snoc d m l x : vers d m (l ++ [x]) = step_version H d m (vers d m l) (length l, x).
Proof. unfold vers. rewrite combine_snoc, fold_left_app. reflexivity. Qed.
Definition okm (m : option nat) v := match m with Some (S m') => Nat.leb v (S m') | _ => false end.

Lemma vers_mono d m l k nm : dget (fst (vers d m l)) nm = None -> dget (fst (vers d m (firstn k l))) nm = None.
Proof.
  induction l as [|x l IH] using rev_ind; [rewrite firstn_nil; auto|].
  destruct (Nat.lt_ge_cases (length l) k) as [L|L].
  - rewrite firstn_all2 by (rewrite app_length; cbn; lia). auto.
  - rewrite firstn_app. replace (k - length l) with 0 by lia. cbn [firstn]. rewrite app_nil_r.
    intro E. apply IH. rewrite vers_snoc, fst_step_version in E. fold (okm m (fst (length l, x))) in E.
    destruct (okm m (fst (length l, x))); auto. apply dupdate_mono in E. exact E.
Qed.
Lemma vers_NoDup d m l : NoDup (map fst (fst (vers d m l))).
Proof.
  induction l as [|x l IH] using rev_ind; [constructor|]. rewrite vers_snoc, fst_step_version.
  destruct m as [[|m]|]; auto. destruct (Nat.leb (fst (length l, x)) (S m)); auto. apply NoDup_dupdate. exact IH.
Qed.
Lemma vers_dom d m l :
  match dget (snd (vers d m l)) d with
  | None => forall v, okm m v = true -> nth v l [] = []
  | Some t => exists k, k < length l /\ okm m k = true /\ (forall v, k < v -> okm m v = true -> nth v l [] = []) /\
                forall nm, dget t nm = dget (fst (vers d m (firstn k l))) nm
  end.
Proof.
  induction l as [|x l IH] using rev_ind.
  - cbn. intros. destruct v; auto.
  - rewrite vers_snoc. pose proof (vers_NoDup d m l) as ND. pose proof (vers_mono d m l) as MO.
    assert (EL : firstn (length l) (l ++ [x]) = l) by (rewrite firstn_app, Nat.sub_diag, firstn_all; apply app_nil_r).
    assert (FN : forall k, k <= length l -> firstn k (l ++ [x]) = firstn k l).
    { intros k L. rewrite firstn_app. replace (k - length l) with 0 by lia. apply app_nil_r. }
    destruct (vers d m l) as [ops doms] eqn:EV. cbn [snd fst] in *.
    assert (Stay : (okm m (length l) = true -> x = []) ->
      match dget doms d with
      | None => forall v, okm m v = true -> nth v (l ++ [x]) [] = []
      | Some t => exists k, k < length (l ++ [x]) /\ okm m k = true /\ (forall v, k < v -> okm m v = true -> nth v (l ++ [x]) [] = []) /\
                forall nm, dget t nm = dget (fst (vers d m (firstn k (l ++ [x])))) nm
      end).
    { intro Q. assert (NX : forall v, okm m v = true -> nth v l [] = [] -> nth v (l ++ [x]) [] = []).
      { intros v O E0. destruct (Nat.lt_total v (length l)) as [L|[->|L]].
        - rewrite app_nth1 by exact L. exact E0.
        - rewrite app_nth2, Nat.sub_diag by lia. apply Q. exact O.
        - apply nth_overflow. rewrite app_length. cbn. lia. }
      destruct (dget doms d) as [t|].
      - destruct IH as (k & L & O & Hk & Ht). exists k. rewrite app_length. repeat split; auto; try lia.
        intro nm. rewrite FN by lia. apply Ht.
      - intros v O. apply NX; auto. }
    unfold step_version. destruct m as [[|m]|].
    + cbn [snd]. apply Stay. discriminate.
    + cbn [fst snd]. destruct (Nat.leb (length l) (S m) && HandlerModel.nonempty x) eqn:E; cbn [snd].
      * apply andb_prop in E. destruct E as [E1 E2]. rewrite dget_dset, String.eqb_refl.
        exists (length l). rewrite app_length. cbn [length]. split; [lia|]. split; [exact E1|]. split.
        -- intros v L _. apply nth_overflow. rewrite app_length. cbn. lia.
        -- intro nm. rewrite EL, EV. cbn [fst]. rewrite dget_dupdate, lastof_nodup by exact ND.
           destruct (dget ops nm) eqn:Eo; auto. destruct (dget doms d) as [t|]; auto.
           destruct IH as (k & L & O & Hk & Ht). rewrite Ht. apply MO. exact Eo.
      * apply Stay. intro O. cbn in O. rewrite O in E. cbn [andb] in E. destruct x; [auto|discriminate].
    + cbn [snd]. apply Stay. discriminate.
Qed.

Lemma snd_step_version_other d d' m st vm : d <> d' -> dget (snd (step_version H d m st vm)) d' = dget (snd st) d'.
Proof.
  intro N. destruct st as [ops doms]. unfold step_version. destruct m as [[|m]|]; auto.
  destruct (Nat.leb (fst vm) (S m) && HandlerModel.nonempty (snd vm)); auto. cbn [snd]. rewrite dget_dset.
  destruct (String.eqb d d') eqn:E; auto. apply String.eqb_eq in E. contradiction.
Qed.
Lemma snd_step_domain_other lim e d' st : fst e <> d' -> dget (snd (step_domain H lim st e)) d' = dget (snd st) d'.
Proof.
  intro N. unfold step_domain, enumerate. generalize (combine (seq 0 (length (snd e))) (snd e)). intro l. revert st.
  induction l as [|x l IH]; intro st; cbn; auto. rewrite IH. apply snd_step_version_other. exact N.
Qed.
Lemma first_domain (hist : list (registration H)) d l rest : run H hist = (d, l) :: rest -> forall lim,
  dget (snd (fold_left (step_domain H lim) (run H hist) ([], []))) d = dget (snd (vers d (dget lim d) l)) d.
Proof.
  intros E lim. destruct (keys_run H hist) as (ND & _). rewrite E in ND. cbn in ND. inversion ND as [|? ? NI ND']; subst.
  rewrite E. cbn [fold_left].
  assert (K : forall r st, ~ In d (map fst r) -> dget (snd (fold_left (step_domain H lim) r st)) d = dget (snd st) d).
  { clear. induction r as [|e r IH]; intros st N; cbn in *; auto. rewrite IH by tauto. apply snd_step_domain_other. tauto. }
  rewrite K by exact NI. reflexivity.
Qed.

Theorem domain_lookup (hist : list (registration H)) mx extra d nm f i v w :
  first_use hist d 0 -> registered_at hist i d v nm f ->
  (forall j v' f', registered_at hist j d v' nm f' -> usable ONNX mx extra d v' -> v' < v \/ (v' = v /\ j <= i)) ->
  v < w -> usable ONNX mx extra d w -> (exists j nm' f', registered_at hist j d w nm' f') ->
  find_effective_op (run H hist) mx extra nm (Some d) = Some f.
Proof.
  intros FU R M L UW (jw & nw & fw & RW). unfold find_effective_op, create_mapping2.
  destruct (keys_run H hist) as (ND & Hk & Ho).
  assert (FD : exists l rest, run H hist = (d, l) :: rest).
  { assert (I : In d (map fst (run H hist))) by (apply Hk; eauto).
    destruct (run H hist) as [|[d0 l] rest] eqn:E; [destruct I|].
    destruct (string_dec d0 d) as [->|N]; [eauto|]. exfalso. destruct I as [I|I]; [auto|].
    destruct (Ho [] d0 (map fst rest) d eq_refl I) as (a & b & A & B & C).
    assert (b = 0) by (eapply first_use_inj; eauto). lia. }
  destruct FD as (l & rest & E). rewrite (first_domain hist d l rest E (limits mx extra)).
  set (m := dget (limits mx extra) d).
  assert (OK : forall v, okm m v = true <-> usable ONNX mx extra d v) by (intro u; rewrite <- ok_usable; reflexivity).
  assert (I : In (d, l) (run H hist)) by (rewrite E; left; auto).
  assert (NDl : forall v, NoDup (map fst (nth v l []))) by (intro u; apply (maps_NoDup H hist d); apply In_dget; auto).
  assert (CW : nth w l [] <> []).
  { pose proof (cell_spec H hist d w nw) as C. rewrite (cell_In _ _ _ _ _ _ I) in C. intro Q. rewrite Q in C. exact (C _ _ RW). }
  pose proof (vers_dom d m l) as VD. destruct (dget (snd (vers d m l)) d) as [t|].
  2:{ exfalso. apply CW. apply VD. apply OK. exact UW. }
  destruct VD as (k & Lk & Ok & Hk' & Ht). rewrite Ht.
  assert (w <= k). { destruct (Nat.le_gt_cases w k); auto. exfalso. apply CW. apply Hk'; auto. apply OK. exact UW. }
  assert (NDf : forall v, NoDup (map fst (nth v (firstn k l) []))).
  { intro u. destruct (Nat.lt_ge_cases u k) as [Lu|Lu].
    - assert (Q : nth u (firstn k l) [] = nth u l []). { pose proof (nth_error_firstn l u k Lu) as Q.
        rewrite <- !(nth_default_eq). unfold nth_default. rewrite Q. reflexivity. }
      rewrite Q. apply NDl.
    - rewrite nth_overflow; [constructor|]. rewrite firstn_length. lia. }
  assert (NF : forall u, u < k -> nth u (firstn k l) [] = nth u l []).
  { intros u Lu. rewrite <- !(nth_default_eq). unfold nth_default. rewrite (nth_error_firstn l u k Lu). reflexivity. }
  pose proof (stack_versions H d m (firstn k l) 0 ([], []) nm NDf) as SV. cbv zeta in SV. fold (vers d m (firstn k l)) in SV.
  assert (Cv : dget (nth v l []) nm = Some f).
  { pose proof (cell_spec H hist d v nm) as C. rewrite (cell_In _ _ _ _ _ _ I) in C. destruct (dget (nth v l []) nm) as [g|].
    - destruct C as (i' & R' & M'). assert (i <= i') by eauto.
      assert (Uv : usable ONNX mx extra d v). { destruct UW as (q & Q1 & Q2 & Q3). exists q. repeat split; auto. lia. }
      destruct (M _ _ _ R' Uv) as [?|[_ ?]]; [lia|]. assert (i' = i) by lia. subst i'. f_equal. eapply registered_fun; eauto.
    - exfalso. exact (C _ _ R). }
  assert (Ov : okm m v = true). { apply OK. destruct UW as (q & Q1 & Q2 & Q3). exists q. repeat split; auto. lia. }
  destruct (dget (fst (vers d m (firstn k l))) nm) as [g|].
  - destruct SV as [(v0 & _ & O & E0 & HX)|(E0 & _)]; [|discriminate]. rewrite Nat.sub_0_r in E0.
    destruct (Nat.lt_ge_cases v0 k) as [L0|L0].
    2:{ rewrite nth_overflow in E0 by (rewrite firstn_length; lia). discriminate. }
    rewrite NF in E0 by exact L0.
    assert (v0 = v); [|congruence].
    destruct (Nat.lt_total v0 v) as [Q|[Q|Q]]; auto; exfalso.
    + specialize (HX v Q Ov). rewrite Nat.sub_0_r, NF in HX by lia. congruence.
    + pose proof (cell_spec H hist d v0 nm) as C. rewrite (cell_In _ _ _ _ _ _ I), E0 in C. destruct C as (i' & R' & _).
      apply OK in O. destruct (M _ _ _ R' O) as [?|[? ?]]; lia.
  - exfalso. destruct SV as (_ & HX). specialize (HX v (Nat.le_0_l _) Ov). rewrite Nat.sub_0_r, NF in HX by lia. congruence.
Qed.
End DomainLookup.

(** custom handlers *)
Section Custom.
Variable H : Type.
Lemma custom_on_top (reg : registry H) mx extra custom nm :
  dget (fst (conversion reg mx extra custom)) nm =
  match dget (rev custom) nm with Some (f, _) => Some f | None => dget (create_mapping reg mx extra) nm end.
Proof.
  unfold conversion. cbn [fst]. rewrite dget_dupdate. unfold lastof. rewrite <- map_rev.
  induction (rev custom) as [|[k [a b]] c IH]; cbn; auto. destruct (String.eqb k nm); auto.
Qed.
Definition custom_regs (custom : list (string * (H * H))) : list (registration H) :=
  map (fun e => Registration (snd (snd e)) 1 [fst e] TF_DOMAIN) custom.
Lemma conversion_registry (hist : list (registration H)) mx extra custom :
  snd (conversion (run H hist) mx extra custom) = run H (hist ++ custom_regs custom).
Proof.
  unfold conversion. cbn [snd]. unfold run. rewrite fold_left_app.
  match goal with |- fold_left ?a ?b ?c = fold_left ?e ?f ?g => change c with g; generalize g end.
  induction custom as [|x c IH]; intro r; cbn; auto.
Qed.
(** registrations in a domain that is not requested change nothing *)
Lemma unrequested_irrelevant (hist l : list (registration H)) mx extra nm f :
  (forall r, In r l -> forall v, ~ usable ONNX mx extra (rdomain r) v) ->
  newest ONNX mx extra (hist ++ l) nm f -> newest ONNX mx extra hist nm f.
Proof.
  intros N (i & d & v & R & U & M).
  assert (RL : forall j d v nm f, registered_at (hist ++ l) j d v nm f -> usable ONNX mx extra d v -> registered_at hist j d v nm f).
  { intros j d0 v0 nm0 f0 (r & Hr & A) U0. destruct (Nat.lt_ge_cases j (length hist)) as [L|L].
    - rewrite nth_error_app1 in Hr by exact L. exists r. auto.
    - rewrite nth_error_app2 in Hr by exact L. apply nth_error_In in Hr. exfalso. destruct A as (<- & _). exact (N _ Hr _ U0). }
  assert (RR : forall j d v nm f, registered_at hist j d v nm f -> registered_at (hist ++ l) j d v nm f).
  { intros j d0 v0 nm0 f0 (r & Hr & A). exists r. split; auto. rewrite nth_error_app1; auto. apply nth_error_Some. congruence. }
  exists i, d, v. split; [apply RL; auto|]. split; auto. intros j d' v' f' R' U'.
  destruct (M _ _ _ _ (RR _ _ _ _ _ R') U') as [(a & b & A & B & C)|K]; [left|right; exact K].
  assert (FL : forall d a j v nm f, registered_at hist j d v nm f -> first_use (hist ++ l) d a -> first_use hist d a).
  { intros d0 a0 j0 v0 nm0 f0 (r & Hr & Hd & _) ((r' & Hr' & Hd') & Hn).
    assert (j0 < length hist) by (apply nth_error_Some; congruence).
    assert (a0 <= j0). { destruct (Nat.le_gt_cases a0 j0); auto. exfalso. apply (Hn j0 r); auto. rewrite nth_error_app1 by lia. exact Hr. }
    split.
    - exists r'. split; auto. rewrite nth_error_app1 in Hr' by lia. exact Hr'.
    - intros q r2 Lq Hq. apply (Hn q); auto. rewrite nth_error_app1 by lia. exact Hq. }
  exists a, b. split; [eapply FL; eauto|]. split; [eapply FL; eauto|exact C].
Qed.
Lemma unrequested_irrelevant2 (hist l : list (registration H)) mx extra nm :
  (forall r, In r l -> forall v, ~ usable ONNX mx extra (rdomain r) v) ->
  dget (create_mapping (run H (hist ++ l)) mx extra) nm = dget (create_mapping (run H hist) mx extra) nm.
Proof.
  intro N. destruct (dget (create_mapping (run H (hist ++ l)) mx extra) nm) as [f|] eqn:E.
  - symmetry. apply create_mapping_spec. apply create_mapping_spec in E. eapply unrequested_irrelevant; eauto.
  - symmetry. apply create_mapping_none. apply create_mapping_none in E. intros (i & d & v & f & (r & Hr & A) & U). apply E.
    exists i, d, v, f. split; auto. exists r. split; auto. rewrite nth_error_app1; auto. apply nth_error_Some. congruence.
Qed.
End Custom.

Section SchemaProofs.
Variable S' : Type.
Implicit Types (l : list (nat * S')).
Lemma zset_keys l k v : map fst (zset S' l k v) = if in_dec Nat.eq_dec k (map fst l) then map fst l else map fst l ++ [k].
Proof.
  induction l as [|[a b] l IH]; cbn [zset]; [reflexivity|].
  destruct (Nat.eqb a k) eqn:E.
  - apply Nat.eqb_eq in E; subst. destruct (in_dec Nat.eq_dec k (map fst ((k, b) :: l))) as [|N]; auto. exfalso. apply N. left. auto.
  - apply Nat.eqb_neq in E. cbn [map fst]. rewrite IH.
    destruct (in_dec Nat.eq_dec k (map fst l)) as [I|I]; destruct (in_dec Nat.eq_dec k (a :: map fst l)) as [J|J]; auto.
    + exfalso. apply J. right. exact I.
    + exfalso. destruct J as [J|J]; auto.
Qed.
Lemma zset_In l k v k' v' : NoDup (map fst l) -> In (k', v') (zset S' l k v) <-> (k' = k /\ v' = v) \/ (k' <> k /\ In (k', v') l).
Proof.
  induction l as [|[a b] l IH]; intro ND; cbn [zset].
  - cbn. split; [intros [Q|[]]; inversion Q; auto|]. intros [[-> ->]|[_ []]]. auto.
  - cbn in ND. inversion ND as [|? ? NI ND']; subst. destruct (Nat.eqb a k) eqn:E.
    + apply Nat.eqb_eq in E; subst. cbn. split.
      * intros [Q|Q]; [inversion Q; auto|]. right. split; auto. intros ->. apply NI. apply in_map_iff. exists (k, v'). auto.
      * intros [[-> ->]|[N [Q|Q]]]; auto. inversion Q; subst. contradiction.
    + apply Nat.eqb_neq in E. cbn. rewrite IH by exact ND'. split.
      * intros [Q|[Q|Q]]; auto; [inversion Q; subst; right; auto|tauto].
      * tauto.
Qed.
Lemma insert_desc_In e l x : In x (insert_desc S' e l) <-> x = e \/ In x l.
Proof.
  induction l as [|y l IH]; cbn; [intuition|]. destruct (Nat.leb (fst y) (fst e)); cbn; [intuition|]. rewrite IH. intuition.
Qed.
Lemma sort_desc_In l x : In x (sort_desc S' l) <-> In x l.
Proof. induction l as [|y l IH]; cbn; [tauto|]. rewrite insert_desc_In, IH. intuition. Qed.
Inductive desc : list (nat * S') -> Prop :=
| desc_nil : desc []
| desc_cons x l : (forall y, In y l -> fst y <= fst x) -> desc l -> desc (x :: l).
Lemma insert_desc_sorted e l : desc l -> desc (insert_desc S' e l).
Proof.
  induction 1 as [|x l Hx Hl IH]; cbn.
  - constructor; [cbn; tauto|constructor].
  - destruct (Nat.leb (fst x) (fst e)) eqn:E.
    + apply Nat.leb_le in E. constructor; [|constructor; auto]. intros y [<-|I]; auto. specialize (Hx _ I). lia.
    + apply Nat.leb_gt in E. constructor; auto. intros y I. apply insert_desc_In in I. destruct I as [->|I]; [lia|auto].
Qed.
Lemma sort_desc_sorted l : desc (sort_desc S' l).
Proof. induction l; cbn; [constructor|]. apply insert_desc_sorted. exact IHl. Qed.

(** the last schema registered for a version *)
Lemma zset_fold es k v :
  let d := fold_left (fun d e => zset S' d (eversion e) (eschema e)) es [] in
  NoDup (map fst d) /\
  (In (k, v) d <-> exists i e, nth_error es i = Some e /\ eversion e = k /\ eschema e = v /\
     forall j e', nth_error es j = Some e' -> eversion e' = k -> j <= i).
Proof.
  cbv zeta. induction es as [|x es [ND IH]] using rev_ind.
  - cbn. split; [constructor|]. split; [tauto|]. intros (i & e & Hi & _). destruct i; discriminate.
  - rewrite fold_left_app. cbn [fold_left]. split.
    + rewrite zset_keys. destruct (in_dec Nat.eq_dec (eversion x) _) as [|N]; auto.
      rewrite <- (rev_involutive (_ ++ _)). apply NoDup_rev. rewrite rev_app_distr. cbn. constructor.
      * rewrite <- in_rev. exact N.
      * apply NoDup_rev. exact ND.
    + rewrite zset_In by exact ND. rewrite IH. split.
      * intros [[-> ->]|[N (i & e & Hi & A & B & C)]].
        -- exists (length es), x. rewrite nth_error_app2, Nat.sub_diag by lia. repeat split; auto.
           intros j e' Hj _. assert (j < length (es ++ [x])) by (apply nth_error_Some; congruence). rewrite app_length in *. cbn in *. lia.
        -- exists i, e. assert (i < length es) by (apply nth_error_Some; congruence). rewrite nth_error_app1 by lia. repeat split; auto.
           intros j e' Hj Q. destruct (Nat.lt_ge_cases j (length es)) as [L|L].
           ++ rewrite nth_error_app1 in Hj by exact L. eauto.
           ++ rewrite nth_error_app2 in Hj by exact L. destruct (j - length es) as [|[|?]]; cbn in Hj; inversion Hj; subst. congruence.
      * intros (i & e & Hi & A & B & C).
        destruct (Nat.lt_ge_cases i (length es)) as [L|L].
        -- rewrite nth_error_app1 in Hi by exact L. destruct (Nat.eq_dec k (eversion x)) as [Q|Q].
           ++ exfalso. specialize (C (length es) x). rewrite nth_error_app2, Nat.sub_diag in C by lia. specialize (C eq_refl (eq_sym Q)). lia.
           ++ right. split; auto. exists i, e. repeat split; auto. intros j e' Hj. apply C. rewrite nth_error_app1; auto. apply nth_error_Some. congruence.
        -- rewrite nth_error_app2 in Hi by exact L. destruct (i - length es) as [|[|?]]; cbn in Hi; inversion Hi; subst. auto.
Qed.
Lemma find_desc (l : list (nat * S')) maxv : desc l ->
  match find (fun kv => Nat.leb (fst kv) maxv) l with
  | Some (k, v) => In (k, v) l /\ k <= maxv /\ forall k' v', In (k', v') l -> k' <= maxv -> k' <= k
  | None => forall k v, In (k, v) l -> maxv < k
  end.
Proof.
  induction 1 as [|[k v] l Hx Hl IH]; cbn [find fst].
  - cbn. tauto.
  - destruct (Nat.leb k maxv) eqn:E.
    + apply Nat.leb_le in E. split; [left; auto|]. split; auto. intros k' v' [Q|I] _; [inversion Q; lia|]. exact (Hx _ I).
    + apply Nat.leb_gt in E. destruct (find _ l) as [[k0 v0]|].
      * destruct IH as (A & B & C). split; [right; auto|]. split; auto. intros k' v' [Q|I] L; [inversion Q; lia|eauto].
      * intros k' v' [Q|I]; [inversion Q; subst; auto|eauto].
Qed.
End SchemaProofs.

Section SchemaLookup.
Variable S' : Type.
Implicit Types (all : list (entry S')).
Definition sat all i name domain v s : Prop :=
  exists e, nth_error all i = Some e /\ ename e = name /\ edomain e = domain /\ eversion e = v /\ eschema e = s.
(** [filter] keeps the relative order: position of the filtered element *)
Lemma filter_pos {A} (p : A -> bool) (l : list A) : forall i x, nth_error (filter p l) i = Some x ->
  exists k, nth_error l k = Some x /\ p x = true /\ length (filter p (firstn k l)) = i.
Proof.
  induction l as [|a l IH]; intros i x E; [destruct i; discriminate|]. cbn [filter] in E. destruct (p a) eqn:P.
  - destruct i as [|i]; cbn in E.
    + inversion E; subst. exists 0. auto.
    + destruct (IH _ _ E) as (k & A1 & A2 & A3). exists (S k). cbn [firstn filter nth_error]. rewrite P. cbn. auto.
  - destruct (IH _ _ E) as (k & A1 & A2 & A3). exists (S k). cbn [firstn filter nth_error]. rewrite P. auto.
Qed.
Lemma pos_filter {A} (p : A -> bool) (l : list A) : forall k x, nth_error l k = Some x -> p x = true ->
  nth_error (filter p l) (length (filter p (firstn k l))) = Some x.
Proof.
  induction l as [|a l IH]; intros k x E P; [destruct k; discriminate|]. destruct k as [|k]; cbn [nth_error] in E.
  - inversion E; subst. cbn. rewrite P. reflexivity.
  - cbn [firstn filter]. destruct (p a); cbn; auto.
Qed.
Lemma filter_len_mono {A} (p : A -> bool) (l : list A) i j x : nth_error l j = Some x -> p x = true -> j < i ->
  length (filter p (firstn j l)) < length (filter p (firstn i l)).
Proof.
  revert i j. induction l as [|a l IH]; intros i j E P L; [destruct j; discriminate|].
  destruct i as [|i]; [lia|]. destruct j as [|j]; cbn [nth_error firstn filter] in *.
  - inversion E; subst. rewrite P. cbn. lia.
  - specialize (IH i j E P ltac:(lia)). destruct (p a); cbn; lia.
Qed.
Lemma version_map_spec all name domain v s :
  In (v, s) (version_map all name domain) <->
  exists i, sat all i name domain v s /\ forall j s', sat all j name domain v s' -> j <= i.
Proof.
  unfold version_map. set (p := fun e : entry S' => (String.eqb (ename e) name && String.eqb (edomain e) domain)%bool).
  rewrite sort_desc_In. destruct (zset_fold S' (filter p all) v s) as [_ ->].
  assert (PT : forall e, p e = true <-> ename e = name /\ edomain e = domain).
  { intro e. unfold p. rewrite andb_true_iff, !String.eqb_eq. tauto. }
  split.
  - intros (i & e & Hi & Hv & Hs & M). apply filter_pos in Hi. destruct Hi as (k & Hk & Pk & Lk). apply PT in Pk as Pk'.
    exists k. split; [exists e; tauto|]. intros j s' (e' & Hj & A & B & C & D).
    destruct (Nat.le_gt_cases j k) as [|L]; auto. exfalso.
    assert (Q := pos_filter p all j e' Hj (proj2 (PT e') (conj A B))). specialize (M _ _ Q C).
    assert (W := filter_len_mono p all j k e Hk Pk L). lia.
  - intros (k & (e & Hk & A & B & C & D) & M). assert (Pe : p e = true) by (apply PT; auto).
    exists (length (filter p (firstn k all))), e. split; [apply pos_filter; auto|]. split; auto. split; auto.
    intros j e' Hj C'. apply filter_pos in Hj. destruct Hj as (k' & Hk' & Pk' & <-).
    assert (k' <= k). { apply (M k' (eschema e')). exists e'. apply PT in Pk'. tauto. }
    destruct (Nat.eq_dec k' k) as [->|]; auto. assert (W := filter_len_mono p all k k' e' Hk' Pk' ltac:(lia)). lia.
Qed.
Lemma last_sat all name domain v : (exists i s, sat all i name domain v s) ->
  exists i s, sat all i name domain v s /\ forall j s', sat all j name domain v s' -> j <= i.
Proof.
  induction all as [|x all IH] using rev_ind.
  - intros (i & s & e & He & _). destruct i; discriminate.
  - intros (i & s & e & He & A). 
    destruct (string_dec (ename x) name) as [E1|E1]; [destruct (string_dec (edomain x) domain) as [E2|E2]; [destruct (Nat.eq_dec (eversion x) v) as [E3|E3]|]|].
    1:{ exists (length all), (eschema x). split.
        - exists x. rewrite nth_error_app2, Nat.sub_diag by lia. auto.
        - intros j s' (e' & He' & _). assert (j < length (all ++ [x])) by (apply nth_error_Some; congruence). rewrite app_length in *. cbn in *. lia. }
    all: assert (D : forall j s', sat (all ++ [x]) j name domain v s' -> sat all j name domain v s') by
      (intros j s' (e' & He' & A'); destruct (Nat.lt_ge_cases j (length all)) as [L|L];
       [rewrite nth_error_app1 in He' by exact L; exists e'; auto|
        rewrite nth_error_app2 in He' by exact L; destruct (j - length all) as [|[|?]]; cbn in He'; inversion He'; subst; exfalso; tauto]).
    all: destruct IH as (i' & s' & (e' & He' & A') & M); [exists i, s; apply D; exists e; auto|];
      exists i', s'; split; [exists e'; rewrite nth_error_app1 by (apply nth_error_Some; congruence); auto|eauto].
Qed.
Lemma schema_newest all name domain maxv s :
  get_schema all name maxv domain = Some s ->
  exists i v, sat all i name domain v s /\ v <= maxv /\
    forall j v' s', sat all j name domain v' s' -> v' <= maxv -> v' < v \/ (v' = v /\ j <= i).
Proof.
  unfold get_schema. intro E. pose proof (find_desc S' (version_map all name domain) maxv (sort_desc_sorted _ _)) as F.
  destruct (find _ (version_map all name domain)) as [[k v]|]; [|discriminate]. cbn in E. inversion E; subst v.
  destruct F as (I & L & M). apply version_map_spec in I. destruct I as (i & Hs & Hm).
  exists i, k. split; auto. split; auto. intros j v' s' Hj L'.
  destruct (Nat.eq_dec v' k) as [->|N]; [right; split; eauto|]. left.
  destruct (last_sat all name domain v') as (i2 & s2 & H2 & M2); [eauto|].
  assert (v' <= k). { apply (M v' s2); auto. apply version_map_spec. eauto. } lia.
Qed.
Lemma schema_none all name domain maxv :
  get_schema all name maxv domain = None <-> (forall j v s, sat all j name domain v s -> maxv < v).
Proof.
  unfold get_schema. pose proof (find_desc S' (version_map all name domain) maxv (sort_desc_sorted _ _)) as F.
  destruct (find _ (version_map all name domain)) as [[k v]|]; cbn; (split; [intro E; try discriminate|]).
  - intro N. exfalso. destruct F as (I & L & _). apply version_map_spec in I. destruct I as (i & Hs & _). specialize (N _ _ _ Hs). lia.
  - intros j v s Hj. destruct (last_sat all name domain v) as (i2 & s2 & H2 & M2); [eauto|]. apply (F v s2). apply version_map_spec. eauto.
  - auto.
Qed.
Lemma max_supported_spec all domain :
  match max_supported all domain with
  | Some m => (exists i name s, sat all i name domain m s) /\ forall i name v s, sat all i name domain v s -> v <= m
  | None => forall i name v s, ~ sat all i name domain v s
  end.
Proof.
  unfold max_supported.
  assert (IN : forall i name v s, sat all i name domain v s -> In name (map ename all)).
  { intros i name v s (e & He & <- & _). apply in_map. eapply nth_error_In; eauto. }
  assert (K : forall names, 
    match fold_left (fun acc nm => match version_map all nm domain with
                           | [] => acc
                           | (v, _) :: _ => Some (match acc with None => v | Some a => Nat.max a v end) end) names None with
    | Some m => (exists i name s, sat all i name domain m s) /\ forall i name v s, In name names -> sat all i name domain v s -> v <= m
    | None => forall i name v s, In name names -> ~ sat all i name domain v s
    end).
  { induction names as [|nm names IH] using rev_ind; [cbn; tauto|]. rewrite fold_left_app. cbn [fold_left].
    assert (VM : match version_map all nm domain with
                 | [] => forall i v s, ~ sat all i nm domain v s
                 | (v, _) :: _ => (exists i s, sat all i nm domain v s) /\ forall i v' s, sat all i nm domain v' s -> v' <= v end).
    { pose proof (sort_desc_sorted S' (fold_left (fun d e => zset S' d (eversion e) (eschema e))
        (filter (fun e => String.eqb (ename e) nm && String.eqb (edomain e) domain)%bool all) [])) as DS.
      fold (version_map all nm domain) in DS. pose proof (version_map_spec all nm domain) as VS.
      destruct (version_map all nm domain) as [|[v s] vm].
      - intros i v s Hs. destruct (last_sat all nm domain v) as (i2 & s2 & H2 & M2); [eauto|].
        assert (I : In (v, s2) []) by (apply VS; eauto). exact I.
      - inversion DS as [|? ? Hx Hl]; subst. split.
        + destruct (proj1 (VS v s) (or_introl eq_refl)) as (i & Hi & _). eauto.
        + intros i v' s' Hs. destruct (last_sat all nm domain v') as (i2 & s2 & H2 & M2); [eauto|].
          destruct (proj2 (VS v' s2)) as [Q|I]; [eauto|inversion Q; lia|]. exact (Hx _ I). }
    destruct (fold_left _ names None) as [m|].
    - destruct IH as (Ex & Mx). destruct (version_map all nm domain) as [|[v s] vm].
      + split; auto. intros i name v s I Hs. apply in_app_iff in I. destruct I as [I|[<-|[]]]; [eauto|]. exfalso. exact (VM _ _ _ Hs).
      + destruct VM as ((i1 & s1 & V1) & V2). split.
        * destruct (Nat.max_spec m v) as [[_ ->]|[_ ->]]; eauto.
        * intros i name v' s' I Hs. apply in_app_iff in I. destruct I as [I|[<-|[]]]; [specialize (Mx _ _ _ _ I Hs)|specialize (V2 _ _ _ Hs)]; lia.
    - destruct (version_map all nm domain) as [|[v s] vm].
      + intros i name v s I Hs. apply in_app_iff in I. destruct I as [I|[<-|[]]]; [exact (IH _ _ _ _ I Hs)|exact (VM _ _ _ Hs)].
      + destruct VM as ((i1 & s1 & V1) & V2). split; [eauto|].
        intros i name v' s' I Hs. apply in_app_iff in I. destruct I as [I|[<-|[]]]; [exfalso; exact (IH _ _ _ _ I Hs)|eauto]. }
  specialize (K (map ename all)). destruct (fold_left _ (map ename all) None) as [m|].
  - destruct K as (A & B). split; auto. intros. eapply B; eauto.
  - intros i name v s Hs. exact (K _ _ _ _ (IN _ _ _ _ Hs) Hs).
Qed.
End SchemaLookup.
