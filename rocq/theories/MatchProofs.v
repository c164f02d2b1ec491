From Coq Require Import Ascii String List Arith Bool Lia Permutation.
From Verif Require Import MatchModel MatchSpec.
Import ListNotations.
Local Open Scope string_scope. Local Open Scope list_scope.

Lemma pattern_ind' (P : pattern -> Prop) :
  (forall i n t r ins, Forall P ins -> P (Pat i n t r ins)) -> forall p, P p.
Proof.
  intro H. fix IH 1. intros [i n t r ins]. apply H. induction ins as [|q ins IHi]; constructor; [apply IH|exact IHi].
Qed.

(** splitting at bars *)
Lemma no_bar_nil : no_bar "".
Proof. intros [|c a] b E; discriminate. Qed.
Lemma no_bar_cons c s : no_bar (String c s) <-> c <> "|"%char /\ no_bar s.
Proof.
  split.
  - intro N. split.
    + intros ->. exact (N "" s eq_refl).
    + intros a b ->. exact (N (String c a) b eq_refl).
  - intros [Hc N] [|x a] b E; cbn in E; inversion E; subst; [auto|]. exact (N _ _ eq_refl).
Qed.
Lemma split_bar_ne s : split_bar s <> [].
Proof. destruct s; cbn; [discriminate|]. destruct (Ascii.eqb a "|"); [discriminate|]. destruct (split_bar s); discriminate. Qed.
Lemma split_bar_no_bar s x : In x (split_bar s) -> no_bar x.
Proof.
  revert x. induction s as [|c s IH]; intros x; cbn.
  - intros [<-|[]]. apply no_bar_nil.
  - destruct (Ascii.eqb c "|") eqn:E.
    + intros [<-|I]; [apply no_bar_nil|auto].
    + apply Ascii.eqb_neq in E. destruct (split_bar s) as [|y l].
      * intros [<-|[]]. apply no_bar_cons. split; [exact E|apply no_bar_nil].
      * intros [<-|I]; [|apply IH; right; exact I]. apply no_bar_cons. split; [exact E|]. apply IH. left. reflexivity.
Qed.
Lemma split_bar_concat s : String.concat "|" (split_bar s) = s.
Proof.
  induction s as [|c s IH]; cbn; [reflexivity|]. destruct (Ascii.eqb c "|") eqn:E.
  - apply Ascii.eqb_eq in E. subst c. pose proof (split_bar_ne s) as N. destruct (split_bar s) as [|y l]; [contradiction|].
    cbn [String.concat]. cbn [String.append]. f_equal. exact IH.
  - destruct (split_bar s) as [|y l]; [cbn in IH; subst s; reflexivity|]. destruct l; cbn in *; rewrite <- IH; reflexivity.
Qed.
Lemma split_bar_part x : no_bar x -> split_bar x = [x].
Proof.
  induction x as [|c x IH]; intro N; [reflexivity|]. apply no_bar_cons in N. destruct N as [Hc N]. cbn [split_bar].
  destruct (Ascii.eqb c "|") eqn:E; [apply Ascii.eqb_eq in E; contradiction|]. rewrite IH by exact N. reflexivity.
Qed.
Lemma split_bar_app x s : no_bar x -> split_bar (x ++ "|" ++ s) = x :: split_bar s.
Proof.
  induction x as [|c x IH]; intro N; cbn [String.append].
  - reflexivity.
  - apply no_bar_cons in N. destruct N as [Hc N]. cbn [split_bar].
    destruct (Ascii.eqb c "|") eqn:E; [apply Ascii.eqb_eq in E; contradiction|].
    cbn [String.append] in IH. rewrite IH by exact N. reflexivity.
Qed.
Lemma concat_split parts : parts <> [] -> (forall x, In x parts -> no_bar x) -> split_bar (String.concat "|" parts) = parts.
Proof.
  induction parts as [|x parts IH]; intros N Hn; [contradiction|]. destruct parts as [|y parts].
  - cbn. apply split_bar_part. apply Hn. left. reflexivity.
  - cbn [String.concat]. rewrite split_bar_app by (apply Hn; left; reflexivity). f_equal.
    apply IH; [discriminate|]. intros z I. apply Hn. right. exact I.
Qed.
Lemma type_set_spec t alts : In t (type_set alts) <-> alternative t alts.
Proof.
  unfold type_set, alternative. destruct (String.eqb alts "") eqn:E.
  - apply String.eqb_eq in E. cbn. tauto.
  - apply String.eqb_neq in E. split.
    + intro I. split; auto. exists (split_bar alts). split; auto. split; [intros x; apply split_bar_no_bar|]. symmetry. apply split_bar_concat.
    + intros (_ & parts & I & Hn & ->). rewrite concat_split; auto. intros ->. contradiction.
Qed.

(** permutations *)
Lemma selects_perm {A} (l : list A) x r : In (x, r) (selects l) -> Permutation l (x :: r).
Proof.
  revert x r. induction l as [|a l IH]; cbn; [tauto|]. intros x r [E|I]; [inversion E; auto|].
  apply in_map_iff in I. destruct I as ([y s] & E & I). inversion E; subst. cbn. rewrite (IH _ _ I). apply perm_swap.
Qed.
Lemma selects_mid {A} (l1 l2 : list A) x : In (x, l1 ++ l2) (selects (l1 ++ x :: l2)).
Proof.
  induction l1 as [|a l1 IH]; cbn; [auto|]. right. apply in_map_iff. exists (x, l1 ++ l2). auto.
Qed.
Lemma permutations_spec {A} n (l l' : list A) : length l = n -> In l' (permutations n l) <-> Permutation l l'.
Proof.
  revert l l'. induction n as [|n IH]; intros l l' L.
  - destruct l; [|discriminate]. cbn. split; [intros [<-|[]]; auto|]. intro P. apply Permutation_nil in P. auto.
  - cbn [permutations]. rewrite in_flat_map. split.
    + intros ([x r] & I & J). apply in_map_iff in J. destruct J as (r' & <- & J). cbn [fst snd] in *.
      apply selects_perm in I. rewrite I. constructor. apply IH in J; auto. apply Permutation_length in I. cbn in I. lia.
    + intro P. destruct l' as [|x r']; [apply Permutation_sym, Permutation_nil in P; subst; discriminate|].
      assert (I : In x l) by (rewrite P; left; auto). apply in_split in I. destruct I as (l1 & l2 & ->).
      exists (x, l1 ++ l2). split; [apply selects_mid|]. apply in_map. cbn [snd]. apply IH.
      * rewrite app_length in *. cbn in L. lia.
      * symmetry in P. apply Permutation_cons_app_inv in P. symmetry. exact P.
Qed.
Lemma selects_map {A B} (f : A -> B) l : selects (map f l) = map (fun p => (f (fst p), map f (snd p))) (selects l).
Proof. induction l as [|a l IH]; cbn; auto. rewrite IH, !map_map. reflexivity. Qed.
Lemma permutations_map {A B} (f : A -> B) n l : permutations n (map f l) = map (map f) (permutations n l).
Proof.
  revert l. induction n as [|n IH]; intro l; cbn [permutations]; auto. rewrite selects_map.
  induction (selects l) as [|[x r] s IHs]; cbn; auto. rewrite IHs, IH, map_app, !map_map. reflexivity.
Qed.

Section MatchProofs.
Variable g : graph.
Variable dr : bool.
Notation mp := (match_pattern g dr).
Notation fits := (fits g dr).
Notation fits_inputs := (fits_inputs g dr).

Lemma op_type_same_true op t : op_type_same g op t = Some true -> type_ok g t op.
Proof.
  unfold op_type_same. destruct (String.eqb t "*") eqn:E.
  - apply String.eqb_eq in E. subst. constructor.
  - destruct op as [o|]; [|discriminate]. intro Q. injection Q as Q. apply existsb_exists in Q. destruct Q as (x & I & X).
    apply String.eqb_eq in X. subst x. constructor. apply type_set_spec. exact I.
Qed.
Lemma op_type_same_false op t : op_type_same g op t = Some false -> ~ type_ok g t op.
Proof.
  unfold op_type_same. destruct (String.eqb t "*") eqn:E; [discriminate|]. destruct op as [o|]; [|discriminate].
  intros Q K. apply String.eqb_neq in E. inversion K; subst; [contradiction|]. injection Q as Q.
  assert (T : existsb (String.eqb (gtype (g o))) (type_set t) = true); [|congruence].
  apply existsb_exists. exists (gtype (g o)). split; [apply type_set_spec; auto|apply String.eqb_refl].
Qed.

Definition good p := forall op t,
  (forall bs, mp p op t = Some (true, bs) -> fits p op t bs) /\
  (forall bs bs', mp p op t = Some (false, bs) -> ~ fits p op t bs') /\
  (closed g -> op <> None -> mp p op t <> None).

Lemma eval_good ps : Forall good ps -> forall xs, length xs = length ps ->
  (forall bs, eval_inputs xs (map mp ps) = Some (true, bs) -> fits_inputs ps xs bs) /\
  (forall bs bs', eval_inputs xs (map mp ps) = Some (false, bs) -> ~ fits_inputs ps xs bs') /\
  (closed g -> (forall x, In x xs -> snd x <> None) -> eval_inputs xs (map mp ps) <> None).
Proof.
  induction 1 as [|p ps Gp Gps IH]; intros [|[tn o] xs] L; try discriminate.
  - cbn. split; [|split]; try discriminate.
    intros bs E. inversion E. constructor.
  - cbn [map eval_inputs fst snd]. destruct (Gp o (Some tn)) as (A & B & C). destruct (IH xs) as (A' & B' & C'); [cbn in L; lia|].
    destruct (mp p o (Some tn)) as [[b l]|] eqn:E1.
    + destruct (eval_inputs xs (map mp ps)) as [[b' l']|] eqn:E2.
      * split; [|split]; try discriminate.
        -- intros bs Q. destruct b, b'; cbn in Q; try discriminate. inversion Q; subst. constructor; auto.
        -- intros bs bs' Q K. inversion K; subst. destruct b.
           ++ destruct b'; [discriminate|]. exact (B' _ _ eq_refl H6).
           ++ exact (B _ _ eq_refl H5).
      * split; [|split]; try discriminate.
        intros Cl Hx Q. apply C'; auto. intros x I. apply Hx. right. exact I.
    + split; [|split]; try discriminate. intros Cl Hx _. apply C; auto. apply (Hx (tn, o)). left. reflexivity.
Qed.
Lemma try_good ml xs (cands : list (list pattern)) :
  (forall ps, In ps cands -> Forall good ps /\ length xs = length ps) ->
  (forall bs, try_inputs ml xs (map (map mp) cands) = Some (true, bs) -> exists ps b, In ps cands /\ fits_inputs ps xs b /\ bs = ml ++ b) /\
  (forall bs, try_inputs ml xs (map (map mp) cands) = Some (false, bs) -> forall ps b, In ps cands -> ~ fits_inputs ps xs b) /\
  (closed g -> (forall x, In x xs -> snd x <> None) -> try_inputs ml xs (map (map mp) cands) <> None).
Proof.
  induction cands as [|ps cands IH]; intro Hc.
  - cbn. split; [discriminate|]. split; [tauto|]. discriminate.
  - destruct IH as (A & B & C). { intros q I. apply Hc. right. exact I. }
    destruct (Hc ps (or_introl eq_refl)) as [Gp Lp]. destruct (eval_good ps Gp xs Lp) as (A' & B' & C').
    cbn [map try_inputs]. destruct (eval_inputs xs (map mp ps)) as [[[|] l]|] eqn:E.
    + split; [|split]; try discriminate. intros bs Q. inversion Q; subst. exists ps, l. split; [left; auto|]. split; auto.
    + split; [|split].
      * intros bs Q. destruct (A bs Q) as (q & b & I & F & ->). exists q, b. split; [right; auto|]. auto.
      * intros bs Q q b [<-|I]; [eauto|]. eapply B; eauto.
      * exact C.
    + split; [|split]; try discriminate. intros Cl Hx _. exact (C' Cl Hx eq_refl).
Qed.
Lemma fits_inputs_length ps xs bs : fits_inputs ps xs bs -> length ps = length xs.
Proof. revert xs bs. induction ps as [|p ps IH]; intros xs bs F; inversion F; subst; cbn; auto. f_equal. eauto. Qed.
Lemma Forall_perm {A} (P : A -> Prop) l l' : Permutation l l' -> Forall P l -> Forall P l'.
Proof. intros Pe F. rewrite Forall_forall in *. intros x I. apply F. rewrite Pe. exact I. Qed.

Theorem all_good p : good p.
Proof.
  induction p as [i nm ty r ins IH] using pattern_ind'. intros op t. cbn [match_pattern].
  destruct ty as [ty|].
  2:{ split; [|split]; try discriminate. intros bs E. inversion E. constructor. reflexivity. }
  destruct (op_type_same g op ty) as [[|]|] eqn:E.
  3:{ split; [|split]; try discriminate. intros _ N _. unfold op_type_same in E. destruct (String.eqb ty "*"); [discriminate|]. destruct op; [discriminate|contradiction]. }
  2:{ split; [|split]; try discriminate. intros bs bs' _ F. apply op_type_same_false in E. inversion F as [? ? ? Hp|? ? ? ? Hp T|? ? ? ? ? ? Hp T]; subst; cbn in *; try discriminate; injection Hp as ->; auto. }
  apply op_type_same_true in E as T.
  destruct ins as [|q ins0].
  { split; [|split]; try discriminate. intros bs Q. inversion Q; subst. apply (fits_leaf g dr (Pat i nm (Some ty) r []) ty); auto. }
  set (ins := q :: ins0) in *.
  destruct op as [o|].
  2:{ split; [|split]; try discriminate. intros bs bs' _ F. inversion F; subst; cbn in *; discriminate. }
  destruct (negb (Nat.eqb (length (ginputs (g o))) (length ins))) eqn:EL.
  { apply negb_true_iff, Nat.eqb_neq in EL. split; [|split]; try discriminate. intros bs bs' _ F.
    inversion F as [? ? ? Hp|? ? ? ? Hp ? Hi|? ? ? ? ins' bs2 Hp Ty Hn HP HF]; subst; cbn [ptype pinputs] in *; try discriminate.
    apply fits_inputs_length in HF. destruct (reorder_allowed dr _); [apply Permutation_length in HP|subst ins']; lia. }
  apply negb_false_iff, Nat.eqb_eq in EL. cbv zeta.
  set (rb := match r with Some b => b | None => dr end).
  set (cands := if rb then permutations (length ins) ins else [ins]).
  replace (if rb then permutations (length (map mp ins)) (map mp ins) else [map mp ins]) with (map (map mp) cands).
  2:{ unfold cands. destruct rb; [rewrite permutations_map, map_length; reflexivity|reflexivity]. }
  assert (Hc : forall ps, In ps cands -> Forall good ps /\ length (ginputs (g o)) = length ps).
  { intros ps I. unfold cands in I. destruct rb.
    - apply permutations_spec in I; auto. split; [eapply Forall_perm; eauto|]. apply Permutation_length in I. lia.
    - destruct I as [<-|[]]. auto. }
  destruct (try_good [(Pat i nm (Some ty) r ins, Some o, t)] (ginputs (g o)) cands Hc) as (A & B & C).
  split; [|split].
  - intros bs Q. destruct (A bs Q) as (ps & b & I & F & ->). cbn [app].
    apply (fits_node g dr (Pat i nm (Some ty) r ins) ty o t ps b); auto; [discriminate|].
    unfold reorder_allowed. cbn [preorder pinputs]. fold rb. unfold cands in I. destruct rb.
    + apply permutations_spec in I; auto.
    + destruct I as [<-|[]]. reflexivity.
  - intros bs bs' Q F. inversion F as [? ? ? Hp|? ? ? ? Hp ? Hi|? ? ? ? ins' bs2 Hp Ty Hn HP HF]; subst; cbn [ptype pinputs] in *; try discriminate.
    refine (B bs Q ins' bs2 _ HF). unfold reorder_allowed in HP. cbn [preorder] in HP. fold rb in HP. unfold cands. destruct rb.
    + apply permutations_spec; auto.
    + left. exact HP.
  - intros Cl _. apply C; auto. intros x I. apply (Cl o). exact I.
Qed.

(** bindings *)
Scheme fits_ind2 := Induction for MatchSpec.fits Sort Prop
  with fits_inputs_ind2 := Induction for MatchSpec.fits_inputs Sort Prop.
Combined Scheme fits_mut from fits_ind2, fits_inputs_ind2.
Lemma bindings_real : (forall p op t bs, fits p op t bs -> forall q o t', In (q, o, t') bs -> exists bs', fits q o t' bs') /\
  (forall ps xs bs, fits_inputs ps xs bs -> forall q o t', In (q, o, t') bs -> exists bs', fits q o t' bs').
Proof.
  apply fits_mut; cbn; try tauto.
  - intros p ty op t E T I q o t' [Q|[]]. inversion Q; subst. exists [(q, o, t')]. eapply fits_leaf; eauto.
  - intros p ty o t ins bs E T N P F IH q o' t' [Q|Q]; [|eauto]. inversion Q; subst. eexists. eapply fits_node; eauto.
  - intros p ps t op xs b bs F IH F' IH' q o t' I. apply in_app_iff in I. destruct I; eauto.
Qed.
Definition ids (bs : list binding) : list nat := map (fun b => pid (fst (fst b))) bs.
Lemma fits_elements : (forall p op t bs, fits p op t bs -> Permutation (ids bs) (elements p)) /\
  (forall ps xs bs, fits_inputs ps xs bs -> Permutation (ids bs) (flat_map elements ps)).
Proof.
  apply fits_mut; cbn.
  - intros [i n ty r ins] op t E. cbn in E. subst. auto.
  - intros [i n ty0 r ins] ty op t E T I. cbn in *. subst. auto.
  - intros [i n ty0 r ins0] ty o t ins bs E T N P F IH. cbn in *. subst. constructor. rewrite IH.
    destruct (reorder_allowed _ _); [|subst; auto]. apply Permutation_flat_map. symmetry. exact P.
  - auto.
  - intros p ps t op xs b bs F IH F' IH'. unfold ids. rewrite map_app. apply Permutation_app; auto.
Qed.

Lemma nget_nset {V} (d : list (nat * V)) k v k' : nget (nset d k v) k' = if Nat.eqb k k' then Some v else nget d k'.
Proof.
  induction d as [|[a b] d IH]; cbn [nset nget].
  - destruct (Nat.eqb k k'); reflexivity.
  - destruct (Nat.eqb a k) eqn:E; cbn [nget].
    + apply Nat.eqb_eq in E; subst. destruct (Nat.eqb k k'); reflexivity.
    + rewrite IH. destruct (Nat.eqb a k') eqn:E2; auto.
      apply Nat.eqb_eq in E2; subst. rewrite Nat.eqb_sym, E. reflexivity.
Qed.
Lemma sget_sset {V} (d : list (string * V)) k v k' : sget (sset d k v) k' = if String.eqb k k' then Some v else sget d k'.
Proof.
  induction d as [|[a b] d IH]; cbn [sset sget].
  - destruct (String.eqb k k'); reflexivity.
  - destruct (String.eqb a k) eqn:E; cbn [sget].
    + apply String.eqb_eq in E; subst. destruct (String.eqb k k'); reflexivity.
    + rewrite IH. destruct (String.eqb a k') eqn:E2; auto.
      apply String.eqb_eq in E2; subst. rewrite String.eqb_sym, E. reflexivity.
Qed.
(** the last binding of a pattern object is the one that is kept *)
Lemma get_op_last bs k : get_op (fold_left add_binding bs (MatchResult [] [])) k =
  option_map (fun b => snd (fst b)) (find (fun b => Nat.eqb (pid (fst (fst b))) k) (rev bs)).
Proof.
  induction bs as [|[[p o] t] bs IH] using rev_ind; [reflexivity|].
  rewrite fold_left_app, rev_app_distr. cbn [fold_left rev app find fst snd]. unfold get_op in *. cbn [add_binding by_pattern].
  rewrite nget_nset. destruct (Nat.eqb (pid p) k); auto.
Qed.
Lemma get_op_in bs k o : get_op (fold_left add_binding bs (MatchResult [] [])) k = Some o ->
  exists p t, pid p = k /\ In (p, o, t) bs.
Proof.
  rewrite get_op_last. match goal with |- context [find ?f (rev bs)] => destruct (find f (rev bs)) as [[[p o'] t]|] eqn:E end; cbn; [|discriminate]. intro Q. inversion Q; subst.
  apply find_some in E. destruct E as [I E]. rewrite <- in_rev in I. apply Nat.eqb_eq in E. eauto.
Qed.
Lemma get_op_unique bs p o t : NoDup (ids bs) -> In (p, o, t) bs -> get_op (fold_left add_binding bs (MatchResult [] [])) (pid p) = Some o.
Proof.
  intros ND I. rewrite get_op_last. match goal with |- context [find ?f (rev bs)] => destruct (find f (rev bs)) as [[[p' o'] t']|] eqn:E end.
  - cbn. apply find_some in E. destruct E as [I' E]. rewrite <- in_rev in I'. apply Nat.eqb_eq in E. cbn in E.
    assert (Q : (p, o, t) = (p', o', t')); [|congruence].
    clear - ND I I' E. induction bs as [|b bs IH]; [destruct I|]. cbn in ND. inversion ND as [|? ? N ND']; subst.
    destruct I as [->|I], I' as [->|I']; auto.
    + exfalso. apply N. cbn. rewrite <- E. apply in_map_iff. exists (p', o', t'). auto.
    + exfalso. apply N. cbn. rewrite E. apply in_map_iff. exists (p, o, t). auto.
  - exfalso. eapply find_none in E; [|apply -> in_rev; exact I]. cbn in E. rewrite Nat.eqb_refl in E. discriminate.
Qed.
Lemma get_op_named_in bs n o : get_op_named (fold_left add_binding bs (MatchResult [] [])) n = Some o ->
  exists p t, In (p, o, t) bs /\ exists p' o' t', pid p' = pid p /\ pname p' = Some n /\ In (p', o', t') bs.
Proof.
  unfold get_op_named. match goal with |- context [sget ?d n] => destruct (sget d n) as [k|] eqn:E end; [|discriminate]. intro Q. apply get_op_in in Q.
  destruct Q as (p & t & <- & I). exists p, t. split; auto. clear I.
  remember (pid p) as k. clear Heqk. revert E. induction bs as [|[[p' o'] t'] bs IH] using rev_ind; [discriminate|].
  rewrite fold_left_app. cbn [fold_left add_binding by_name]. destruct (pname p') as [n'|] eqn:En.
  - rewrite sget_sset. destruct (String.eqb n' n) eqn:Es.
    + apply String.eqb_eq in Es. intro Q. inversion Q; subst. exists p', o', t'. split; auto. split; auto. apply in_app_iff. right. left. auto.
    + intro Q. destruct (IH Q) as (a & b & c & A & B & C). exists a, b, c. repeat split; auto. apply in_app_iff. auto.
  - intro Q. destruct (IH Q) as (a & b & c & A & B & C). exists a, b, c. repeat split; auto. apply in_app_iff. auto.
Qed.
End MatchProofs.
