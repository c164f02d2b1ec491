(** Proofs about the handler of DenseToDenseSetOperation. *)
From Coq Require Import String List Arith ZArith Lia Bool Sorted.
From Verif Require Import Tensor TensorProofs OnnxSpec TOps TOpsProofs TOpsProofs2 SetSpec SetModel.
Import ListNotations.
Local Open Scope list_scope.

(** ** the order of rows *)
Definition before (r s : list Z) : Prop := lex r s = Lt.
Lemma lex_refl r : lex r r = Eq.
Proof. induction r as [|x r IH]; cbn; auto. now rewrite Z.compare_refl. Qed.
Lemma lex_eq r : forall s, lex r s = Eq -> r = s.
Proof. induction r as [|x r IH]; intros [|y s] H; cbn in H; try discriminate; auto. destruct (Z.compare_spec x y) as [->| |]; try discriminate. f_equal. auto. Qed.
Lemma lex_gt r : forall s, lex r s = Gt -> lex s r = Lt.
Proof. induction r as [|x r IH]; intros [|y s] H; cbn in *; try discriminate; auto. rewrite (Z.compare_antisym x y). destruct (x ?= y)%Z eqn:E; cbn; try discriminate; auto. Qed.
Lemma before_trans r : forall s t, before r s -> before s t -> before r t.
Proof.
  unfold before. induction r as [|x r IH]; intros [|y s] [|z t] H K; cbn in *; try discriminate; auto.
  destruct (Z.compare_spec x y) as [->|A|A]; try discriminate; destruct (Z.compare_spec y z) as [->|B|B]; try discriminate.
  - eauto.
  - auto.
  - apply Z.compare_lt_iff in A. rewrite ?A. auto.
  - assert (C : (x < z)%Z) by lia. apply Z.compare_lt_iff in C. now rewrite C.
Qed.
Lemma before_irrefl r : ~ before r r.
Proof. unfold before. rewrite lex_refl. discriminate. Qed.
Lemma row_eqb_spec r s : row_eqb r s = true <-> r = s.
Proof. unfold row_eqb. split; [|intros ->; now rewrite lex_refl]. destruct (lex r s) eqn:E; try discriminate. intros _. now apply lex_eq. Qed.
Lemma in_insert r l x : In x (insert r l) <-> x = r \/ In x l.
Proof.
  induction l as [|s l IH]; cbn [insert]; [cbn; intuition|]. destruct (lex r s) eqn:E.
  - apply lex_eq in E as ->. cbn. intuition.
  - cbn. intuition.
  - cbn [In]. rewrite IH. intuition.
Qed.
Lemma insert_sorted r l : StronglySorted before l -> StronglySorted before (insert r l).
Proof.
  induction 1 as [|s l H IH F]; cbn [insert]; [repeat constructor|]. destruct (lex r s) eqn:E.
  - constructor; auto.
  - constructor; [constructor; auto|]. constructor; [exact E|]. eapply Forall_impl; [|exact F]. intros t. apply before_trans. exact E.
  - constructor; auto. apply Forall_forall. intros t Ht. apply in_insert in Ht. destruct Ht as [-> | Ht]; [now apply lex_gt|]. rewrite Forall_forall in F. auto.
Qed.
Lemma in_unique l x : In x (unique_rows l) <-> In x l.
Proof. induction l as [|r l IH]; cbn [unique_rows fold_right In]; [tauto|]. fold (unique_rows l). rewrite in_insert, IH. intuition. Qed.
Lemma unique_sorted l : StronglySorted before (unique_rows l).
Proof. induction l as [|r l IH]; cbn [unique_rows fold_right]; [constructor|]. now apply insert_sorted. Qed.
Lemma sorted_same l : forall l', StronglySorted before l -> StronglySorted before l' -> (forall x, In x l <-> In x l') -> l = l'.
Proof.
  induction l as [|r l IH]; intros [|s l'] A B E; auto.
  - exfalso. apply (E s). now left.
  - exfalso. apply (E r). now left.
  - apply StronglySorted_inv in A, B. destruct A as [A FA], B as [B FB]. rewrite Forall_forall in FA, FB. assert (r = s) as ->.
    { assert (R1 : In r (s :: l')) by (apply E; now left). assert (R2 : In s (r :: l)) by (apply E; now left).
      destruct R1 as [| R1]; auto. destruct R2 as [| R2]; auto. exfalso. apply (before_irrefl r). eapply before_trans; eauto. }
    f_equal. apply IH; auto. intro x. split; intro Hx.
    + assert (K : In x (s :: l')) by (apply E; now right). destruct K as [<- | K]; auto. exfalso. apply (before_irrefl s). auto.
    + assert (K : In x (s :: l)) by (apply E; now right). destruct K as [<- | K]; auto. exfalso. apply (before_irrefl s). auto.
Qed.
Lemma unique_of_sorted l : StronglySorted before l -> unique_rows l = l.
Proof. intro H. apply sorted_same; auto using unique_sorted, in_unique. Qed.
Lemma sorted_filter {A} (rel : A -> A -> Prop) f l : StronglySorted rel l -> StronglySorted rel (filter f l).
Proof.
  induction 1 as [|r l H IH F]; cbn [filter]; [constructor|]. destruct (f r); auto. constructor; auto.
  rewrite Forall_forall in *. intros x Hx. apply filter_In in Hx. apply F. tauto.
Qed.
Lemma sorted_NoDup l : StronglySorted before l -> NoDup l.
Proof. induction 1 as [|r l H IH F]; constructor; auto. intro K. rewrite Forall_forall in F. apply (before_irrefl r). auto. Qed.

(** ** how often a row comes in unique rows *)
Lemma count_app r l l' : count_rows r (l ++ l') = count_rows r l + count_rows r l'.
Proof. unfold count_rows. now rewrite filter_app, app_length. Qed.
Lemma count_unique r l : (In r l -> count_rows r (unique_rows l) = 1) /\ (~ In r l -> count_rows r (unique_rows l) = 0).
Proof.
  rewrite <- (in_unique l r). assert (N := sorted_NoDup _ (unique_sorted l)). unfold count_rows. induction N as [|s u Hs N IH]; cbn [filter In]; [split; [tauto|auto]|].
  destruct (row_eqb r s) eqn:E.
  - apply row_eqb_spec in E as ->. cbn [length]. split; [|tauto]. intros _. rewrite (proj2 IH Hs). reflexivity.
  - assert (s <> r) by (intros ->; rewrite (proj2 (row_eqb_spec r r) eq_refl) in E; discriminate). split; intro H0; apply IH; tauto.
Qed.
Lemma compress_map {A} (f : A -> bool) l : f_compress l (map f l) = filter f l.
Proof. unfold f_compress. induction l as [|x l IH]; cbn; auto. destruct (f x); cbn; now rewrite ?IH. Qed.
Lemma rows_with_count_is c d : rows_with_count c d = filter (fun r => Z.eqb (Z.of_nat (count_rows r c)) d) (unique_rows c).
Proof. unfold rows_with_count, f_unique. rewrite map_map. apply (compress_map (fun r => Z.eqb (Z.of_nat (count_rows r c)) d)). Qed.
Lemma inter_rows x y r : In r (rows_with_count (unique_rows x ++ unique_rows y) 2) <-> In r x /\ In r y.
Proof.
  rewrite rows_with_count_is, filter_In, in_unique, in_app_iff, !in_unique, count_app, Z.eqb_eq.
  destruct (count_unique r x) as [A1 A0], (count_unique r y) as [B1 B0].
  destruct (in_dec (list_eq_dec Z.eq_dec) r x) as [A|A], (in_dec (list_eq_dec Z.eq_dec) r y) as [B|B];
    rewrite ?(A1 A), ?(A0 A), ?(B1 B), ?(B0 B); split; intro H; (split; try tauto; try lia); destruct H; try tauto; try lia.
Qed.
Lemma minus_rows x y r : In r (rows_with_count (unique_rows x ++ unique_rows y ++ unique_rows y) 1) <-> In r x /\ ~ In r y.
Proof.
  rewrite rows_with_count_is, filter_In, in_unique, !in_app_iff, !in_unique, !count_app, Z.eqb_eq.
  destruct (count_unique r x) as [A1 A0], (count_unique r y) as [B1 B0].
  destruct (in_dec (list_eq_dec Z.eq_dec) r x) as [A|A], (in_dec (list_eq_dec Z.eq_dec) r y) as [B|B];
    rewrite ?(A1 A), ?(A0 A), ?(B1 B), ?(B0 B); split; intro H; (split; try tauto; try lia); destruct H; try tauto; try lia.
Qed.
Lemma with_count_sorted c d : StronglySorted before (rows_with_count c d).
Proof. rewrite rows_with_count_is. apply sorted_filter, unique_sorted. Qed.

(** ** the rows of positions and values *)
Lemma nth_error_combine {A B} (l : list A) : forall (l' : list B) k, nth_error (combine l l') k = match nth_error l k, nth_error l' k with Some a, Some b => Some (a, b) | _, _ => None end.
Proof. induction l as [|x l IH]; intros [|y l'] [|k]; cbn; auto; try (now destruct (nth_error _ _)). Qed.
Definition key (ix : list nat) : list Z := map Z.of_nat ix.
Lemma key_inj ix : forall jx, key ix = key jx -> ix = jx.
Proof. induction ix as [|i ix IH]; intros [|j jx] H; cbn in H; try discriminate; auto. injection H as H1 H2. f_equal; [lia|]. auto. Qed.
Lemma in_concat_indices prefix n t r : wf t -> shape t = prefix ++ [n] ->
  (In r (concat_indices t) <-> exists ix v, r = key ix ++ [v] /\ inb ix prefix /\ in_row t n ix v).
Proof.
  intros W Sh. unfold concat_indices. rewrite in_map_iff. split.
  - intros ([jx v] & <- & H). cbn [fst snd]. apply In_nth_error in H. destruct H as (k & H). rewrite nth_error_combine in H. unfold all_indices in H.
    destruct (Nat.lt_ge_cases k (size (shape t))) as [L|L].
    + rewrite nth_error_map_seq in H by auto. destruct (nth_error (data t) k) as [v'|] eqn:G; [|discriminate]. injection H as <- ->.
      assert (Q := unravel_inb _ _ L). rewrite Sh in Q. destruct (exists_last (l := unravel (shape t) k)) as (ix & c & E).
      { intro E. rewrite Sh in E. rewrite E in Q. apply inb_length in Q. rewrite app_length in Q. cbn in Q. lia. }
      rewrite Sh in E. rewrite E in Q. assert (Lix : length ix = length prefix).
      { apply inb_length in Q. rewrite !app_length in Q. cbn in Q. lia. }
      apply inb_app in Q; auto. destruct Q as [Q1 Q2]. cbn in Q2. exists ix, v. split; [|split; auto].
      * rewrite Sh, E, map_app. cbn [map]. now rewrite removelast_last.
      * exists c. split; [tauto|]. unfold get. rewrite Sh, <- E, ravel_unravel by (now rewrite <- Sh). exact G.
    + assert (N : nth_error (map (unravel (shape t)) (seq 0 (size (shape t)))) k = None) by (apply nth_error_None; rewrite map_length, seq_length; auto).
      rewrite N in H. discriminate.
  - intros (ix & v & -> & Hix & k & Hk & G). exists (ix ++ [k], v). cbn [fst snd]. split.
    + unfold key. rewrite map_app. cbn [map]. now rewrite removelast_last.
    + assert (Q : inb (ix ++ [k]) (shape t)) by (rewrite Sh; apply inb_app; [now apply inb_length|cbn; auto]).
      apply nth_error_In with (n := ravel (shape t) (ix ++ [k])). rewrite nth_error_combine. unfold all_indices.
      rewrite nth_error_map_seq by (now apply ravel_lt). unfold get in G. rewrite G. now rewrite unravel_ravel.
Qed.

(** ** the positions of a shape, in order *)
Lemma lex_app r s x y : length r = length s -> lex (r ++ x) (s ++ y) = match lex r s with Eq => lex x y | c => c end.
Proof. revert s. induction r as [|a r IH]; intros [|b s] L; cbn in *; try discriminate; auto. destruct (a ?= b)%Z; auto. Qed.
Lemma in_row_major sh ix : In ix (row_major sh) <-> inb ix sh.
Proof.
  revert ix. induction sh as [|d sh IH]; intro ix; cbn [row_major].
  - split; [intros [<-|[]]; exact Logic.I|destruct ix; [cbn; auto|intros []]].
  - rewrite in_flat_map. split.
    + intros (i & Hi & H). apply in_map_iff in H. destruct H as (jx & <- & H). apply in_seq in Hi. cbn. split; [lia|]. now apply IH.
    + destruct ix as [|i ix]; [intros []|]. intros [Hi H]. exists i. split; [apply in_seq; lia|]. apply in_map. now apply IH.
Qed.
Lemma sorted_app {A} (rel : A -> A -> Prop) l l' : StronglySorted rel l -> StronglySorted rel l' -> (forall x y, In x l -> In y l' -> rel x y) -> StronglySorted rel (l ++ l').
Proof.
  induction 1 as [|r l H IH F]; intros K C; cbn [app]; auto. constructor.
  - apply IH; auto. intros x y Hx. apply C. now right.
  - apply Forall_app. split; auto. apply Forall_forall. intros y. apply C. now left.
Qed.
Lemma sorted_map {A B} (rel : A -> A -> Prop) (rel' : B -> B -> Prop) (f : A -> B) l : (forall x y, In x l -> In y l -> rel x y -> rel' (f x) (f y)) -> StronglySorted rel l -> StronglySorted rel' (map f l).
Proof.
  intros C H. induction H as [|r l H IH F]; cbn [map]; constructor.
  - apply IH. intros x y Hx Hy. apply C; now right.
  - rewrite Forall_forall in *. intros y Hy. apply in_map_iff in Hy. destruct Hy as (x & <- & Hx). apply C; auto; [now left|now right].
Qed.
Lemma sorted_flat {A B} (rel : A -> A -> Prop) (rel' : B -> B -> Prop) (f : A -> list B) l :
  (forall x, In x l -> StronglySorted rel' (f x)) -> (forall x y u v, rel x y -> In x l -> In y l -> In u (f x) -> In v (f y) -> rel' u v) ->
  StronglySorted rel l -> StronglySorted rel' (flat_map f l).
Proof.
  intros C D H. induction H as [|r l H IH F]; cbn [flat_map]; [constructor|]. apply sorted_app.
  - apply C. now left.
  - apply IH; [intros; apply C; now right|]. intros x y u v K Hx Hy. apply D; auto; now right.
  - intros u v Hu Hv. apply in_flat_map in Hv. destruct Hv as (y & Hy & Hv). rewrite Forall_forall in F. apply (D r y); auto; [now left|now right].
Qed.
Lemma seq_sorted n : forall a, StronglySorted lt (seq a n).
Proof. induction n as [|n IH]; intro a; cbn; constructor; auto. apply Forall_forall. intros x Hx. apply in_seq in Hx. lia. Qed.
Definition kbefore (ix jx : list nat) : Prop := before (key ix) (key jx).
Lemma row_major_sorted sh : StronglySorted kbefore (row_major sh).
Proof.
  induction sh as [|d sh IH]; cbn [row_major]; [repeat constructor|]. apply (sorted_flat lt); [| |apply seq_sorted].
  - intros i _. eapply sorted_map; [|exact IH]. intros x y _ _ H. unfold kbefore, before, key. cbn. now rewrite Z.compare_refl.
  - intros i j u v L _ _ Hu Hv. apply in_map_iff in Hu. destruct Hu as (ix & <- & _). apply in_map_iff in Hv. destruct Hv as (jx & <- & _).
    unfold kbefore, before, key. cbn. assert (K : (Z.of_nat i < Z.of_nat j)%Z) by lia. apply Z.compare_lt_iff in K. now rewrite K.
Qed.
(** sets for each row, from the sorted rows of positions and values *)
Section Rows.
Variables (prefix : list nat) (rows : list (list Z)) (P : list nat -> Z -> Prop).
Hypothesis sorted : StronglySorted before rows.
Hypothesis rows_are : forall r, In r rows <-> exists ix v, r = key ix ++ [v] /\ inb ix prefix /\ P ix v.
Definition res (ix : list nat) : list Z := map (fun r => last r 0%Z) (filter (fun r => row_eqb (removelast r) (key ix)) rows).
Lemma in_res ix v : inb ix prefix -> (In v (res ix) <-> P ix v).
Proof.
  intro Hix. unfold res. rewrite in_map_iff. split.
  - intros (r & <- & H). apply filter_In in H. destruct H as [H E]. apply rows_are in H. destruct H as (jx & w & -> & _ & H).
    rewrite removelast_last in E. apply row_eqb_spec in E. apply key_inj in E as ->. now rewrite last_last.
  - intro H. exists (key ix ++ [v]). rewrite last_last. split; auto. apply filter_In. rewrite removelast_last. split; [|now apply row_eqb_spec].
    apply rows_are. eauto.
Qed.
Lemma res_sorted ix : StronglySorted Z.lt (res ix).
Proof.
  unfold res. eapply sorted_map; [|apply sorted_filter, sorted]. intros x y Hx Hy B. apply filter_In in Hx, Hy. destruct Hx as [Hx Ex], Hy as [Hy Ey].
  apply rows_are in Hx, Hy. destruct Hx as (ix1 & v & -> & _ & _), Hy as (ix2 & w & -> & _ & _).
  rewrite removelast_last in Ex, Ey. apply row_eqb_spec in Ex, Ey. apply key_inj in Ex, Ey. subst. rewrite !last_last.
  unfold before in B. rewrite lex_app, lex_refl in B by auto. cbn in B. destruct (Z.compare_spec v w); auto; discriminate.
Qed.
Lemma rows_eq : rows = flat_map (fun ix => map (fun v => key ix ++ [v]) (res ix)) (row_major prefix).
Proof.
  apply sorted_same; [exact sorted| |].
  - eapply (sorted_flat kbefore); [| |apply row_major_sorted].
    + intros ix _. eapply sorted_map; [|apply res_sorted]. intros x y _ _ H. unfold before. rewrite lex_app, lex_refl by auto. cbn.
      apply Z.compare_lt_iff in H. now rewrite H.
    + intros ix jx u v B Hi Hj Hu Hv. apply in_map_iff in Hu. destruct Hu as (x & <- & _). apply in_map_iff in Hv. destruct Hv as (y & <- & _).
      apply in_row_major in Hi, Hj. apply inb_length in Hi, Hj. unfold kbefore, before in *. rewrite lex_app, B by (unfold key; rewrite !map_length; congruence). reflexivity.
  - intro r. rewrite rows_are, in_flat_map. split.
    + intros (ix & v & -> & Hi & H). exists ix. split; [now apply in_row_major|]. apply in_map_iff. exists v. split; auto. now apply in_res.
    + intros (ix & Hi & H). apply in_map_iff in H. destruct H as (v & <- & H). apply in_row_major in Hi. exists ix, v. repeat split; auto. now apply in_res.
Qed.
End Rows.

(** ** positions within the rows *)
Lemma set_at_mid {A} (l : list A) x v l' : set_at (length l) v (l ++ x :: l') = l ++ v :: l'.
Proof. induction l as [|y l IH]; cbn; [auto|now rewrite IH]. Qed.
Fixpoint starts (at_ : nat) (ns : list nat) : list nat := match ns with [] => [] | n :: ns' => at_ :: starts (at_ + n) ns' end.
Fixpoint spread (ns : list nat) (ds : list Z) : list Z :=
  match ns, ds with n :: ns', d :: ds' => (d :: repeat 1%Z (n - 1)) ++ spread ns' ds' | _, _ => [] end.
Lemma scatter_spread ns : forall l ds, (forall n, In n ns -> 0 < n) -> length ds = length ns ->
  fold_left (fun d p => set_at (fst p) (snd p) d) (combine (starts (length l) ns) ds) (l ++ repeat 1%Z (list_sum ns)) = l ++ spread ns ds.
Proof.
  induction ns as [|n ns IH]; intros l [|d ds] P L; cbn [length] in L; try discriminate; [now cbn|].
  cbn [starts combine fold_left fst snd spread]. assert (Hn : 0 < n) by (apply P; now left). change (list_sum (n :: ns)) with (n + list_sum ns).
  rewrite repeat_app. destruct n as [|n]; [lia|]. cbn [repeat app]. rewrite set_at_mid. replace (S n - 1) with n by lia.
  replace (l ++ d :: repeat 1%Z n ++ repeat 1%Z (list_sum ns)) with ((l ++ d :: repeat 1%Z n) ++ repeat 1%Z (list_sum ns)) by (now rewrite <- app_assoc).
  replace (length l + S n) with (length (l ++ d :: repeat 1%Z n)) by (rewrite app_length; cbn; rewrite repeat_length; lia).
  rewrite IH; [now rewrite <- app_assoc| |lia]. intros m Hm. apply P. now right.
Qed.
Lemma cumsum_ones n : forall acc l, f_cumsum acc (repeat 1%Z n ++ l) = map (fun k => (acc + 1 + Z.of_nat k)%Z) (seq 0 n) ++ f_cumsum (acc + Z.of_nat n) l.
Proof.
  induction n as [|n IH]; intros acc l; cbn [repeat app f_cumsum seq map].
  - f_equal. lia.
  - rewrite IH. f_equal; [lia|]. rewrite <- seq_shift, map_map. f_equal; [|f_equal; lia]. apply map_ext. intro k. lia.
Qed.
Lemma cumsum_spread ns : forall acc d ds, (forall n, In n ns -> 0 < n) -> (acc + d = 0)%Z -> ds = map (fun n => (1 - Z.of_nat n)%Z) ns ->
  f_cumsum acc (spread ns (d :: removelast ds)) = flat_map (fun n => map Z.of_nat (seq 0 n)) ns.
Proof.
  induction ns as [|n ns IH]; intros acc d ds P E ->; [reflexivity|]. cbn [spread flat_map map]. assert (Hn : 0 < n) by (apply P; now left).
  destruct n as [|n]; [lia|]. replace (S n - 1) with n by lia. cbn [app f_cumsum seq map]. rewrite E, cumsum_ones. cbn [app]. f_equal. f_equal.
  - rewrite <- seq_shift, map_map. apply map_ext. intro k. lia.
  - destruct ns as [|m ns]; [reflexivity|]. set (q := map _ (m :: ns)). change (removelast (?a :: q)) with (a :: removelast q).
    apply IH; auto; [|lia]. intros x Hx. apply P. now right.
Qed.

(** ** groups of equal rows *)
Definition grouped (gs : list (list Z * nat)) : list (list Z) := flat_map (fun g => repeat (fst g) (snd g)) gs.
Lemma first_at_app r l l' : ~ In r l -> first_at r (l ++ l') = length l + first_at r l'.
Proof.
  induction l as [|s l IH]; intro H; cbn [app first_at length]; auto. destruct (row_eqb r s) eqn:E.
  - apply row_eqb_spec in E as ->. exfalso. apply H. now left.
  - rewrite IH; [reflexivity|]. intro K. apply H. now right.
Qed.
Lemma count_repeat r n : count_rows r (repeat r n) = n.
Proof. unfold count_rows. induction n as [|n IH]; cbn [repeat filter length]; auto. rewrite (proj2 (row_eqb_spec r r) eq_refl). cbn. now rewrite IH. Qed.
Lemma count_not_in r l : ~ In r l -> count_rows r l = 0.
Proof.
  unfold count_rows. induction l as [|s l IH]; intro H; cbn [filter]; auto. destruct (row_eqb r s) eqn:E.
  - apply row_eqb_spec in E as ->. exfalso. apply H. now left.
  - apply IH. intro K. apply H. now right.
Qed.
Lemma in_grouped r gs : In r (grouped gs) -> In r (map fst gs).
Proof. unfold grouped. rewrite in_flat_map. intros (g & Hg & H). apply repeat_spec in H as ->. now apply in_map. Qed.
Lemma grouped_unique gs : StronglySorted before (map fst gs) -> (forall g, In g gs -> 0 < snd g) -> unique_rows (grouped gs) = map fst gs.
Proof.
  intros H P. apply sorted_same; auto using unique_sorted. intro x. rewrite in_unique. split; [apply in_grouped|]. intro Hx. apply in_map_iff in Hx.
  destruct Hx as (g & <- & Hg). unfold grouped. apply in_flat_map. exists g. split; auto. apply P in Hg. destruct (snd g); [lia|now left].
Qed.
Lemma grouped_counts gs : NoDup (map fst gs) -> map (fun r => count_rows r (grouped gs)) (map fst gs) = map snd gs.
Proof.
  induction gs as [|[r n] gs IH]; intro N; auto. cbn [map fst snd] in *. inversion N as [|? ? Nr N']; subst. unfold grouped. cbn [flat_map fst snd]. fold (grouped gs).
  f_equal.
  - rewrite count_app, count_repeat, count_not_in; [lia|]. intro H. apply Nr. now apply in_grouped.
  - rewrite <- IH by auto. apply map_ext_in. intros s Hs. rewrite count_app, (count_not_in s (repeat r n)); [reflexivity|].
    intro H. apply repeat_spec in H. congruence.
Qed.
Lemma grouped_first gs : forall l, NoDup (map fst gs) -> (forall g, In g gs -> 0 < snd g) -> (forall r, In r (map fst gs) -> ~ In r l) ->
  map (fun r => first_at r (l ++ grouped gs)) (map fst gs) = starts (length l) (map snd gs).
Proof.
  induction gs as [|[r n] gs IH]; intros l N P D; auto. cbn [map fst snd starts] in *. inversion N as [|? ? Nr N']; subst. f_equal.
  - rewrite first_at_app by (apply D; now left). assert (Hn : 0 < n) by (apply (P (r, n)); now left). unfold grouped. cbn [flat_map fst snd].
    destruct n as [|n]; [lia|]. cbn [repeat app first_at]. rewrite (proj2 (row_eqb_spec r r) eq_refl). lia.
  - unfold grouped. cbn [flat_map fst snd]. fold (grouped gs). rewrite app_assoc. rewrite IH; auto.
    + rewrite app_length, repeat_length. reflexivity.
    + intros g Hg. apply P. now right.
    + intros s Hs H. apply in_app_iff in H. destruct H as [H|H]; [apply (D s); [now right|exact H]|]. apply repeat_spec in H as ->. auto.
Qed.
Lemma max_of (l : list nat) : forall a, fold_left Z.max (map Z.of_nat l) (Z.of_nat a) = Z.of_nat (Nat.max a (fold_right Nat.max 0 l)).
Proof. induction l as [|b l IH]; intro a; cbn [map fold_left fold_right]; [f_equal; lia|]. rewrite <- Nat2Z.inj_max, IH. f_equal. lia. Qed.
Lemma grouped_length gs : length (grouped gs) = list_sum (map snd gs).
Proof. unfold grouped. induction gs as [|g gs IH]; cbn; auto. now rewrite app_length, repeat_length, IH. Qed.
(** a row of each group beside its position *)
Lemma combine_app' {A B} (l1 l2 : list A) : forall (k1 k2 : list B), length l1 = length k1 -> combine (l1 ++ l2) (k1 ++ k2) = combine l1 k1 ++ combine l2 k2.
Proof. induction l1 as [|x l1 IH]; intros [|y k1] k2 L; cbn in *; try discriminate; auto. f_equal. apply IH. lia. Qed.
Lemma combine_repeat {A B} (r : A) (l : list B) : combine (repeat r (length l)) l = map (fun k => (r, k)) l.
Proof. induction l as [|x l IH]; cbn; [auto|now rewrite IH]. Qed.
Lemma grouped_positions gs : combine (grouped gs) (flat_map (fun n => map Z.of_nat (seq 0 n)) (map snd gs)) = flat_map (fun g => map (fun k => (fst g, Z.of_nat k)) (seq 0 (snd g))) gs.
Proof.
  unfold grouped. induction gs as [|g gs IH]; cbn [map flat_map]; auto. rewrite combine_app'.
  - rewrite IH. f_equal. assert (E := combine_repeat (fst g) (map Z.of_nat (seq 0 (snd g)))). rewrite map_length, seq_length, map_map in E. exact E.
  - now rewrite repeat_length, map_length, seq_length.
Qed.
Lemma to_sparse_groups prefix rows gs : map (@removelast Z) rows = grouped gs -> StronglySorted before (map fst gs) -> (forall g, In g gs -> 0 < snd g) ->
  to_sparse prefix rows = match gs with [] => None | _ =>
    Some (Sparse (flat_map (fun g => map (fun k => fst g ++ [Z.of_nat k]) (seq 0 (snd g))) gs) (map (fun r => last r 0%Z) rows)
                 (map Z.of_nat prefix ++ [Z.of_nat (fold_right Nat.max 0 (map snd gs))])) end.
Proof.
  intros E H P. assert (N := sorted_NoDup _ H). unfold to_sparse, f_unique. rewrite E, grouped_unique by auto.
  assert (F := grouped_first gs [] N P (fun _ _ K => K)). cbn [app length] in F. rewrite F.
  assert (C := grouped_counts gs N). assert (C' : map (fun r => Z.of_nat (count_rows r (grouped gs))) (map fst gs) = map Z.of_nat (map snd gs)) by (rewrite <- C; symmetry; apply map_map).
  rewrite C'. rewrite !map_length. assert (Lr : length rows = list_sum (map snd gs)) by (rewrite <- grouped_length, <- E, map_length; reflexivity). rewrite Lr.
  destruct gs as [|g gs]; [reflexivity|].
  assert (P' : forall n, In n (map snd (g :: gs)) -> 0 < n) by (intros n Hn; apply in_map_iff in Hn; destruct Hn as (h & <- & Hh); auto).
  assert (M : f_reduce_max (map Z.of_nat (map snd (g :: gs))) = Some (Z.of_nat (fold_right Nat.max 0 (map snd (g :: gs))))) by (cbn [map f_reduce_max]; rewrite max_of; reflexivity).
  rewrite M, map_map. remember (map snd (g :: gs)) as ns eqn:Ens. assert (Ls : forall at_, length (starts at_ ns) = length ns) by (clear; induction ns; intro; cbn; auto).
  assert (Lu : length (0%Z :: removelast (map (fun x => (1 - Z.of_nat x)%Z) ns)) = length ns).
  { destruct ns as [|n ns]; [discriminate|]. clear. cbn [length]. f_equal. revert n. induction ns as [|m ns IH]; intro n; auto. cbn [map] in *.
    change (removelast (?a :: ?b :: ?l)) with (a :: removelast (b :: l)). cbn [length]. f_equal. apply IH. }
  unfold f_scatter. rewrite Ls, Lu, Nat.eqb_refl. assert (SS := scatter_spread ns [] (0%Z :: removelast (map (fun x => (1 - Z.of_nat x)%Z) ns)) P' Lu). cbn [app length] in SS. rewrite SS.
  rewrite (cumsum_spread ns 0 0 _ P' eq_refl eq_refl). rewrite Ens, grouped_positions. f_equal. f_equal.
  clear. induction (g :: gs) as [|h l IH]; auto. cbn [flat_map]. rewrite map_app, map_map, IH. reflexivity.
Qed.

(** ** the handler *)
Section Handler.
Variables (prefix : list nat) (n m : nat) (a b : tensor Z).
Hypothesis (Wa : wf a) (Wb : wf b) (Sa : shape a = prefix ++ [n]) (Sb : shape b = prefix ++ [m]).
Lemma join_ok : exists z, f_concat (-1) [a; b] = Some z /\ wf z /\ shape z = prefix ++ [n + m] /\
  forall ix v, inb ix prefix -> (in_row z (n + m) ix v <-> in_row a n ix v \/ in_row b m ix v).
Proof.
  destruct (concat_spec prefix [] [a; b] [n; m]) as (z & E & W & Sh & G); [discriminate|repeat constructor; auto|].
  assert (E' : f_concat (-1) [a; b] = f_concat (Z.of_nat (length prefix)) [a; b]).
  { unfold f_concat. rewrite Sa, app_length. cbn [length]. replace (norm_axis (length prefix + 1) (-1)) with (norm_axis (length prefix + 1) (Z.of_nat (length prefix))); [reflexivity|].
    unfold norm_axis. replace (0 <=? -1)%Z with false by reflexivity. rewrite (proj2 (Z.leb_le _ _)) by lia. rewrite (proj2 (Z.ltb_lt _ _)) by lia. rewrite (proj2 (Z.leb_le _ _)) by lia.
    f_equal. lia. }
  exists z. rewrite E'. split; [exact E|]. split; [exact W|]. unfold total in *. cbn [fold_right] in *. rewrite Nat.add_0_r in *. split; [exact Sh|].
  intros ix v Hix. unfold in_row. split.
  - intros (k & Hk & H). rewrite G in H by (cbn; auto). cbn [part_of] in H. destruct (Nat.ltb_spec k n); [left; exists k; auto|].
    destruct (Nat.ltb_spec (k - n) m); [|lia]. right. exists (k - n). auto.
  - intros [(k & Hk & H) | (k & Hk & H)].
    + exists k. split; [lia|]. rewrite G by (cbn; auto; lia). cbn [part_of]. destruct (Nat.ltb_spec k n); [exact H|lia].
    + exists (n + k). split; [lia|]. rewrite G by (cbn; auto; lia). cbn [part_of]. destruct (Nat.ltb_spec (n + k) n); [lia|]. destruct (Nat.ltb_spec (n + k - n) m); [|lia].
      replace (n + k - n) with k by lia. exact H.
Qed.
Lemma key_app_inj ix jx v w : key ix ++ [v] = key jx ++ [w] -> ix = jx /\ v = w.
Proof. intro E. apply app_inj_tail in E. destruct E as [E ->]. split; auto. now apply key_inj. Qed.
End Handler.

(** the rows that are left, for each operation *)
Lemma result_rows_ok op prefix n m a b : wf a -> wf b -> shape a = prefix ++ [n] -> shape b = prefix ++ [m] -> op <> "b-a"%string -> operation op ->
  exists rows, result_rows op a b = Some (prefix, rows) /\ StronglySorted before rows /\
    forall r, In r rows <-> exists ix v, r = key ix ++ [v] /\ inb ix prefix /\ member op (in_row a n ix v) (in_row b m ix v).
Proof.
  intros Wa Wb Sa Sb Ne Op. unfold result_rows. destruct (String.eqb_spec op "union") as [->|Nu].
  - destruct (join_ok prefix n m a b Wa Wb Sa Sb) as (z & -> & W & Sh & G). rewrite Sh, removelast_last. eexists. split; [reflexivity|]. cbn [f_unique fst]. split; [apply unique_sorted|].
    intro r. rewrite in_unique, (in_concat_indices prefix (n + m) z r W Sh). split; intros (ix & v & E & Hi & H); exists ix, v; (split; [exact E|]); (split; [exact Hi|]); now apply G.
  - destruct (String.eqb_spec op "intersection") as [->|Ni].
    + rewrite Sa, removelast_last. eexists. split; [reflexivity|]. split; [apply with_count_sorted|]. intro r. cbn [f_unique fst]. rewrite inter_rows, (in_concat_indices prefix n a r Wa Sa), (in_concat_indices prefix m b r Wb Sb).
      unfold member. cbn [String.eqb Ascii.eqb Bool.eqb]. split.
      * intros [(ix & v & E & Hi & H) (jx & w & E' & Hj & H')]. rewrite E in E'. apply key_app_inj in E' as [<- <-]. exists ix, v. auto.
      * intros (ix & v & E & Hi & H & H'). split; exists ix, v; auto.
    + destruct (String.eqb_spec op "a-b") as [->|Na].
      * rewrite Sa, removelast_last. eexists. split; [reflexivity|]. split; [apply with_count_sorted|]. intro r. cbn [f_unique fst]. rewrite minus_rows, (in_concat_indices prefix n a r Wa Sa), (in_concat_indices prefix m b r Wb Sb).
        unfold member. cbn [String.eqb Ascii.eqb Bool.eqb]. split.
        -- intros [(ix & v & E & Hi & H) N]. exists ix, v. repeat split; auto. intro H'. apply N. exists ix, v. auto.
        -- intros (ix & v & E & Hi & H & H'). split; [exists ix, v; auto|]. intros (jx & w & E' & Hj & K). rewrite E in E'. apply key_app_inj in E' as [<- <-]. auto.
      * exfalso. unfold operation in Op. cbn in Op. destruct Op as [<-|[<-|[<-|[<-|[]]]]]; auto.
Qed.
Lemma grouped_map {A} (f : A -> list Z) (k : A -> nat) l : grouped (filter (fun g => Nat.ltb 0 (snd g)) (map (fun x => (f x, k x)) l)) = flat_map (fun x => repeat (f x) (k x)) l.
Proof. unfold grouped. induction l as [|x l IH]; cbn [map filter flat_map]; auto. cbn [snd]. destruct (Nat.ltb_spec 0 (k x)); [|replace (k x) with 0 by lia; auto]. cbn [flat_map fst snd]. now rewrite IH. Qed.
Lemma flat_filter {A B} (f : A -> nat -> list B) (l : list (A * nat)) : (forall x, f x 0 = []) -> flat_map (fun g => f (fst g) (snd g)) (filter (fun g => Nat.ltb 0 (snd g)) l) = flat_map (fun g => f (fst g) (snd g)) l.
Proof. intro Z0. induction l as [|[x n] l IH]; cbn [filter flat_map]; auto. cbn [fst snd]. destruct (Nat.ltb_spec 0 n); [cbn [flat_map fst snd]; now rewrite IH|]. replace n with 0 by lia. now rewrite Z0. Qed.
Lemma max_filter {A} (l : list (A * nat)) : fold_right Nat.max 0 (map snd (filter (fun g => Nat.ltb 0 (snd g)) l)) = fold_right Nat.max 0 (map snd l).
Proof. induction l as [|[x n] l IH]; cbn [filter map fold_right]; auto. cbn [snd]. destruct (Nat.ltb_spec 0 n); cbn [map fold_right snd]; rewrite IH; lia. Qed.
Lemma to_sparse_ok prefix rows (P : list nat -> Z -> Prop) : StronglySorted before rows ->
  (forall r, In r rows <-> exists ix v, r = key ix ++ [v] /\ inb ix prefix /\ P ix v) ->
  to_sparse prefix rows = match rows with [] => None | _ => Some (sparse_of prefix (res rows)) end.
Proof.
  intros H R. assert (E := rows_eq prefix rows P H R). set (gs := filter (fun g => Nat.ltb 0 (snd g)) (map (fun ix => (key ix, length (res rows ix))) (row_major prefix))).
  assert (Eg : map (@removelast Z) rows = grouped gs).
  { rewrite E at 1. unfold gs. rewrite (grouped_map key (fun ix => length (res rows ix))). clear. induction (row_major prefix) as [|ix l IH]; cbn [flat_map]; auto.
    rewrite map_app, IH. f_equal. rewrite map_map. induction (res rows ix) as [|v vs IHv]; cbn [map length repeat]; auto. now rewrite removelast_last, IHv. }
  assert (Ev : map (fun r => last r 0%Z) rows = flat_map (res rows) (row_major prefix)).
  { rewrite E at 1. clear. induction (row_major prefix) as [|ix l IH]; cbn [flat_map]; auto. rewrite map_app, IH. f_equal. rewrite map_map.
    rewrite <- map_id. apply map_ext. intro v. apply last_last. }
  rewrite (to_sparse_groups prefix rows gs); [|exact Eg| |].
  - assert (En : rows = [] <-> gs = []).
    { split; intro K.
      - rewrite K in Eg. destruct gs as [|[r k] l] eqn:Eq; auto. exfalso. assert (Hk : In (r, k) gs) by (rewrite Eq; now left). unfold gs in Hk. apply filter_In in Hk. destruct Hk as [_ Hk].
        apply Nat.ltb_lt in Hk. cbn in Hk. destruct k; [lia|discriminate].
      - rewrite K in Eg. now apply map_eq_nil in Eg. }
    destruct rows as [|r rows']; [rewrite (proj1 En eq_refl); reflexivity|]. destruct gs as [|g gs'] eqn:Eq; [exfalso; assert (K : r :: rows' = []) by (now apply En); discriminate|].
    rewrite <- Eq, Ev. unfold sparse_of. f_equal. f_equal.
    + unfold gs. rewrite (flat_filter (fun x k => map (fun j => x ++ [Z.of_nat j]) (seq 0 k))) by auto. clear. induction (row_major prefix) as [|ix l IH]; cbn [map flat_map]; auto. cbn [fst snd]. rewrite IH.
      f_equal. apply map_ext. intro k. rewrite map_app. reflexivity.
    + unfold gs. rewrite max_filter, map_map. cbn [snd]. rewrite map_app. reflexivity.
  - assert (S0 : StronglySorted (fun g h => before (fst g) (fst h)) gs).
    { unfold gs. apply sorted_filter. eapply sorted_map; [|apply row_major_sorted]. intros x y _ _ K. exact K. }
    eapply sorted_map; [|exact S0]. intros x y _ _ K. exact K.
  - intros g Hg. unfold gs in Hg. apply filter_In in Hg. destruct Hg as [_ Hg]. now apply Nat.ltb_lt.
Qed.
Lemma member_swap p q : member "a-b" q p = member "b-a" p q.
Proof. reflexivity. Qed.
Lemma dense_to_dense_ok op prefix n m a b : wf a -> wf b -> shape a = prefix ++ [n] -> shape b = prefix ++ [m] -> operation op ->
  exists res, set_result op prefix n m a b res /\
    dense_to_dense op a b = if Nat.ltb 0 (length (flat_map res (row_major prefix))) then Some (sparse_of prefix res) else None.
Proof.
  intros Wa Wb Sa Sb Op. unfold dense_to_dense.
  assert (K : exists rows, (let '(set_op, x, y) := if String.eqb op "b-a" then ("a-b"%string, b, a) else (op, a, b) in result_rows set_op x y) = Some (prefix, rows) /\ StronglySorted before rows /\
    forall r, In r rows <-> exists ix v, r = key ix ++ [v] /\ inb ix prefix /\ member op (in_row a n ix v) (in_row b m ix v)).
  { destruct (String.eqb_spec op "b-a") as [->|N].
    - destruct (result_rows_ok "a-b" prefix m n b a) as (rows & E & H & R); auto; [discriminate|now left|]. exists rows. split; [exact E|]. split; [exact H|]. exact R.
    - exact (result_rows_ok op prefix n m a b Wa Wb Sa Sb N Op). }
  destruct K as (rows & E & H & R). exists (res rows). split.
  - intros ix Hix. split; [exact (res_sorted prefix rows _ H R ix)|]. intro v. exact (in_res prefix rows _ R ix v Hix).
  - assert (T := to_sparse_ok prefix rows _ H R). assert (Q := rows_eq prefix rows _ H R).
    assert (L : length (flat_map (res rows) (row_major prefix)) = length rows).
    { rewrite Q at 2. clear. induction (row_major prefix) as [|ix l IH]; cbn [flat_map]; auto. rewrite !app_length, map_length, IH. reflexivity. }
    rewrite L. destruct (String.eqb op "b-a"); rewrite E, T; destruct rows; reflexivity.
Qed.

(** the sets are determined by their members *)
Lemma zsorted_same l : forall l', StronglySorted Z.lt l -> StronglySorted Z.lt l' -> (forall x, In x l <-> In x l') -> l = l'.
Proof.
  intros l' A B E. assert (M : forall u, StronglySorted Z.lt u -> StronglySorted before (map (fun v => [v]) u)).
  { intros u H. eapply sorted_map; [|exact H]. intros x y _ _ L. unfold before. cbn. apply Z.compare_lt_iff in L. now rewrite L. }
  assert (K : map (fun v => [v]) l = map (fun v => [v]) l').
  { apply sorted_same; auto. intro r. rewrite !in_map_iff. split; intros (v & <- & H); exists v; (split; [reflexivity|]); now apply E. }
  clear -K. revert l' K. induction l as [|x l IH]; intros [|y l'] K; cbn in K; try discriminate; auto. injection K as -> K. f_equal. auto.
Qed.
Lemma set_result_unique op prefix n m a b r1 r2 : set_result op prefix n m a b r1 -> set_result op prefix n m a b r2 -> forall ix, inb ix prefix -> r1 ix = r2 ix.
Proof.
  intros A B ix Hix. destruct (A ix Hix) as [S1 M1], (B ix Hix) as [S2 M2]. apply zsorted_same; auto. intro v. rewrite M1, M2. tauto.
Qed.
Lemma sparse_of_ext prefix r1 r2 : (forall ix, inb ix prefix -> r1 ix = r2 ix) -> sparse_of prefix r1 = sparse_of prefix r2 /\ flat_map r1 (row_major prefix) = flat_map r2 (row_major prefix).
Proof.
  intro H. assert (H' : forall ix, In ix (row_major prefix) -> r1 ix = r2 ix) by (intros ix I; apply H; now apply in_row_major). clear H. unfold sparse_of.
  assert (F : forall {B} (f1 f2 : list nat -> list B) l, (forall x, In x l -> f1 x = f2 x) -> flat_map f1 l = flat_map f2 l).
  { intros B f1 f2 l E. induction l as [|x l IH]; cbn [flat_map]; auto. rewrite (E x) by (now left). f_equal. apply IH. intros; apply E; now right. }
  assert (F2 := F Z r1 r2 _ H'). split; [|exact F2]. f_equal.
  - apply F. intros x Hx. now rewrite H'.
  - exact F2.
  - f_equal. f_equal. f_equal. f_equal. apply map_ext_in. intros x Hx. now rewrite H'.
Qed.
