(** Proofs about Einsum: reading the equation, renaming its labels, and the equations that are products of matrices. *)
From Coq Require Import String Ascii List Arith ZArith Bool Lia Permutation.
From Verif Require Import Tensor FoldModel OnnxSpec FoldProofs TensorProofs TOps TOpsProofs PushProofs3 RewValues MatSpec MatModel MatProofs.
Import ListNotations.
Local Open Scope list_scope.

(** ** the text of an equation *)
Lemma letter_not c d : letter c -> (nat_of_ascii d < 65)%nat -> c <> d.
Proof. intros [H|H] L <-; lia. Qed.
Lemma split_arrow_free l : Forall letter l -> forall cur, split_arrow cur l = [cur ++ l].
Proof.
  induction 1 as [|c l Hc Hl IH]; intro cur; cbn [split_arrow]; [now rewrite app_nil_r|]. destruct l as [|c' l'].
  - rewrite IH, <- app_assoc. reflexivity.
  - rewrite (proj2 (Ascii.eqb_neq c "-"%char)) by (apply letter_not; auto; cbn; lia). cbn [andb]. rewrite IH, <- app_assoc. reflexivity.
Qed.
Lemma split_arrow_at l rest : Forall (fun c => c <> "-"%char) l -> forall cur, split_arrow cur (l ++ "-"%char :: ">"%char :: rest) = (cur ++ l) :: split_arrow [] rest.
Proof.
  induction 1 as [|c l Hc Hl IH]; intro cur; [cbn [app split_arrow]; rewrite !Ascii.eqb_refl; cbn [andb]; now rewrite app_nil_r|]. cbn [app split_arrow].
  rewrite (proj2 (Ascii.eqb_neq c "-"%char) Hc). cbn [andb]. rewrite IH, <- app_assoc.
  destruct (l ++ _) as [|c' l'] eqn:E; reflexivity.
Qed.
Lemma split_comma_free l : Forall letter l -> forall cur, split_comma cur l = [cur ++ l].
Proof.
  induction 1 as [|c l Hc Hl IH]; intro cur; cbn [split_comma]; [now rewrite app_nil_r|]. rewrite (proj2 (Ascii.eqb_neq c ","%char)) by (apply letter_not; auto; cbn; lia).
  rewrite IH, <- app_assoc. reflexivity.
Qed.
Lemma split_comma_at l rest : Forall letter l -> forall cur, split_comma cur (l ++ ","%char :: rest) = (cur ++ l) :: split_comma [] rest.
Proof.
  induction 1 as [|c l Hc Hl IH]; intro cur; cbn [app split_comma]; [rewrite Ascii.eqb_refl; now rewrite app_nil_r|].
  rewrite (proj2 (Ascii.eqb_neq c ","%char)) by (apply letter_not; auto; cbn; lia). rewrite IH, <- app_assoc. reflexivity.
Qed.
Lemma split_commas terms : terms <> [] -> Forall (Forall letter) terms -> split_comma [] (commas terms) = terms.
Proof.
  intros N F. induction F as [|t ts Ht Hts IH]; [congruence|]. destruct ts as [|t' ts].
  - cbn [commas]. now rewrite split_comma_free.
  - change (commas (t :: t' :: ts)) with (t ++ ","%char :: commas (t' :: ts)). rewrite split_comma_at by auto. rewrite IH by discriminate. reflexivity.
Qed.
Lemma commas_no_minus terms : Forall (Forall letter) terms -> Forall (fun c => c <> "-"%char) (commas terms).
Proof.
  induction 1 as [|t ts Ht Hts IH]; [constructor|]. assert (Ft : Forall (fun c => c <> "-"%char) t) by (eapply Forall_impl; [|exact Ht]; intros c Hc; apply letter_not; auto; cbn; lia).
  destruct ts as [|t' ts]; [exact Ft|]. change (commas (t :: t' :: ts)) with (t ++ ","%char :: commas (t' :: ts)). apply Forall_app. split; auto. constructor; auto. discriminate.
Qed.
Lemma read_equation terms rhs : terms <> [] -> Forall (Forall letter) terms -> Forall letter rhs ->
  split_arrow [] (render terms rhs) = [commas terms; rhs] /\ split_comma [] (commas terms) = terms.
Proof.
  intros N F Fr. split; [|now apply split_commas]. unfold render. rewrite split_arrow_at by now apply commas_no_minus. rewrite split_arrow_free by auto. reflexivity.
Qed.
Lemma lower_letter c : letter c -> letter (lower c).
Proof.
  intro H. unfold lower. cbv zeta. destruct (_ && _) eqn:E; auto. apply andb_true_iff in E. rewrite !Nat.leb_le in E. unfold letter. cbv zeta.
  rewrite nat_ascii_embedding by lia. lia.
Qed.
Lemma lower_render terms rhs : map lower (render terms rhs) = render (map (map lower) terms) (map lower rhs).
Proof.
  unfold render. rewrite map_app. cbn [map]. change (lower "-"%char) with "-"%char. change (lower ">"%char) with ">"%char. f_equal.
  induction terms as [|t ts IH]; [reflexivity|]. destruct ts as [|t' ts]; [reflexivity|].
  change (commas (t :: t' :: ts)) with (t ++ ","%char :: commas (t' :: ts)). rewrite map_app. cbn [map] in *. rewrite IH. reflexivity.
Qed.

(** ** renaming the labels *)
Section Rename.
Context {A : Type}.
Variable dot : list (list A) -> A.
Variable f : ascii -> ascii.
Definition inj_on (l : list ascii) : Prop := forall c d, In c l -> In d l -> f c = f d -> c = d.
Lemma eqb_inj l c d : inj_on l -> In c l -> In d l -> Ascii.eqb (f c) (f d) = Ascii.eqb c d.
Proof. intros H C D. destruct (Ascii.eqb_spec c d) as [->|N]; [apply Ascii.eqb_refl|]. apply Ascii.eqb_neq. intro E. apply N. eapply H; eauto. Qed.
Lemma nodup_map l : inj_on l -> nodup ascii_dec (map f l) = map f (nodup ascii_dec l).
Proof.
  induction l as [|c l IH]; intro H; [reflexivity|]. cbn [map nodup]. assert (Hl : inj_on l) by (intros x y X Y; apply H; cbn; auto). destruct (in_dec ascii_dec c l) as [I1|I1], (in_dec ascii_dec (f c) (map f l)) as [I2|I2].
  - auto.
  - exfalso. apply I2. now apply in_map.
  - exfalso. apply in_map_iff in I2. destruct I2 as (d & E & D). apply H in E; cbn; auto. congruence.
  - cbn [map]. now rewrite IH.
Qed.
Lemma existsb_map l rhs c : inj_on l -> incl rhs l -> In c l -> existsb (Ascii.eqb (f c)) (map f rhs) = existsb (Ascii.eqb c) rhs.
Proof. intros H Hr C. induction rhs as [|d rhs IH]; [reflexivity|]. cbn [map existsb]. rewrite (eqb_inj l) by (auto; apply Hr; cbn; auto). rewrite IH; auto. intros x X. apply Hr. cbn. auto. Qed.
Lemma filter_map_inj l rhs m : inj_on l -> incl rhs l -> incl m l ->
  filter (fun c => negb (existsb (Ascii.eqb c) (map f rhs))) (map f m) = map f (filter (fun c => negb (existsb (Ascii.eqb c) rhs)) m).
Proof.
  intros H Hr Hm. induction m as [|c m IH]; [reflexivity|]. cbn [map filter]. rewrite (existsb_map l) by (auto; apply Hm; cbn; auto).
  assert (incl m l) by (intros x X; apply Hm; cbn; auto). destruct (negb _); cbn [map]; rewrite IH; auto.
Qed.
Lemma summed_map terms rhs : inj_on (concat terms) -> incl rhs (concat terms) -> summed (map (map f) terms) (map f rhs) = map f (summed terms rhs).
Proof.
  intros H Hr. unfold summed. rewrite <- concat_map, nodup_map by auto. apply (filter_map_inj (concat terms)); auto. intros c C. now apply nodup_In in C.
Qed.
Lemma position_map l s c : inj_on l -> incl s l -> In c l -> position (f c) (map f s) = position c s.
Proof. intros H Hs C. induction s as [|d s IH]; [reflexivity|]. cbn [map position]. rewrite (eqb_inj l) by (auto; apply Hs; cbn; auto). rewrite IH; auto. intros x X. apply Hs. cbn. auto. Qed.
Lemma summed_incl terms rhs : incl (summed terms rhs) (concat terms).
Proof. intros c C. apply filter_In in C. destruct C as [C _]. now apply nodup_In in C. Qed.
Lemma NoDup_map_inj l : inj_on l -> NoDup l -> NoDup (map f l).
Proof.
  intros H N. induction N as [|c l Hc Hn IH]; [constructor|]. cbn [map]. constructor.
  - intro I1. apply in_map_iff in I1. destruct I1 as (d & E & D). apply H in E; cbn; auto. congruence.
  - apply IH. intros x y X Y. apply H; cbn; auto.
Qed.
Lemma combine_map_l {X Y Z} (g : X -> Z) (l : list X) : forall m : list Y, combine (map g l) m = map (fun p => (g (fst p), snd p)) (combine l m).
Proof. induction l as [|x l IH]; intros [|y m]; cbn; auto. now rewrite IH. Qed.
Lemma Forall2_map_l {X Y Z} (P : Z -> Y -> Prop) (g : X -> Z) l m : Forall2 P (map g l) m <-> Forall2 (fun x y => P (g x) y) l m.
Proof. split; [revert m; induction l as [|x l IH]; intros m H; inversion H; subst; constructor; auto|]. induction 1; cbn; constructor; auto. Qed.
Lemma Forall2_impl_in {X Y} (P Q : X -> Y -> Prop) l m : (forall x y, In x l -> P x y -> Q x y) -> Forall2 P l m -> Forall2 Q l m.
Proof. intros H F. induction F; constructor; auto; [apply H; cbn; auto|]. apply IHF. intros. apply H; cbn; auto. Qed.
Lemma einsum_rename terms rhs xs y : inj_on (concat terms) -> einsum_rel dot terms rhs xs y -> einsum_rel dot (map (map f) terms) (map f rhs) xs y.
Proof.
  intros H (N & Hr & dim & F & Wy & Sy & R). set (labels := concat terms) in *.
  assert (In_l : forall t c, In t terms -> In c t -> In c labels) by (intros t c T C; apply in_concat; eauto).
  set (g := fun c => match find (fun d => Ascii.eqb (f d) c) labels with Some d => d | None => c end).
  assert (G : forall c, In c labels -> g (f c) = c).
  { intros c C. unfold g. destruct (find (fun d => Ascii.eqb (f d) (f c)) labels) as [d|] eqn:E.
    - apply find_some in E. destruct E as [D E]. apply Ascii.eqb_eq in E. eapply H; eauto.
    - exfalso. assert (K := find_none _ _ E c C). cbn beta in K. rewrite Ascii.eqb_refl in K. discriminate. }
  assert (Mg : forall l, incl l labels -> map (fun c => dim (g c)) (map f l) = map dim l) by (intros l L; rewrite map_map; apply map_ext_in; intros c C; now rewrite G by auto).
  split; [apply NoDup_map_inj; auto; intros c d C D; apply H; auto|]. split; [rewrite <- concat_map; intros c C; apply in_map_iff in C; destruct C as (d & <- & D); apply in_map; auto|].
  exists (fun c => dim (g c)). split; [|split; [auto|split; [rewrite Mg by auto; auto|]]].
  - apply Forall2_map_l. eapply Forall2_impl_in; [|exact F]. intros t x T (Wx & Sx). split; auto. rewrite Mg; auto. intros c C. eauto.
  - intros env He. cbv zeta. rewrite summed_map by auto. rewrite Mg by apply summed_incl. specialize (R (fun c => env (f c))). cbv zeta in R.
    destruct R as (rows & Lr & Rq & Gy). { intros c C. specialize (He (f c)). rewrite G in He by auto. apply He. now apply in_map. }
    exists rows. split; auto. split; [|rewrite map_map; exact Gy].
    intros q Lq. destruct (Rq q Lq) as (vs & E & V). exists vs. split; auto. rewrite combine_map_l. apply Forall2_map_l. eapply Forall2_impl_in; [|exact V].
    intros [t x] v T. cbn [fst snd]. intros <-. apply in_combine_l in T. f_equal. rewrite map_map. apply map_ext_in. intros c C. unfold assign.
    rewrite (position_map labels) by (solve [auto | apply summed_incl | eauto]). reflexivity.
Qed.
End Rename.

(** ** the equations that are products of matrices *)
Lemma repeated_spec t : repeated t = false <-> NoDup t.
Proof.
  unfold repeated. rewrite Nat.ltb_ge. split; intro H.
  - apply NoDup_incl_NoDup with (l := nodup ascii_dec t); [apply NoDup_nodup|auto|]. intros c C. apply nodup_In in C. auto.
  - rewrite nodup_fixed_point by auto. auto.
Qed.
Lemma eq_list_spec a : forall b, eq_list a b = true -> a = b.
Proof. induction a as [|x a IH]; intros [|y b] H; cbn in H; try discriminate; auto. apply andb_true_iff in H. destruct H as [E H]. apply Ascii.eqb_eq in E. apply IH in H. congruence. Qed.
Lemma replace_shape terms rhs tr : terms <> [] -> Forall (Forall letter) terms -> Forall letter rhs -> should_replace (render terms rhs) = Some tr ->
  exists bt i j k, terms = [bt ++ [i; k]; if tr then [j; k] else [k; j]] /\ rhs = bt ++ [i; j] /\ NoDup (bt ++ [i; k]) /\ NoDup (bt ++ [i; j]) /\ j <> k.
Proof.
  intros N F Fr H. unfold should_replace in H. cbv zeta in H. destruct (read_equation _ _ N F Fr) as [E1 E2]. rewrite E1, E2 in H. clear E1.
  destruct terms as [|t1 [|t2 [|? ?]]]; try discriminate. destruct (existsb _ _) eqn:X in H; [discriminate|].
  cbn [existsb] in X. rewrite !orb_false_iff in X. destruct X as ((R1 & _) & (R2 & _) & (R3 & _) & _). apply repeated_spec in R1, R2, R3.
  destruct t2 as [|c0 [|c1 [|? ?]]]; try discriminate. destruct (rev rhs) as [|j [|i rhs']] eqn:Er; try discriminate. destruct (rev t1) as [|k' [|i' t1']] eqn:E1; try discriminate.
  assert (Er' : rhs = rev rhs' ++ [i; j]) by (rewrite <- (rev_involutive rhs), Er; cbn [rev]; now rewrite <- app_assoc).
  assert (E1' : t1 = rev t1' ++ [i'; k']) by (rewrite <- (rev_involutive t1), E1; cbn [rev]; now rewrite <- app_assoc).
  assert (K : exists k, (if tr then [j; k] else [k; j]) = [c0; c1] /\ Ascii.eqb i' i && Ascii.eqb k' k && eq_list t1' rhs' = true).
  { destruct (Ascii.eqb_spec c0 j) as [->|N0].
    - destruct (_ && _) eqn:Q in H; [|discriminate]. injection H as <-. exists c1. auto.
    - destruct (Ascii.eqb_spec c1 j) as [->|N1]; [|discriminate]. destruct (_ && _) eqn:Q in H; [|discriminate]. injection H as <-. exists c0. auto. }
  destruct K as (k & K1 & K2). rewrite !andb_true_iff in K2. destruct K2 as ((Q1 & Q2) & Q3). apply Ascii.eqb_eq in Q1, Q2. apply eq_list_spec in Q3. subst i' k' t1'.
  exists (rev rhs'), i, j, k. rewrite K1, <- E1', <- Er'. split; auto. split; auto. split; auto. split; auto.
  intros ->. rewrite <- K1 in R2. destruct tr; inversion R2; subst; cbn in *; tauto.
Qed.

Section Product.
Context {A : Type}.
Variable dot : list (list A) -> A.
Lemma only_one (l : list ascii) k : NoDup l -> (forall c, In c l <-> c = k) -> l = [k].
Proof.
  intros N H. destruct l as [|c l]; [exfalso; apply (proj2 (H k) eq_refl)|]. assert (c = k) by (apply H; cbn; auto). subst c. destruct l as [|d l]; auto.
  assert (d = k) by (apply H; cbn; auto). subst d. inversion N; subst. cbn in *. tauto.
Qed.
Lemma position_nth (l : list ascii) ix : NoDup l -> length ix = length l -> map (fun c => match position c l with Some p => nth p ix 0 | None => 0 end) l = ix.
Proof.
  intros N. revert ix. induction N as [|d l Hd Hn IH]; intros [|i ix] L; cbn in L; try discriminate; [reflexivity|]. cbn [map position]. rewrite Ascii.eqb_refl. cbn [nth]. f_equal.
  etransitivity; [|apply (IH ix); lia]. apply map_ext_in. intros x X. rewrite (proj2 (Ascii.eqb_neq x d)) by (intros ->; tauto). destruct (position x l); reflexivity.
Qed.
Lemma bcast_ones_r sa : bcast_dims (pad_ones (Nat.max (length sa) 0) sa) (pad_ones (Nat.max (length sa) 0) []) = Some sa.
Proof.
  rewrite Nat.max_0_r. unfold pad_ones. rewrite Nat.sub_diag. cbn [repeat length app]. rewrite Nat.sub_0_r, app_nil_r.
  induction sa as [|d sa IH]; [reflexivity|]. cbn [length repeat bcast_dims]. rewrite IH. destruct (Nat.eqb_spec d 1) as [->|]; reflexivity.
Qed.
Lemma app_inv_len {X} : forall (u u' v v' : list X), length u = length u' -> u ++ v = u' ++ v' -> u = u' /\ v = v'.
Proof.
  induction u as [|x u IH]; intros [|z u'] v v' L E; cbn in L; try discriminate; [auto|]. injection E as <- E. apply IH in E; [|lia]. destruct E as [-> ->]. auto.
Qed.
Lemma inb_F2 : forall u v, inb u v -> Forall2 lt u v.
Proof.
  induction u as [|x u IH]; intros [|z v]; cbn [inb]; intro H; try tauto; [constructor|].
  destruct H as [X Z]. constructor; auto.
Qed.
Lemma einsum_matmul (tr : bool) (bt : list ascii) (i j k : ascii) (a b y : tensor A) : NoDup (bt ++ [i; k]) -> NoDup (bt ++ [i; j]) -> j <> k ->
  einsum_rel dot [bt ++ [i; k]; if tr then [j; k] else [k; j]] (bt ++ [i; j]) [a; b] y -> tf_matmul dot false tr a b y.
Proof.
  intros N1 N2 Njk (_ & _ & dim & F & Wy & Sy & R). inversion F as [|? ? ? ? (Wa & Sa) F']; subst. inversion F' as [|? ? ? ? (Wb & Sb) _]; subst. clear F F'.
  assert (Kbt : ~ In k bt /\ k <> i).
  { assert (N3 : NoDup ((bt ++ [i]) ++ k :: [])) by (rewrite <- app_assoc; exact N1). apply NoDup_remove_2 in N3. rewrite app_nil_r, in_app_iff in N3. cbn in N3. intuition congruence. }
  destruct Kbt as [Kbt Kni].
  assert (Es : summed [bt ++ [i; k]; if tr then [j; k] else [k; j]] (bt ++ [i; j]) = [k]).
  { apply only_one; [apply NoDup_filter, NoDup_nodup|]. intro c. unfold summed. rewrite filter_In, nodup_In. cbn [concat]. rewrite app_nil_r, !in_app_iff.
    assert (Hn : negb (existsb (Ascii.eqb c) (bt ++ [i; j])) = true <-> ~ (In c bt \/ c = i \/ c = j)).
    { rewrite negb_true_iff. split; intro H.
      - intro J. assert (E : existsb (Ascii.eqb c) (bt ++ [i; j]) = true) by (apply existsb_exists; exists c; split; [apply in_app_iff; cbn; intuition congruence|apply Ascii.eqb_refl]). congruence.
      - destruct (existsb _ _) eqn:E; auto. apply existsb_exists in E. destruct E as (d & D & Ed). apply Ascii.eqb_eq in Ed. subst d. apply in_app_iff in D. cbn in D. exfalso. apply H. intuition congruence. }
    rewrite Hn. destruct tr; cbn; split; intro H; intuition congruence. }
  rewrite Es in R. cbv zeta in R. cbn [map] in R.
  exists (map dim bt), [], (map dim bt), (dim i), (dim k), (dim j). split; auto. split; auto. split; auto.
  split; [rewrite Sa, map_app; reflexivity|]. split; [rewrite Sb; destruct tr; reflexivity|]. cbv zeta. change (length (@nil nat)) with 0. split; [apply bcast_ones_r|].
  split; [rewrite Sy, map_app; reflexivity|]. intros ix i0 j0 I0 Li Lj. assert (Lix := inb_length _ _ I0). rewrite map_length in Lix.
  set (env := fun c => match position c (bt ++ [i; j]) with Some p => nth p (ix ++ [i0; j0]) 0 | None => 0 end).
  assert (Me : map env (bt ++ [i; j]) = ix ++ [i0; j0]).
  { assert (K := position_nth (bt ++ [i; j]) (ix ++ [i0; j0]) N2). rewrite !app_length in K. cbn [length] in K. specialize (K ltac:(lia)).
    rewrite <- K at 1. apply map_ext_in. intros c C. reflexivity. }
  assert (He : forall c, In c (bt ++ [i; j]) -> env c < dim c).
  { intros c C. assert (Q : forall l, Forall2 lt (map env l) (map dim l) -> In c l -> env c < dim c).
    { induction l as [|d l IH]; cbn [map In]; [tauto|]. intros F2. inversion F2; subst. intros [->|D]; auto. }
    apply (Q _) in C; auto. rewrite Me. rewrite map_app. 
    apply Forall2_app; [now apply inb_F2|]. cbn [map]. repeat constructor; auto. }
  destruct (R env He) as (rows & Lr & Rq & Gy). rewrite Me in Gy. change (size [dim k]) with (dim k * 1) in Lr, Rq. rewrite Nat.mul_1_r in Lr, Rq.
  exists rows. split; auto. split; auto. intros l Ll. destruct (Rq l Ll) as (vs & E & V). cbn [combine] in V. inversion V as [|? u ? ? Gu V']; subst. inversion V' as [|? v ? ? Gv V'']; subst. inversion V''; subst. clear V V' V''.
  cbn [fst snd] in Gu, Gv. exists u, v. split; auto.
  assert (Un : unravel [dim k] l = [l]) by (cbn [unravel]; change (size []) with 1; now rewrite Nat.div_1_r).
  rewrite Un in Gu, Gv. assert (Ak : assign [k] [l] env k = l) by (unfold assign; cbn [position]; now rewrite Ascii.eqb_refl).
  assert (Ao : forall c, c <> k -> assign [k] [l] env c = env c) by (intros c C; unfold assign; cbn [position]; now rewrite (proj2 (Ascii.eqb_neq c k) C)).
  rewrite map_app in Me. cbn [map] in Me. assert (Lb : length (map env bt) = length ix) by (now rewrite map_length).
  assert (Me2 : map env bt = ix /\ [env i; env j] = [i0; j0]).
  { now apply app_inv_len. }
  destruct Me2 as [Mb Mij]. injection Mij as Mi Mj. split.
  - rewrite map_app in Gu. cbn [map] in Gu. rewrite Ak, Ao in Gu by auto. rewrite Mi in Gu. replace (map (assign [k] [l] env) bt) with ix in Gu.
    + rewrite Nat.max_0_r. assert (Bs := bcast_self (map dim bt) ix I0). rewrite map_length in *. now rewrite Bs.
    + rewrite <- Mb. apply map_ext_in. intros c C. rewrite Ao; auto. intros ->. tauto.
  - replace (bcast_ix (Nat.max (length (map dim bt)) 0) [] ix) with (@nil nat) by reflexivity. cbn [app].
    destruct tr; cbn [map] in Gv; rewrite Ak, Ao in Gv by auto; rewrite Mj in Gv; exact Gv.
Qed.
(** the whole conversion *)
Lemma einsum_ok less terms rhs xs y : terms <> [] -> Forall (Forall letter) terms -> Forall letter rhs -> inj_on lower (concat terms) ->
  einsum_rel dot terms rhs xs y -> mval dot less xs (einsum (render terms rhs)) y.
Proof.
  intros N F Fr J E. apply (einsum_rename dot lower) in E; auto. unfold einsum. cbv zeta. rewrite lower_render.
  assert (N' : map (map lower) terms <> []) by (destruct terms; [congruence|discriminate]).
  assert (F' : Forall (Forall letter) (map (map lower) terms)).
  { apply Forall_map. eapply Forall_impl; [|exact F]. intros t T. apply Forall_map. eapply Forall_impl; [|exact T]. intros c. apply lower_letter. }
  assert (Fr' : Forall letter (map lower rhs)) by (apply Forall_map; eapply Forall_impl; [|exact Fr]; intros c; apply lower_letter).
  set (ts := map (map lower) terms) in *. set (r := map lower rhs) in *. destruct (should_replace (render ts r)) as [tr|] eqn:S0.
  - destruct (replace_shape _ _ _ N' F' Fr' S0) as (bt & i & j & k & Et & Erh & N1 & N2 & Njk). rewrite Et, Erh in E.
    assert (Lx : exists a b, xs = [a; b] /\ length (shape b) = 2).
    { destruct E as (_ & _ & dim & F2 & _). inversion F2 as [|? a ? ? _ F3]; subst. inversion F3 as [|? b ? ? (_ & Sb) F4]; subst. inversion F4; subst. exists a, b. split; auto. rewrite Sb. destruct tr; reflexivity. }
    destruct Lx as (a & b & -> & Lb). apply einsum_matmul in E; auto. destruct tr.
    + destruct (matmul_b dot _ _ _ _ E) as (p & b' & P & T & E'). cbn [mval]. exists a, b'. split; [reflexivity|]. split; [|now apply matmul_spec].
      exists b. split; [reflexivity|]. 
      rewrite Lb in P. injection P as <-. exact T.
    + cbn [mval]. exists a, b. split; [reflexivity|]. split; [reflexivity|]. now apply matmul_spec.
  - cbn [mval]. exists ts, r. auto.
Qed.

End Product.
