(** The greedy decoder's graph against TensorFlow's loop. *)
From Coq Require Import Reals List Arith ZArith Bool Lia Lra.
From Verif Require Import CtcSpec CtcModel.
Import ListNotations.
Local Open Scope R_scope.
Local Open Scope list_scope.

(** ** the largest entry *)
Lemma fold_max_ge l : forall v, v <= fold_left Rmax l v.
Proof. induction l as [|u l IH]; intro v; cbn [fold_left]; [lra|]. eapply Rle_trans; [apply (Rmax_l v u)|apply IH]. Qed.
Lemma row_max_spec row : forall best bc c, fst (row_max best bc c row) = fold_left Rmax row best /\
  snd (row_max best bc c row) = if Req_EM_T best (fold_left Rmax row best) then bc else (c + find_index (fold_left Rmax row best) row)%nat.
Proof.
  induction row as [|v row IH]; intros best bc c; cbn [row_max fold_left find_index].
  - split; [reflexivity|]. destruct (Req_EM_T best best); [reflexivity|congruence].
  - destruct (Rlt_dec best v) as [L|L].
    + rewrite (Rmax_right best v) by lra. destruct (IH v c (S c)) as [E1 E2]. split; [exact E1|]. rewrite E2. assert (G := fold_max_ge row v).
      destruct (Req_EM_T best _); [lra|]. destruct (Req_EM_T v _); lia.
    + rewrite (Rmax_left best v) by lra. destruct (IH best bc (S c)) as [E1 E2]. split; [exact E1|]. rewrite E2. assert (G := fold_max_ge row best).
      destruct (Req_EM_T best _) as [E|E]; [reflexivity|]. destruct (Req_EM_T v _); [lra|lia].
Qed.
Lemma RowMax_top1 row : row <> [] -> top1 row = (fst (RowMax row), Z.of_nat (snd (RowMax row))).
Proof.
  destruct row as [|v row]; [congruence|]. intros _. unfold top1, RowMax, largest. destruct (row_max_spec row v 0 1) as [-> ->]. reflexivity.
Qed.
Lemma find_index_lt v l : In v l -> (find_index v l < length l)%nat.
Proof. induction l as [|u l IH]; cbn [find_index length In]; [tauto|]. intros H. destruct (Req_EM_T u v); [lia|]. destruct H as [H|H]; [congruence|]. specialize (IH H). lia. Qed.
Lemma fold_max_in l : forall v, In (fold_left Rmax l v) (v :: l).
Proof.
  induction l as [|u l IH]; intro v; cbn [fold_left]; [now left|]. destruct (IH (Rmax v u)) as [E|E]; [|right; now right]. rewrite <- E. unfold Rmax. destruct (Rle_dec v u); [right; now left|now left].
Qed.
Lemma class_lt row : row <> [] -> (snd (RowMax row) < length row)%nat.
Proof.
  intro N. assert (E := RowMax_top1 row N). unfold top1 in E. injection E as _ E. apply Nat2Z.inj in E. rewrite <- E. apply find_index_lt. destruct row as [|v row]; [congruence|]. apply fold_max_in.
Qed.
Lemma top1_zeros l : l <> [] -> fst (top1 (map (fun v => v * 0) l)) = 0.
Proof.
  destruct l as [|v l]; [congruence|]. intros _. cbn [top1 fst map largest]. rewrite Rmult_0_r. induction l as [|u l IH]; cbn [map fold_left]; [reflexivity|]. rewrite Rmult_0_r. rewrite (Rmax_left 0 0) by lra. exact IH.
Qed.
(** ** compressing *)
Lemma compress_app {A} (l1 l2 : list A) k1 k2 : length l1 = length k1 -> compress (l1 ++ l2) (k1 ++ k2) = compress l1 k1 ++ compress l2 k2.
Proof.
  intro L. unfold compress. rewrite <- map_app, <- filter_app. f_equal. f_equal. revert k1 L. induction l1 as [|a l1 IH]; intros [|k k1] L; cbn in L |- *; try lia; [reflexivity|]. f_equal. apply IH. lia.
Qed.
Lemma compress_map {A} (f : nat -> A) keep l : compress (map f l) (map keep l) = map f (filter keep l).
Proof.
  unfold compress. induction l as [|t l IH]; [reflexivity|]. cbn [map combine filter snd]. destruct (keep t); cbn [map fst]; [f_equal|]; exact IH.
Qed.
Lemma compress_flat {A} rows cols (m : nat -> nat -> A) keep : compress (flat rows cols m) (flat rows cols keep) = flat_map (fun b => map (m b) (filter (keep b) (seq 0 cols))) (seq 0 rows).
Proof.
  unfold flat. induction (seq 0 rows) as [|b l IH]; [reflexivity|]. cbn [flat_map]. rewrite compress_app by (now rewrite !map_length). now rewrite compress_map, IH.
Qed.
Lemma combine_flat {A B} rows cols (m : nat -> nat -> A) (k : nat -> nat -> B) : combine (flat rows cols m) (flat rows cols k) = flat rows cols (fun b t => (m b t, k b t)).
Proof.
  unfold flat. induction (seq 0 rows) as [|b l IH]; [reflexivity|]. cbn [flat_map].
  assert (A1 : forall l1 l2 l1' l2', length l1 = length l1' -> @combine A B (l1 ++ l2) (l1' ++ l2') = combine l1 l1' ++ combine l2 l2').
  { induction l1 as [|a l1 IH1]; intros l2 [|a' l1'] l2' L; cbn in L |- *; try lia; [reflexivity|]. f_equal. apply IH1. lia. }
  rewrite A1 by (now rewrite !map_length). rewrite IH. clear IH. f_equal. induction (seq 0 cols) as [|t s IHs]; [reflexivity|]. cbn [map combine]. rewrite IHs. reflexivity.
Qed.
(** the positions of the kept entries *)
Definition kept (keep : nat -> bool) (n : nat) : list nat := filter keep (seq 0 n).
Lemma count_kept keep n : fold_right Z.add 0%Z (map (fun t => cast01 (keep t)) (seq 0 n)) = Z.of_nat (length (kept keep n)).
Proof.
  unfold kept. generalize 0%nat as a. induction n as [|n IH]; intro a; [reflexivity|]. cbn [seq map fold_right filter]. rewrite IH. destruct (keep a); cbn [cast01 length]; lia.
Qed.
Lemma positions keep n : map (fun t => fold_right Z.add 0%Z (map (fun t' => cast01 (keep t')) (seq 0 t))) (kept keep n) = map Z.of_nat (seq 0 (length (kept keep n))).
Proof.
  induction n as [|n IH]; [reflexivity|]. unfold kept in *. rewrite seq_S, filter_app, map_app, app_length. rewrite IH. cbn [plus filter]. destruct (keep n).
  - cbn [map length]. rewrite count_kept. rewrite Nat.add_1_r, seq_S, map_app. reflexivity.
  - cbn [map length app]. now rewrite Nat.add_0_r, app_nil_r.
Qed.
Lemma kept_more keep n m : (n <= m)%nat -> (forall t, (n <= t)%nat -> keep t = false) -> kept keep m = kept keep n.
Proof.
  intros L H. unfold kept. replace m with (n + (m - n))%nat by lia. rewrite seq_app, filter_app. cbn [plus]. replace (filter keep (seq n (m - n))) with (@nil nat); [now rewrite app_nil_r|].
  symmetry. assert (A : forall l, (forall t, In t l -> keep t = false) -> filter keep l = []). { induction l as [|t l IH]; intro A; [reflexivity|]. cbn [filter]. rewrite A by now left. apply IH. intros; apply A; now right. }
  apply A. intros t I. apply in_seq in I. apply H. lia.
Qed.
(** the loop over the rows keeps the same classes *)
Definition keeps (merge : bool) (blank : nat) (c : nat -> nat) (t : nat) : bool :=
  negb (Nat.eqb (c t) blank) && negb (merge && match t with O => false | S t' => Nat.eqb (c t) (c t') end).
Lemma decode_kept merge blank (row : nat -> list R) c : (forall t, snd (RowMax (row t)) = c t) ->
  forall n s, decode merge blank (match s with O => None | S s' => Some (c s') end) (map row (seq s n)) = map c (filter (keeps merge blank c) (seq s n)).
Proof.
  intro H. induction n as [|n IH]; intro s; [reflexivity|]. cbn [seq map decode filter]. rewrite H. specialize (IH (S s)). cbn beta iota in IH. rewrite IH.
  replace (negb (c s =? blank)%nat && negb (merge && match match s with O => None | S s' => Some (c s') end with Some p => (c s =? p)%nat | None => false end)) with (keeps merge blank c s) by (unfold keeps; destruct s; reflexivity).
  destruct (keeps merge blank c s); reflexivity.
Qed.
Lemma flat_map_ext' {A B} (f g : A -> list B) l : (forall a, In a l -> f a = g a) -> flat_map f l = flat_map g l.
Proof. induction l as [|a l IH]; intro H; [reflexivity|]. cbn [flat_map]. rewrite H by now left. rewrite IH; [reflexivity|]. intros; apply H; now right. Qed.
Lemma filter_ext' {A} (f g : A -> bool) l : (forall a, In a l -> f a = g a) -> filter f l = filter g l.
Proof. induction l as [|a l IH]; intro H; [reflexivity|]. cbn [filter]. rewrite H by now left. rewrite IH; [reflexivity|]. intros; apply H; now right. Qed.
(** ** the largest position *)
Lemma fold_max_snd l : forall p, snd (fold_left (fun a b => (Z.max (fst a) (fst b), Z.max (snd a) (snd b))) l p) = fold_left Z.max (map snd l) (snd p).
Proof. induction l as [|q l IH]; intro p; [reflexivity|]. cbn [fold_left map]. now rewrite IH. Qed.
(** a list of numbers has a largest one, given by an upper bound that is among them *)
Lemma reduce_max_is l m : (forall p, In p l -> (snd p <= m)%Z) -> (exists p, In p l /\ snd p = m) -> exists q, reduce_max l = Some q /\ snd q = m.
Proof.
  intros H (p & Hp & E). destruct l as [|p0 l]; [destruct Hp|]. cbn [reduce_max]. eexists. split; [reflexivity|]. rewrite fold_max_snd.
  assert (A : forall l v, (forall u, In u (v :: l) -> (u <= m)%Z) -> In m (v :: l) -> fold_left Z.max l v = m).
  { clear. induction l as [|u l IH]; intros v H I; cbn [fold_left].
    - destruct I as [I|[]]. exact I.
    - apply IH.
      + intros w [<-|W]; [|apply H; right; now right]. assert (v <= m)%Z by (apply H; now left). assert (u <= m)%Z by (apply H; right; now left). lia.
      + assert (v <= m)%Z by (apply H; now left). assert (u <= m)%Z by (apply H; right; now left). destruct I as [->|[->|I]]; [left; lia|left; lia|right; exact I]. }
  apply A.
  - intros u I. change (snd p0 :: map snd l) with (map snd (p0 :: l)) in I. apply in_map_iff in I. destruct I as (q & <- & Q). now apply H.
  - change (snd p0 :: map snd l) with (map snd (p0 :: l)). rewrite <- E. now apply in_map.
Qed.
Lemma max_len_ge (f : nat -> nat) l a : In a l -> (f a <= fold_right Nat.max 0 (map f l))%nat.
Proof. induction l as [|b l IH]; cbn [In map fold_right]; [tauto|]. intros [->|H]; [lia|]. specialize (IH H). lia. Qed.
Lemma max_len_in (f : nat -> nat) l : (0 < fold_right Nat.max 0 (map f l))%nat -> exists a, In a l /\ f a = fold_right Nat.max 0%nat (map f l).
Proof.
  induction l as [|b l IH]; cbn [In map fold_right]; [lia|]. intro H. destruct (Nat.le_gt_cases (fold_right Nat.max 0%nat (map f l)) (f b)) as [L|L].
  - exists b. split; [now left|lia].
  - destruct IH as (a & I & E); [lia|]. exists a. split; [now right|lia].
Qed.

(** ** the graph *)
Section Run.
Variables (max_time batch classes : nat) (inp : nat -> nat -> list R) (len : nat -> nat) (merge : bool).
Definition gidx (b t : nat) : Z := snd (top1 (map (fun v => v * (if Nat.ltb t (len b) then 1 else 0)) (inp t b))).
Definition gkeep0 (b t : nat) : bool := (Z.ltb (gidx b t) (Z.of_nat classes - 1) && Nat.ltb t (len b))%bool.
Definition gkeep : nat -> nat -> bool :=
  if merge then fun b t => (gkeep0 b t && negb (Z.eqb (concat_col (fun _ _ => (-1)%Z) gidx b t) (gidx b t)))%bool else gkeep0.
Definition gsparse : list (Z * Z) := compress (combine (flat batch max_time (fun b _ => Z.of_nat b)) (flat batch max_time (cum_sum (fun b t => cast01 (gkeep b t))))) (flat batch max_time gkeep).
Lemma ctc_eq : ctc_greedy max_time batch classes inp len merge =
  match reduce_max gsparse with
  | None => None
  | Some m => Some (Decoded gsparse (compress (flat batch max_time gidx) (flat batch max_time gkeep)) (Z.of_nat batch, (snd m + 1)%Z)
      (map Ropp (map (fun b => fold_right Rplus 0 (map (fun t => fst (top1 (map (fun v => v * (if Nat.ltb t (len b) then 1 else 0)) (inp t b)))) (seq 0 max_time))) (seq 0 batch))))
  end.
Proof. reflexivity. Qed.
Hypothesis good : good_input max_time batch classes inp len.
Definition c (b t : nat) : nat := snd (RowMax (inp t b)).
Lemma row_ne b t : (b < batch)%nat -> (t < max_time)%nat -> inp t b <> [].
Proof. intros Hb Ht. destruct good as (P & Q). destruct (Q b Hb) as (_ & L). specialize (L t Ht). intro E. rewrite E in L. cbn in L. lia. Qed.
Lemma valid_row b t : (t < len b)%nat -> map (fun v => v * (if Nat.ltb t (len b) then 1 else 0)) (inp t b) = inp t b.
Proof. intro H. rewrite (proj2 (Nat.ltb_lt _ _) H). transitivity (map (fun v : R => v) (inp t b)); [apply map_ext; intro v; lra|apply map_id]. Qed.
Lemma gidx_ok b t : (b < batch)%nat -> (t < len b)%nat -> gidx b t = Z.of_nat (c b t).
Proof.
  intros Hb Ht. destruct good as (_ & Q). destruct (Q b Hb) as (L & _). unfold gidx. rewrite valid_row by exact Ht. rewrite RowMax_top1 by (apply row_ne; lia). reflexivity.
Qed.
Lemma c_lt b t : (b < batch)%nat -> (t < len b)%nat -> (c b t < classes)%nat.
Proof. intros Hb Ht. destruct good as (_ & Q). destruct (Q b Hb) as (L & K). rewrite <- (K t ltac:(lia)). apply class_lt. apply row_ne; lia. Qed.
Definition seqk (b : nat) : list nat := kept (keeps merge (classes - 1) (c b)) (len b).
Lemma gkeep_ok b t : (b < batch)%nat -> gkeep b t = (Nat.ltb t (len b) && keeps merge (classes - 1) (c b) t)%bool.
Proof.
  intro Hb. destruct (Nat.ltb t (len b)) eqn:Lt; cbn [andb].
  - assert (Ht : (t < len b)%nat) by now apply Nat.ltb_lt. assert (Hc := c_lt b t Hb Ht).
    assert (K0 : gkeep0 b t = negb (Nat.eqb (c b t) (classes - 1))).
    { unfold gkeep0. rewrite Lt, andb_true_r, gidx_ok by assumption. destruct (Nat.eqb_spec (c b t) (classes - 1)) as [E|N]; cbn [negb]; [apply Z.ltb_ge|apply Z.ltb_lt]; lia. }
    unfold gkeep, keeps. destruct merge; cbn [andb negb]; [|rewrite andb_true_r; exact K0]. rewrite K0. f_equal. f_equal. unfold concat_col. destruct t as [|t].
    + cbn [Nat.ltb Nat.leb]. rewrite gidx_ok by assumption. apply Z.eqb_neq. lia.
    + cbn [Nat.ltb Nat.leb]. replace (S t - 1)%nat with t by lia. rewrite !gidx_ok by (auto; lia). destruct (Nat.eqb_spec (c b (S t)) (c b t)) as [E|N]; [apply Z.eqb_eq|apply Z.eqb_neq]; lia.
  - assert (K0 : gkeep0 b t = false) by (unfold gkeep0; rewrite Lt; apply andb_false_r). unfold gkeep. destruct merge; [now rewrite K0|exact K0].
Qed.
Lemma kept_ok b : (b < batch)%nat -> filter (gkeep b) (seq 0 max_time) = seqk b.
Proof.
  intro Hb. destruct good as (_ & Q). destruct (Q b Hb) as (L & _).
  transitivity (kept (fun t => (Nat.ltb t (len b) && keeps merge (classes - 1) (c b) t)%bool) max_time); [apply filter_ext'; intros t _; now apply gkeep_ok|].
  rewrite (kept_more _ (len b) max_time L) by (intros t Ht; now rewrite (proj2 (Nat.ltb_ge _ _) Ht)). unfold seqk, kept. apply filter_ext'. intros t I. apply in_seq in I. rewrite (proj2 (Nat.ltb_lt t (len b))) by lia. reflexivity.
Qed.
Lemma decode_ok b : decode merge (classes - 1) None (rows_of inp len b) = map (c b) (seqk b).
Proof. unfold rows_of. exact (decode_kept merge (classes - 1) (fun t => inp t b) (c b) (fun _ => eq_refl) (len b) 0). Qed.
Lemma in_seqk b t : In t (seqk b) -> (t < len b)%nat.
Proof. unfold seqk, kept. intro I. apply filter_In in I. destruct I as [I _]. apply in_seq in I. lia. Qed.
Lemma gsparse_ok : gsparse = flat_map (fun b => map (fun p => (Z.of_nat b, Z.of_nat p)) (seq 0 (length (seqk b)))) (seq 0 batch).
Proof.
  unfold gsparse. rewrite combine_flat, compress_flat. apply flat_map_ext'. intros b I. apply in_seq in I. rewrite kept_ok by lia.
  assert (E : map (cum_sum (fun b t => cast01 (gkeep b t)) b) (seqk b) = map Z.of_nat (seq 0 (length (seqk b)))).
  { unfold cum_sum. rewrite <- (kept_ok b) by lia. exact (positions (gkeep b) max_time). }
  transitivity (map (fun z => (Z.of_nat b, z)) (map (cum_sum (fun b t => cast01 (gkeep b t)) b) (seqk b))); [now rewrite map_map|]. rewrite E, map_map. reflexivity.
Qed.
Lemma gvalues_ok : compress (flat batch max_time gidx) (flat batch max_time gkeep) = flat_map (fun b => map Z.of_nat (map (c b) (seqk b))) (seq 0 batch).
Proof.
  rewrite compress_flat. apply flat_map_ext'. intros b I. apply in_seq in I. rewrite kept_ok by lia. rewrite map_map. apply map_ext_in. intros t It. apply gidx_ok; [lia|now apply in_seqk].
Qed.
Lemma gsum_ok b : (b < batch)%nat ->
  fold_right Rplus 0 (map (fun t => fst (top1 (map (fun v => v * (if Nat.ltb t (len b) then 1 else 0)) (inp t b)))) (seq 0 max_time)) = fold_right Rplus 0 (map (fun row => fst (RowMax row)) (rows_of inp len b)).
Proof.
  intro Hb. destruct good as (_ & Q). destruct (Q b Hb) as (L & _). unfold rows_of. rewrite map_map. replace max_time with (len b + (max_time - len b))%nat by lia. rewrite seq_app, map_app, fold_right_app.
  replace (fold_right Rplus 0 (map _ (seq (0 + len b) _))) with 0.
  2:{ symmetry. assert (A : forall l, (forall t, In t l -> (len b <= t < max_time)%nat) -> fold_right Rplus 0 (map (fun t => fst (top1 (map (fun v => v * (if Nat.ltb t (len b) then 1 else 0)) (inp t b)))) l) = 0).
      { induction l as [|t l IH]; intro A; [reflexivity|]. cbn [map fold_right]. rewrite IH by (intros; apply A; now right). destruct (A t (or_introl eq_refl)) as [A1 A2]. rewrite (proj2 (Nat.ltb_ge _ _) A1), top1_zeros by (apply row_ne; auto). lra. }
      apply A. intros t I. apply in_seq in I. lia. }
  f_equal. apply map_ext_in. intros t I. apply in_seq in I. rewrite valid_row by lia. rewrite RowMax_top1 by (apply row_ne; lia). reflexivity.
Qed.
Definition longest : nat := fold_right Nat.max 0%nat (map (fun b => length (seqk b)) (seq 0 batch)).
Lemma in_gsparse p : In p gsparse <-> exists b k, p = (Z.of_nat b, Z.of_nat k) /\ (b < batch)%nat /\ (k < length (seqk b))%nat.
Proof.
  rewrite gsparse_ok, in_flat_map. split.
  - intros (b & I & J). apply in_map_iff in J. destruct J as (k & <- & K). apply in_seq in I, K. exists b, k. repeat split; lia.
  - intros (b & k & -> & Hb & Hk). exists b. split; [apply in_seq; lia|]. apply in_map_iff. exists k. split; [reflexivity|apply in_seq; lia].
Qed.
Lemma gmax_ok : (0 < longest)%nat -> exists q, reduce_max gsparse = Some q /\ snd q = (Z.of_nat longest - 1)%Z.
Proof.
  intro P. apply reduce_max_is.
  - intros p I. apply in_gsparse in I. destruct I as (b & k & -> & Hb & Hk). cbn [snd]. assert (A := max_len_ge (fun b => length (seqk b)) (seq 0 batch) b ltac:(apply in_seq; lia)). fold longest in A. lia.
  - destruct (max_len_in (fun b => length (seqk b)) (seq 0 batch) P) as (b & I & E). fold longest in E. apply in_seq in I. exists (Z.of_nat b, Z.of_nat (longest - 1)). split; [|cbn [snd]; lia]. apply in_gsparse. exists b, (longest - 1)%nat. repeat split; lia.
Qed.
Lemma gempty : longest = 0%nat -> gsparse = [].
Proof.
  intro P. destruct gsparse as [|p l] eqn:E; [reflexivity|]. exfalso. assert (I : In p gsparse) by (rewrite E; now left). apply in_gsparse in I. destruct I as (b & k & _ & Hb & Hk).
  assert (A := max_len_ge (fun b => length (seqk b)) (seq 0 batch) b ltac:(apply in_seq; lia)). fold longest in A. lia.
Qed.
Lemma tf_is : tf_ctc batch inp len merge (classes - 1) =
  Decoded gsparse (compress (flat batch max_time gidx) (flat batch max_time gkeep)) (Z.of_nat batch, Z.of_nat longest)
    (map Ropp (map (fun b => fold_right Rplus 0 (map (fun t => fst (top1 (map (fun v => v * (if Nat.ltb t (len b) then 1 else 0)) (inp t b)))) (seq 0 max_time))) (seq 0 batch))).
Proof.
  rewrite gsparse_ok, gvalues_ok. unfold tf_ctc, longest. f_equal.
  - apply flat_map_ext'. intros b _. rewrite decode_ok, map_length. reflexivity.
  - apply flat_map_ext'. intros b _. now rewrite decode_ok.
  - f_equal. f_equal. f_equal. apply map_ext. intro b. now rewrite decode_ok, map_length.
  - rewrite map_map. apply map_ext_in. intros b I. apply in_seq in I. rewrite gsum_ok by lia. reflexivity.
Qed.
Lemma graph_is : ctc_greedy max_time batch classes inp len merge = if Nat.ltb 0 longest then Some (tf_ctc batch inp len merge (classes - 1)) else None.
Proof.
  rewrite ctc_eq, tf_is. destruct (Nat.ltb_spec 0 longest) as [P|P].
  - destruct (gmax_ok P) as (q & -> & E). rewrite E. do 3 f_equal. lia.
  - rewrite gempty by lia. reflexivity.
Qed.
End Run.
