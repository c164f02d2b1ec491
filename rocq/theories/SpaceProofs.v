(** The permutations used by the general paths of BatchToSpace and SpaceToBatch. *)
From Coq Require Import List Arith ZArith Bool Lia Permutation.
From Verif Require Import Tensor FoldModel OnnxSpec TensorProofs TOps TOpsProofs SpaceModel.
Import ListNotations.
Local Open Scope list_scope.

Lemma nth_flat2 {T} (d : T) rows : forall i, nth (i * 2) (flat2 rows) d = nth i (map fst rows) d /\ nth (S (i * 2)) (flat2 rows) d = nth i (map snd rows) d.
Proof. induction rows as [|[a b] rows IH]; intros [|i]; cbn [flat2 map nth Nat.mul Nat.add fst snd]; try apply IH; auto. Qed.
Lemma nth_inter {T} (d : T) a b i : length a = length b -> nth (i * 2) (inter a b) d = nth i a d /\ nth (S (i * 2)) (inter a b) d = nth i b d.
Proof.
  intro L. destruct (nth_flat2 d (combine a b) i) as [E0 E1]. rewrite map_fst_combine in E0 by auto. rewrite map_snd_combine in E1 by auto. auto.
Qed.
Lemma inter_length {T} (a b : list T) : length a = length b -> length (inter a b) = 2 * length a.
Proof. intro L. rewrite flat2_length, combine_length. lia. Qed.
Lemma map_nth_seq {T} (d : T) l : map (fun i => nth i l d) (seq 0 (length l)) = l.
Proof.
  induction l as [|x l IH]; auto. cbn [length seq map nth]. f_equal. rewrite <- seq_shift, map_map. exact IH.
Qed.

Lemma seq_from c n : map (fun k => c + k) (seq 0 n) = seq c n.
Proof.
  revert c. induction n as [|n IH]; intro c; auto. cbn [seq map]. f_equal; [lia|]. rewrite <- (IH (S c)), <- seq_shift, map_map. apply map_ext. intro. lia.
Qed.

Section Perms.
Context (block : list nat) (xlen : nat).
Notation m := (length block).
Hypothesis Lx : m + 1 <= xlen.

Lemma evens_eq : evens block = map (fun k => 2 + 2 * k) (seq 0 m).
Proof.
  unfold evens, py_range, blocklen. f_equal. f_equal. destruct m as [|k] eqn:E; [reflexivity|].
  replace (2 * S k + 1 - 2 + 2 - 1) with (S k * 2) by lia. apply Nat.div_mul. lia.
Qed.
Lemma odds_eq : odds block = map (fun k => 1 + 2 * k) (seq 0 m).
Proof.
  unfold odds, py_range, blocklen. f_equal. f_equal. replace (2 * m + 1 - 1 + 2 - 1) with (1 + m * 2) by lia. rewrite Nat.div_add by lia. reflexivity.
Qed.
Lemma skip_seq n k : skipn k (seq 0 (k + n)) = seq k n.
Proof. rewrite seq_app, skipn_app, seq_length, Nat.sub_diag. rewrite skipn_all2 by (rewrite seq_length; lia). reflexivity. Qed.
Lemma gperm_eq : gperm block xlen = map (fun k => 2 + 2 * k) (seq 0 m) ++ 0 :: map (fun k => 1 + 2 * k) (seq 0 m) ++ seq (1 + 2 * m) (xlen - 1 - m).
Proof.
  unfold gperm. rewrite evens_eq, odds_eq. unfold blocklen. cbn [app]. do 3 f_equal.
  replace (xlen + m) with ((1 + 2 * m) + (xlen - 1 - m)) by lia. apply skip_seq.
Qed.
Lemma gperm_pick {T} (d : T) h a b q : length a = m -> length b = m -> length q = xlen - 1 - m ->
  map (fun i => nth i (h :: inter a b ++ q) d) (gperm block xlen) = b ++ h :: a ++ q.
Proof.
  intros La Lb Lq. rewrite gperm_eq. rewrite map_app. cbn [map]. rewrite map_app, !map_map. f_equal; [|f_equal; f_equal].
  - transitivity (map (fun i => nth i b d) (seq 0 (length b))); [|apply map_nth_seq]. rewrite Lb. apply map_ext_in. intros k Hk. apply in_seq in Hk. cbn [Nat.add nth].
    rewrite app_nth1 by (rewrite inter_length; lia). replace (2 * k) with (k * 2) by lia. apply nth_inter. lia.
  - transitivity (map (fun i => nth i a d) (seq 0 (length a))); [|apply map_nth_seq]. rewrite La. apply map_ext_in. intros k Hk. apply in_seq in Hk. cbn [Nat.add nth].
    rewrite app_nth1 by (rewrite inter_length; lia). replace (2 * k) with (k * 2) by lia. apply nth_inter. lia.
  - transitivity (map (fun i => nth i q d) (seq 0 (length q))); [|apply map_nth_seq]. rewrite Lq, <- (seq_from (1 + 2 * m)), map_map. apply map_ext. intro k. cbn [Nat.add nth].
    rewrite app_nth2 by (rewrite inter_length; lia). f_equal. rewrite inter_length by lia. lia.
Qed.
Lemma gperm_perm : is_perm (gperm block xlen) (xlen + m).
Proof.
  apply incl_perm; rewrite gperm_eq.
  - rewrite app_length. cbn [length]. rewrite app_length, !map_length, !seq_length. lia.
  - intros k Hk. destruct (Nat.lt_ge_cases (2 * m) k) as [Hb|Hb].
    { apply in_or_app. right. right. apply in_or_app. right. apply in_seq. lia. }
    destruct (Nat.eq_dec k 0) as [->|Hz]; [apply in_or_app; right; now left|].
    destruct (Nat.Even_or_Odd k) as [[i E]|[i E]].
    + apply in_or_app. left. apply in_map_iff. exists (i - 1). split; [lia|]. apply in_seq. lia.
    + apply in_or_app. right. right. apply in_or_app. left. apply in_map_iff. exists i. split; [lia|]. apply in_seq. lia.
Qed.

(** the permutation computed by the loop *)
Definition pc (k : nat) : nat := if Nat.eqb k 0 then m else if Nat.ltb (2 * m) k then k else if Nat.even k then k / 2 - 1 else m + 1 + k / 2.
Hypothesis Lm : 1 <= m.
Lemma upd_length {T} (v : T) : forall l k, length (FoldModel.upd k v l) = length l.
Proof. induction l as [|x l IH]; intros [|k]; cbn; auto. Qed.
Lemma upd_nth {T} (v d : T) : forall l k j, k < length l -> nth j (FoldModel.upd k v l) d = if Nat.eqb j k then v else nth j l d.
Proof. induction l as [|x l IH]; intros [|k] [|j] L; cbn in *; try lia; auto. apply IH. lia. Qed.
Lemma pc_step i : 3 <= i <= 2 * m -> pc i = pc (i - 2) + 1.
Proof.
  intro H. unfold pc. destruct (Nat.eqb_spec i 0); [lia|]. destruct (Nat.eqb_spec (i - 2) 0); [lia|].
  destruct (Nat.ltb_spec (2 * m) i); [lia|]. destruct (Nat.ltb_spec (2 * m) (i - 2)); [lia|].
  destruct (Nat.Even_or_Odd i) as [[j E]|[j E]].
  - rewrite (proj2 (Nat.even_spec i)) by (exists j; auto). rewrite (proj2 (Nat.even_spec (i - 2))) by (exists (j - 1); lia).
    subst i. replace (2 * j - 2) with ((j - 1) * 2) by lia. replace (2 * j) with (j * 2) by lia. rewrite !Nat.div_mul; lia.
  - assert (N : Nat.even i = false) by (rewrite <- Nat.negb_odd, (proj2 (Nat.odd_spec i)); [reflexivity|exists j; auto]).
    assert (N' : Nat.even (i - 2) = false) by (rewrite <- Nat.negb_odd, (proj2 (Nat.odd_spec (i - 2))); [reflexivity|exists (j - 1); lia]).
    rewrite N, N'. subst i. replace (2 * j + 1 - 2) with (1 + (j - 1) * 2) by lia. replace (2 * j + 1) with (1 + j * 2) by lia. rewrite !Nat.div_add; cbn; lia.
Qed.
Lemma p_loop n : forall i p, 3 <= i -> i + n = 2 * m + 1 -> length p = xlen + m -> (forall k, k < i \/ 2 * m < k -> k < xlen + m -> nth k p 0 = pc k) ->
  let q := fold_left (fun p i => FoldModel.upd i (nth (i - 2) p 0 + 1) p) (seq i n) p in
  length q = xlen + m /\ forall k, k < xlen + m -> nth k q 0 = pc k.
Proof.
  induction n as [|n IH]; intros i p Hi Hn L H; cbn [seq fold_left].
  - split; auto. intros k Hk. apply H; auto. lia.
  - apply IH; [lia|lia|now rewrite upd_length|]. intros k Hk Hk'. rewrite upd_nth by lia. destruct (Nat.eqb_spec k i).
    + subst. rewrite H by lia. symmetry. apply pc_step. lia.
    + apply H; lia.
Qed.
Lemma p_perm_nth : length (p_perm block xlen) = xlen + m /\ forall k, k < xlen + m -> nth k (p_perm block xlen) 0 = pc k.
Proof.
  assert (St : length (p_start block xlen) = xlen + m /\ forall k, k < 3 \/ 2 * m < k -> k < xlen + m -> nth k (p_start block xlen) 0 = pc k).
  { unfold p_start, blocklen. split; [now rewrite !upd_length, seq_length|]. intros k Hk Hk'.
    rewrite !upd_nth by (rewrite ?upd_length, seq_length; lia). unfold pc.
    destruct (Nat.eqb_spec k 2); [subst; destruct (Nat.eqb_spec 2 0); [lia|]; destruct (Nat.ltb_spec (2 * m) 2); [lia|reflexivity]|].
    destruct (Nat.eqb_spec k 1); [subst; destruct (Nat.eqb_spec 1 0); [lia|]; destruct (Nat.ltb_spec (2 * m) 1); [lia|cbn; lia]|].
    destruct (Nat.eqb_spec k 0); auto. destruct (Nat.ltb_spec (2 * m) k); [|lia]. rewrite seq_nth; lia. }
  destruct St as [L H]. unfold p_perm. fold blocklen. unfold blocklen.
  destruct (Nat.le_gt_cases (2 * m) 2) as [Hm|Hm].
  - replace (m * 2 + 1 - 3) with 0 by lia. cbn [seq fold_left]. split; auto. intros k Hk. apply H; auto. lia.
  - apply p_loop; auto; lia.
Qed.
Lemma p_perm_pick h a b q : length a = m -> length b = m -> length q = xlen - 1 - m ->
  pick (p_perm block xlen) (b ++ h :: a ++ q) = h :: inter a b ++ q.
Proof.
  intros La Lb Lq. destruct p_perm_nth as [L H].
  assert (L2 : length (h :: inter a b ++ q) = xlen + m) by (cbn [length]; rewrite app_length, inter_length; lia).
  apply list_nth_ext; [now rewrite pick_length, L, L2|]. intros k Hk. rewrite pick_length, L in Hk. rewrite pick_nth by lia. rewrite H by auto. unfold pc.
  destruct (Nat.eqb_spec k 0) as [->|Hz].
  { rewrite app_nth2 by lia. rewrite Lb, Nat.sub_diag. reflexivity. }
  destruct (Nat.ltb_spec (2 * m) k).
  { rewrite app_nth2 by lia. rewrite Lb. replace (k - m) with (S (m + (k - 2 * m - 1))) by lia. cbn [nth]. rewrite app_nth2 by lia. rewrite La.
    destruct k as [|k]; [lia|]. change (nth (S k) (h :: inter a b ++ q) 0) with (nth k (inter a b ++ q) 0).
    assert (LI := inter_length a b). rewrite (app_nth2 (inter a b)) by lia. f_equal. lia. }
  destruct (Nat.Even_or_Odd k) as [[j E]|[j E]].
  - rewrite (proj2 (Nat.even_spec k)) by (exists j; auto). subst k. replace (2 * j) with (j * 2) by lia. rewrite Nat.div_mul by lia.
    destruct j as [|j]; [lia|]. replace (S j - 1) with j by lia. rewrite app_nth1 by lia. replace (S j * 2) with (S (S (j * 2))) by lia.
    change (nth (S (S (j * 2))) (h :: inter a b ++ q) 0) with (nth (S (j * 2)) (inter a b ++ q) 0).
    rewrite app_nth1 by (rewrite inter_length; lia). symmetry. apply nth_inter. lia.
  - assert (N : Nat.even k = false) by (rewrite <- Nat.negb_odd, (proj2 (Nat.odd_spec k)); [reflexivity|exists j; auto]).
    rewrite N. subst k. replace (2 * j + 1) with (S (j * 2)) by lia. change (nth (S (j * 2)) (h :: inter a b ++ q) 0) with (nth (j * 2) (inter a b ++ q) 0).
    rewrite (app_nth1 (inter a b)) by (rewrite inter_length; lia). replace (S (j * 2)) with (1 + j * 2) by lia. rewrite Nat.div_add by lia. change (1 / 2) with 0.
    rewrite (app_nth2 b) by lia. rewrite Lb. replace (m + 1 + (0 + j) - m) with (S j) by lia. cbn [nth]. rewrite (app_nth1 a) by lia. symmetry. apply nth_inter. lia.
Qed.
Lemma p_perm_perm : is_perm (p_perm block xlen) (xlen + m).
Proof.
  destruct p_perm_nth as [L H]. apply incl_perm; auto. intros k Hk.
  assert (Q : forall j, j < xlen + m -> pc j = k -> In k (p_perm block xlen)). { intros j Hj E. rewrite <- E, <- H by auto. apply nth_In. lia. }
  destruct (Nat.lt_ge_cases (2 * m) k) as [Hb|Hb].
  { apply (Q k); auto. unfold pc. destruct (Nat.eqb_spec k 0); [lia|]. destruct (Nat.ltb_spec (2 * m) k); lia. }
  destruct (Nat.lt_trichotomy k m) as [Hm|[Hm|Hm]].
  - apply (Q ((k + 1) * 2)); [lia|]. unfold pc. destruct (Nat.eqb_spec ((k + 1) * 2) 0); [lia|]. destruct (Nat.ltb_spec (2 * m) ((k + 1) * 2)); [lia|].
    rewrite (proj2 (Nat.even_spec _)) by (exists (k + 1); lia). rewrite Nat.div_mul; lia.
  - apply (Q 0); [lia|]. subst. reflexivity.
  - apply (Q (1 + (k - m - 1) * 2)); [lia|]. unfold pc. set (j := k - m - 1) in *. destruct (Nat.eqb_spec (1 + j * 2) 0); [lia|].
    destruct (Nat.ltb_spec (2 * m) (1 + j * 2)); [lia|].
    assert (N : Nat.even (1 + j * 2) = false) by (rewrite <- Nat.negb_odd, (proj2 (Nat.odd_spec (1 + j * 2))); [reflexivity|exists j; lia]).
    rewrite N, Nat.div_add by lia. change (1 / 2) with 0. lia.
Qed.
End Perms.
