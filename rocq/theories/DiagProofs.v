(** Proofs about the handler of MatrixDiagPartV2 and V3. *)
From Coq Require Import Ascii String List Arith ZArith Lia Bool.
From Verif Require Import DiagSpec DiagModel.
Import ListNotations.
Local Open Scope Z_scope.

(** ** casts *)
Lemma to_float_small z : Z.abs z <= 2 ^ 24 -> to_float z = z.
Proof. unfold to_float. intro H. rewrite (proj2 (Z.leb_le _ _) H). reflexivity. Qed.
Lemma to_float_big z : 2 ^ 24 < z -> 2 ^ 24 <= to_float z.
Proof.
  intro H. unfold to_float. rewrite (proj2 (Z.leb_gt _ _)) by lia. rewrite Z.abs_eq by lia. set (e := Z.log2 z - 23). assert (L : 24 <= Z.log2 z) by (rewrite <- (Z.log2_pow2 24) by lia; apply Z.log2_le_mono; lia).
  assert (P : 0 < 2 ^ e) by (apply Z.pow_pos_nonneg; unfold e; lia). assert (Q : 2 ^ 23 <= z / 2 ^ e).
  { apply Z.div_le_lower_bound; [exact P|]. rewrite <- Z.pow_add_r by (unfold e; lia). replace (e + 23) with (Z.log2 z) by (unfold e; lia). apply Z.log2_spec. lia. }
  assert (E2 : 2 <= 2 ^ e) by (apply (Z.pow_le_mono_r 2 1 e); unfold e; lia).
  assert (B : 2 ^ 24 <= z / 2 ^ e * 2 ^ e) by (change (2 ^ 24) with (2 ^ 23 * 2); apply Z.mul_le_mono_nonneg; lia).
  destruct (2 * (z mod 2 ^ e) <? 2 ^ e); [exact B|]. destruct (2 ^ e <? 2 * (z mod 2 ^ e)); [lia|]. destruct (Z.even (z / 2 ^ e)); lia.
Qed.
Lemma float_min_is i b : 0 <= i -> 0 <= b -> i <= 2 ^ 24 \/ b <= 2 ^ 24 -> float_min i b = Z.min i b.
Proof.
  intros Hi Hb H. unfold float_min. assert (C : forall z, 0 <= z -> to_float z = z /\ z <= 2 ^ 24 \/ 2 ^ 24 <= to_float z /\ 2 ^ 24 < z).
  { intros z Hz. destruct (Z_le_gt_dec z (2 ^ 24)); [left; split; [apply to_float_small; lia|lia]|right; split; [apply to_float_big; lia|lia]]. }
  destruct (C i Hi) as [[-> ?] | [? ?]], (C b Hb) as [[-> ?] | [? ?]]; lia.
Qed.
Lemma float_min_both a b : Z.abs a <= 2 ^ 24 -> Z.abs b <= 2 ^ 24 -> float_min a b = Z.min a b.
Proof. intros. unfold float_min. now rewrite !to_float_small. Qed.

(** ** ranges *)
Lemma range_empty a b : a <= b -> range_down a b = [].
Proof. intro H. unfold range_down. replace (Z.to_nat (a - b)) with 0%nat by lia. reflexivity. Qed.
Lemma range_app a b c : b <= a -> c <= b -> range_down a b ++ range_down b c = range_down a c.
Proof.
  intros H K. unfold range_down. replace (Z.to_nat (a - c)) with (Z.to_nat (a - b) + Z.to_nat (b - c))%nat by lia. rewrite seq_app, map_app. f_equal.
  replace (0 + Z.to_nat (a - b))%nat with (Z.to_nat (a - b)) by lia. rewrite <- (Nat.add_0_r (Z.to_nat (a - b))) at 1.
  generalize (Z.to_nat (b - c)) 0%nat. clear c K. intros n. induction n as [|n IH]; intro s; [reflexivity|]. cbn [seq map]. f_equal; [lia|]. rewrite <- Nat.add_succ_r. apply IH.
Qed.
Lemma in_range a b d : In d (range_down a b) <-> b < d <= a.
Proof.
  unfold range_down. rewrite in_map_iff. split.
  - intros (i & <- & H). apply in_seq in H. lia.
  - intro H. exists (Z.to_nat (a - d)). split; [lia|]. apply in_seq. lia.
Qed.
Lemma range_upto a n : range_down a (a - n) = map (fun i => a - i) (upto n).
Proof. unfold range_down, upto. rewrite map_map. replace (a - (a - n)) with n by lia. reflexivity. Qed.
Lemma in_upto n i : In i (upto n) <-> 0 <= i < n.
Proof.
  unfold upto. rewrite in_map_iff. split.
  - intros (k & <- & H). apply in_seq in H. lia.
  - intro H. exists (Z.to_nat i). split; [lia|]. apply in_seq. lia.
Qed.
Lemma reduce_max_is l v : In v l -> (forall u, In u l -> u <= v) -> reduce Z.max l = Some v.
Proof.
  destruct l as [|z l]; [intros []|]. intros I B. cbn [reduce]. f_equal.
  assert (G : forall l z, (forall u, In u (z :: l) -> u <= fold_left Z.max l z) /\ In (fold_left Z.max l z) (z :: l)).
  { clear. induction l as [|y l IH]; intro z; cbn [fold_left]; [split; [intros u [<-|[]]; lia|now left]|]. destruct (IH (Z.max z y)) as [H K]. split.
    - intros u Hu. assert (M := H (Z.max z y) ltac:(now left)). destruct Hu as [<-|[<-|Hu]]; [lia|lia|]. apply H. now right.
    - destruct K as [K|K]; [|right; right; exact K]. rewrite <- K. destruct (Z.max_spec z y) as [[_ ->]|[_ ->]]; [right; now left|now left]. }
  destruct (G l z) as [H K]. apply Z.le_antisymm; [now apply B|now apply H].
Qed.
Lemma map_opt_ext {A B} (f : A -> option B) g l : (forall x, In x l -> f x = Some (g x)) -> map_opt f l = Some (map g l).
Proof. induction l as [|x l IH]; intro H; cbn [map_opt map]; auto. rewrite H by (now left). rewrite IH; [reflexivity|]. intros; apply H; now right. Qed.
Lemma map_opt_map {A B C} (f : B -> option C) (g : A -> B) l : map_opt f (map g l) = map_opt (fun x => f (g x)) l.
Proof. induction l as [|x l IH]; cbn; auto. now rewrite IH. Qed.
Lemma map_opt_app {A B} (f : A -> option B) l l' : map_opt f (l ++ l') = match map_opt f l, map_opt f l' with Some a, Some b => Some (a ++ b) | _, _ => None end.
Proof. induction l as [|x l IH]; cbn; [now destruct (map_opt f l')|]. rewrite IH. destruct (f x), (map_opt f l), (map_opt f l'); reflexivity. Qed.

Section Handler.
Context {A : Type}.
Variables (rows cols : Z) (m : Z -> Z -> A) (padding : A) (k0 k1 : Z).
Hypothesis (Pr : 0 < rows) (Pc : 0 < cols) (fits : (rows + 1) * (cols + 1) <= 2 ^ 24) (valid : valid_k rows cols k0 k1).
Lemma small : rows < 2 ^ 24 /\ cols < 2 ^ 24.
Proof. nia. Qed.
Lemma gather_at r c : 0 <= r <= rows -> 0 <= c <= cols -> gather rows cols m padding (r * (cols + 1) + c) = Some (m_padded rows cols m padding r c).
Proof.
  intros Hr Hc. unfold gather. cbv zeta. assert (0 <= r * (cols + 1)) by nia. rewrite (proj2 (Z.ltb_ge (r * (cols + 1) + c) 0)) by lia. rewrite (proj2 (Z.leb_le _ _)) by lia. rewrite (proj2 (Z.ltb_lt _ _)) by nia. cbn [andb].
  f_equal. f_equal.
  - rewrite Z.add_comm, Z.div_add, Z.div_small by lia. lia.
  - rewrite Z.add_comm, Z.mod_add by lia. apply Z.mod_small. lia.
Qed.
Lemma ranges : range_down k1 (float_max 0 k0 + -1) ++ range_down (float_min (-1) k1) (k0 + -1) = map (fun i => k1 - i) (upto (k1 - k0 + 1)).
Proof.
  destruct small, valid as (V1 & V2 & V3). unfold float_max, float_min. rewrite !to_float_small by lia. rewrite <- range_upto. replace (k1 - (k1 - k0 + 1)) with (k0 + -1) by lia.
  destruct (Z_lt_ge_dec k1 0) as [N|P].
  - rewrite (range_empty k1) by lia. cbn [app]. f_equal. lia.
  - replace (Z.min (-1) k1) with (-1) by lia. destruct (Z_lt_ge_dec k0 0).
    + replace (Z.max 0 k0 + -1) with (-1) by lia. apply range_app; lia.
    + rewrite (range_empty (-1)) by lia. rewrite app_nil_r. f_equal. lia.
Qed.
Let maxlen := max_diag_len rows cols k0 k1.
Lemma longest : reduce Z.max (map (fun d => float_min (cols - d) (Z.min cols rows)) (range_down k1 (float_max 0 k0 + -1)) ++
    map (fun d => float_min (rows + d) (Z.min cols rows)) (range_down (float_min (-1) k1) (k0 + -1))) = Some maxlen.
Proof.
  destruct small, valid as (V1 & V2 & V3).
  assert (E0 : float_max 0 k0 = Z.max 0 k0) by (unfold float_max; now rewrite !to_float_small by lia). assert (E1 : float_min (-1) k1 = Z.min (-1) k1) by (apply float_min_both; lia). rewrite E0, E1.
  assert (Ex : forall d, In d (range_down k1 (Z.max 0 k0 + -1)) -> float_min (cols - d) (Z.min cols rows) = diag_len rows cols d).
  { intros d Hd. apply in_range in Hd. rewrite float_min_both by lia. unfold diag_len. lia. }
  assert (Ey : forall d, In d (range_down (Z.min (-1) k1) (k0 + -1)) -> float_min (rows + d) (Z.min cols rows) = diag_len rows cols d).
  { intros d Hd. apply in_range in Hd. rewrite float_min_both by lia. unfold diag_len. lia. }
  rewrite (map_ext_in _ _ _ Ex), (map_ext_in _ _ _ Ey), <- map_app. assert (R := ranges). rewrite E0, E1 in R. rewrite R, map_map.
  apply reduce_max_is.
  - apply in_map_iff. set (d := if 0 <? k0 then k0 else if k1 <? 0 then k1 else 0). exists (k1 - d). split.
    + replace (k1 - (k1 - d)) with d by lia. unfold maxlen, max_diag_len, diag_len, d. destruct (Z.ltb_spec 0 k0); [lia|]. destruct (Z.ltb_spec k1 0); lia.
    + apply in_upto. unfold d. destruct (Z.ltb_spec 0 k0); [lia|]. destruct (Z.ltb_spec k1 0); lia.
  - intros u Hu. apply in_map_iff in Hu. destruct Hu as (i & <- & Hi). apply in_upto in Hi. unfold maxlen, max_diag_len, diag_len. lia.
Qed.
Lemma maxlen_le : 0 < maxlen /\ maxlen <= rows /\ maxlen <= cols.
Proof. destruct valid as (V1 & V2 & V3). unfold maxlen, max_diag_len. lia. Qed.
Lemma diag_le d : k0 <= d <= k1 -> 0 < diag_len rows cols d /\ diag_len rows cols d <= maxlen /\ (d = 0 -> diag_len rows cols d = maxlen).
Proof. destruct valid as (V1 & V2 & V3). unfold diag_len, maxlen, max_diag_len. lia. Qed.
(** one entry *)
Lemma super_entry right sub d n : 0 <= d -> k0 <= d <= k1 -> 0 <= n < maxlen ->
  gather rows cols m padding (if right : bool then
      (if d + n * (cols + 1 + 1) - (maxlen - diag_len rows cols d) * (cols + 1 + 1) <? d then (cols + 1) * rows + -1 else d + n * (cols + 1 + 1) - (maxlen - diag_len rows cols d) * (cols + 1 + 1))
    else Z.min (d + n * (cols + 1 + 1)) (cols * (cols + 1) + (cols + 1) + -1 - d * (cols + 1))) =
  Some (entry rows cols m padding (Align right sub) k0 k1 d n).
Proof.
  intros Hd Hk Hn. destruct valid as (V1 & V2 & V3). destruct maxlen_le as (M0 & M1 & M2), (diag_le d Hk) as (D0 & D1 & D2). unfold entry, offset. cbn [super_right sub_right]. fold maxlen. rewrite (proj2 (Z.leb_le 0 d)) by lia. rewrite andb_true_r.
  replace (Z.max (- d) 0) with 0 by lia. replace (Z.max d 0) with d by lia. destruct right; cbn [orb].
  - set (o := maxlen - diag_len rows cols d). replace (n + (0 - o)) with (n - o) by lia. replace (n + (d - o)) with (n - o + d) by lia.
    destruct (Z_lt_ge_dec n o) as [L|G].
    + rewrite (proj2 (Z.ltb_lt _ _)) by nia. rewrite (proj2 (Z.leb_gt 0 (n - o))) by lia. cbn [andb]. replace ((cols + 1) * rows + -1) with ((rows - 1) * (cols + 1) + cols) by lia.
      rewrite gather_at by lia. unfold m_padded. rewrite (proj2 (Z.ltb_ge cols cols)) by lia. now rewrite andb_false_r.
    + rewrite (proj2 (Z.ltb_ge _ _)) by nia. assert (Len : n - o < diag_len rows cols d) by lia. unfold diag_len in Len.
      replace (d + n * (cols + 1 + 1) - o * (cols + 1 + 1)) with ((n - o) * (cols + 1) + (n - o + d)) by lia. rewrite gather_at by lia. unfold m_padded.
      rewrite (proj2 (Z.ltb_lt (n - o) rows)), (proj2 (Z.ltb_lt (n - o + d) cols)), (proj2 (Z.leb_le 0 (n - o))), (proj2 (Z.leb_le 0 (n - o + d))) by lia. reflexivity.
  - assert (Off : (if sub && (d <=? 0) then maxlen - diag_len rows cols d else 0) = 0) by (destruct (Z.leb_spec d 0); [rewrite D2 by lia; destruct sub; cbn; lia|now rewrite andb_false_r]). rewrite Off.
    replace (n + (0 - 0)) with n by lia. replace (n + (d - 0)) with (n + d) by lia. destruct (Z_lt_ge_dec (n + d) cols) as [L|G].
    + rewrite Z.min_l by nia. replace (d + n * (cols + 1 + 1)) with (n * (cols + 1) + (n + d)) by lia. rewrite gather_at by lia. unfold m_padded.
      rewrite (proj2 (Z.ltb_lt n rows)), (proj2 (Z.ltb_lt (n + d) cols)), (proj2 (Z.leb_le 0 n)), (proj2 (Z.leb_le 0 (n + d))) by lia. reflexivity.
    + rewrite Z.min_r by nia. replace (cols * (cols + 1) + (cols + 1) + -1 - d * (cols + 1)) with ((cols - d) * (cols + 1) + cols) by lia. rewrite gather_at by lia. unfold m_padded.
      rewrite (proj2 (Z.ltb_ge cols cols)), (proj2 (Z.ltb_ge (n + d) cols)) by lia. now rewrite !andb_false_r.
Qed.
Lemma sub_entry right super d n : d < 0 -> k0 <= d <= k1 -> 0 <= n < maxlen ->
  gather rows cols m padding (if right : bool then
      (if Z.abs d * (cols + 1) + n * (cols + 1 + 1) - (maxlen - diag_len rows cols d) * (cols + 1 + 1) <? Z.abs d * (cols + 1) then (cols + 1) * rows + -1
       else Z.abs d * (cols + 1) + n * (cols + 1 + 1) - (maxlen - diag_len rows cols d) * (cols + 1 + 1))
    else Z.min (Z.abs d * (cols + 1) + n * (cols + 1 + 1)) ((cols + 1) * rows + -1)) =
  Some (entry rows cols m padding (Align super right) k0 k1 d n).
Proof.
  intros Hd Hk Hn. destruct valid as (V1 & V2 & V3). destruct maxlen_le as (M0 & M1 & M2), (diag_le d Hk) as (D0 & D1 & D2). unfold entry, offset. cbn [super_right sub_right]. fold maxlen. rewrite (proj2 (Z.leb_gt 0 d)) by lia. rewrite (proj2 (Z.leb_le d 0)) by lia.
  rewrite andb_false_r, andb_true_r. replace (Z.max (- d) 0) with (- d) by lia. replace (Z.max d 0) with 0 by lia. rewrite Z.abs_neq by lia. cbn [orb]. destruct right.
  - set (o := maxlen - diag_len rows cols d). replace (n + (0 - o)) with (n - o) by lia. replace (n + (- d - o)) with (n - o - d) by lia.
    destruct (Z_lt_ge_dec n o) as [L|G].
    + rewrite (proj2 (Z.ltb_lt _ _)) by nia. rewrite (proj2 (Z.leb_gt 0 (n - o))) by lia. rewrite andb_false_r. cbn [andb]. replace ((cols + 1) * rows + -1) with ((rows - 1) * (cols + 1) + cols) by lia.
      rewrite gather_at by lia. unfold m_padded. rewrite (proj2 (Z.ltb_ge cols cols)) by lia. now rewrite andb_false_r.
    + rewrite (proj2 (Z.ltb_ge _ _)) by nia. assert (Len : n - o < diag_len rows cols d) by lia. unfold diag_len in Len.
      replace (- d * (cols + 1) + n * (cols + 1 + 1) - o * (cols + 1 + 1)) with ((n - o - d) * (cols + 1) + (n - o)) by lia. rewrite gather_at by lia. unfold m_padded.
      rewrite (proj2 (Z.ltb_lt (n - o - d) rows)), (proj2 (Z.ltb_lt (n - o) cols)), (proj2 (Z.leb_le 0 (n - o))), (proj2 (Z.leb_le 0 (n - o - d))) by lia. reflexivity.
  - replace (n + (0 - 0)) with n by lia. replace (n + (- d - 0)) with (n - d) by lia. destruct (Z_lt_ge_dec (n - d) rows) as [L|G].
    + assert (Q : (n - d + 1) * (cols + 1) <= rows * (cols + 1)) by (apply Z.mul_le_mono_nonneg_r; lia). rewrite Z.min_l by lia. replace (- d * (cols + 1) + n * (cols + 1 + 1)) with ((n - d) * (cols + 1) + n) by lia. rewrite gather_at by lia. unfold m_padded.
      rewrite (proj2 (Z.ltb_lt n cols)), (proj2 (Z.ltb_lt (n - d) rows)), (proj2 (Z.leb_le 0 n)), (proj2 (Z.leb_le 0 (n - d))) by lia. reflexivity.
    + assert (Q : rows * (cols + 1) <= (n - d) * (cols + 1)) by (apply Z.mul_le_mono_nonneg_r; lia). rewrite Z.min_r by lia. replace ((cols + 1) * rows + -1) with ((rows - 1) * (cols + 1) + cols) by lia. rewrite gather_at by lia. unfold m_padded.
      rewrite (proj2 (Z.ltb_ge cols cols)), (proj2 (Z.ltb_ge (n - d) rows)) by lia. now rewrite !andb_false_r.
Qed.
Lemma diags_ok al align : align_of align = Some al ->
  exists l, diag_indices rows cols align k0 k1 = Some l /\
    map_opt (map_opt (gather rows cols m padding)) l = Some (map (fun i => map (entry rows cols m padding al k0 k1 (k1 - i)) (upto maxlen)) (upto (k1 - k0 + 1))).
Proof.
  intro Al. destruct small, valid as (V1 & V2 & V3). unfold diag_indices. cbv zeta. rewrite longest. eexists. split; [reflexivity|].
  rewrite map_opt_app, !map_opt_map.
  assert (E0 : float_max 0 k0 = Z.max 0 k0) by (unfold float_max; now rewrite !to_float_small by lia). assert (E1 : float_min (-1) k1 = Z.min (-1) k1) by (apply float_min_both; lia).
  assert (R := ranges). rewrite E0, E1 in *.
  assert (Dx : forall d, In d (range_down k1 (Z.max 0 k0 + -1)) -> 0 <= d /\ k0 <= d <= k1) by (intros d Hd; apply in_range in Hd; lia).
  assert (Dy : forall d, In d (range_down (Z.min (-1) k1) (k0 + -1)) -> d < 0 /\ k0 <= d <= k1) by (intros d Hd; apply in_range in Hd; lia).
  assert (Ax : String.eqb (before_underscore align) "RIGHT" = super_right al /\ String.eqb (after_underscore align) "RIGHT" = sub_right al).
  { revert Al. unfold align_of. repeat match goal with |- context [String.eqb align ?s] => destruct (String.eqb_spec align s) as [->|] end; intro Al; try discriminate; injection Al as <-; split; reflexivity. }
  destruct Ax as [-> ->]. destruct al as [rx ry]. cbn [super_right sub_right].
  rewrite (map_opt_ext _ (fun d => map (entry rows cols m padding (Align rx ry) k0 k1 d) (upto maxlen))).
  2:{ intros d Hd. destruct (Dx d Hd) as [H1 H2]. rewrite !map_opt_map. apply map_opt_ext. intros n Hn. apply in_upto in Hn.
      rewrite <- (super_entry rx ry d n H1 H2 Hn). f_equal. destruct maxlen_le as (M0 & M1 & M2), (diag_le d H2) as (D0 & D1 & D2). destruct rx.
      - assert (Sz : float_min (cols - d) (Z.min cols rows) = diag_len rows cols d) by (rewrite float_min_both by lia; unfold diag_len; lia). rewrite Sz. reflexivity.
      - assert (0 <= n * (cols + 1 + 1)) by (apply Z.mul_nonneg_nonneg; lia). assert (0 <= (cols - d) * (cols + 1)) by (apply Z.mul_nonneg_nonneg; lia). apply float_min_is; [lia|lia|]. destruct (Z_le_gt_dec (cols - d) rows) as [L|G].
        + right. assert (Q : (cols - d) * (cols + 1) <= rows * (cols + 1)) by (apply Z.mul_le_mono_nonneg_r; lia). lia.
        + left. assert (Q : n * (cols + 1) <= (rows - 1) * (cols + 1)) by (apply Z.mul_le_mono_nonneg_r; lia). lia. }
  rewrite (map_opt_ext _ (fun d => map (entry rows cols m padding (Align rx ry) k0 k1 d) (upto maxlen))).
  2:{ intros d Hd. destruct (Dy d Hd) as [H1 H2]. rewrite !map_opt_map. apply map_opt_ext. intros n Hn. apply in_upto in Hn.
      rewrite <- (sub_entry ry rx d n H1 H2 Hn). f_equal. destruct maxlen_le as (M0 & M1 & M2), (diag_le d H2) as (D0 & D1 & D2). destruct ry.
      - assert (Sz : float_min (rows + d) (Z.min cols rows) = diag_len rows cols d) by (rewrite float_min_both by lia; unfold diag_len; lia). rewrite Sz. reflexivity.
      - assert (0 <= n * (cols + 1 + 1)) by (apply Z.mul_nonneg_nonneg; lia). assert (0 <= Z.abs d * (cols + 1)) by (apply Z.mul_nonneg_nonneg; lia). assert (0 <= cols * rows) by (apply Z.mul_nonneg_nonneg; lia).
        apply float_min_is; [lia|lia|]. right. lia. }
  rewrite <- map_app, R, map_map. reflexivity.
Qed.
End Handler.
