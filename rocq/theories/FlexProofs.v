From Coq Require Import ZArith List Bool Lia Zpow_facts.
From Verif Require Import FlexModel FlexSpec.
Import ListNotations.
Local Open Scope Z_scope.

Lemma size_of_zbytes w : size_of w = zbytes w.
Proof. unfold size_of, zbytes, nbytes. rewrite Nat2Z.inj_pow. reflexivity. Qed.
Lemma zbytes_pos w : 0 < zbytes w.
Proof. rewrite <- size_of_zbytes. unfold size_of. apply Z.pow_pos_nonneg; lia. Qed.
Lemma bytes_at_bounds buf off bs : bytes_at buf off bs -> 0 <= off /\ off + len bs <= len buf.
Proof. intros (pre & post & -> & <-). unfold len. rewrite !app_length. lia. Qed.
Lemma slice_at buf off bs n : bytes_at buf off bs -> n = len bs -> slice buf off (off + n) = bs.
Proof.
  intros (pre & post & -> & <-) ->. unfold slice, norm, len. rewrite !app_length, !Nat2Z.inj_add.
  destruct (Z.ltb_spec (Z.of_nat (length pre)) 0); [lia|]. destruct (Z.ltb_spec (Z.of_nat (length pre) + Z.of_nat (length bs)) 0); [lia|].
  replace (Z.to_nat (Z.min (Z.of_nat (length pre)) _)) with (length pre) by lia.
  rewrite skipn_app, skipn_all, Nat.sub_diag. cbn [skipn app].
  match goal with |- firstn ?k _ = _ => replace k with (length bs) by lia end.
  rewrite firstn_app, firstn_all, Nat.sub_diag. cbn. apply app_nil_r.
Qed.
Lemma read_exact_at buf off bs w : bytes_at buf off bs -> length bs = nbytes w -> (w <= 3)%nat -> read_bytes_exact buf off w = Some bs.
Proof.
  intros A L W. unfold read_bytes_exact. apply Nat.leb_le in W. rewrite W. rewrite size_of_zbytes.
  rewrite (slice_at buf off bs) by (auto; unfold len, zbytes; lia).
  unfold len, zbytes. rewrite L, Z.eqb_refl. reflexivity.
Qed.
Lemma uint_bytes_length k n : length (uint_bytes k n) = k.
Proof. revert n. induction k; intro n; cbn; auto. Qed.
Lemma le_uint_bytes k : forall n, 0 <= n < 2 ^ (8 * Z.of_nat k) -> le_uint (uint_bytes k n) = n.
Proof.
  induction k as [|k IH]; intros n R.
  - cbn in R. cbn. lia.
  - cbn [uint_bytes le_uint]. replace (8 * Z.of_nat (S k)) with (8 + 8 * Z.of_nat k) in R by lia.
    rewrite Z.pow_add_r in R by lia. change (2 ^ 8) with 256 in R. rewrite IH.
    + pose proof (Z.div_mod n 256). lia.
    + split; [apply Z.div_pos; lia|]. apply Z.div_lt_upper_bound; lia.
Qed.
Lemma read_uint_at buf off w n : uint_at buf off w n -> read_uint buf off w = Some n.
Proof.
  intros (W & R & A). unfold read_uint. rewrite (read_exact_at _ _ _ _ A (uint_bytes_length _ _) W). cbn. f_equal.
  apply le_uint_bytes. exact R.
Qed.
Lemma read_int_at buf off w z : int_at buf off w z -> read_int buf off w = Some z.
Proof.
  intros (W & R & A). unfold read_int, read_uint. rewrite (read_exact_at _ _ _ _ A (uint_bytes_length _ _) W). cbn [option_map]. f_equal.
  assert (P : 0 < 2 ^ (8 * zbytes w - 1)) by (apply Z.pow_pos_nonneg; pose proof (zbytes_pos w); lia).
  assert (D : 2 ^ (8 * zbytes w) = 2 * 2 ^ (8 * zbytes w - 1)).
  { rewrite <- Z.pow_succ_r by (pose proof (zbytes_pos w); lia). f_equal. lia. }
  rewrite le_uint_bytes by (apply Z.mod_pos_bound; fold (zbytes w); lia).
  unfold to_signed. rewrite size_of_zbytes. rewrite D in *. set (h := 2 ^ (8 * zbytes w - 1)) in *.
  destruct (Z.lt_ge_cases z 0) as [N|N].
  - assert (E : z mod (2 * h) = z + 2 * h). { symmetry. apply (Zmod_unique _ _ (-1)); lia. }
    rewrite E. destruct (Z.ltb_spec (z + 2 * h) h); lia.
  - rewrite Z.mod_small by lia. destruct (Z.ltb_spec z h); lia.
Qed.
Lemma read_indirect_at buf off w t : points buf off w t -> read_indirect buf off w = Some t.
Proof. intros (P & U). unfold read_indirect. rewrite (read_uint_at _ _ _ _ U). cbn. f_equal. lia. Qed.

Lemma bytes_at_nth buf t s i b : bytes_at buf t s -> nth_error s i = Some b -> bytes_at buf (t + Z.of_nat i) [b].
Proof.
  intros (pre & post & -> & <-) E. apply nth_error_split in E. destruct E as (l1 & l2 & -> & <-).
  exists (pre ++ l1), (l2 ++ post). rewrite <- !app_assoc. cbn. split; auto. rewrite app_length. lia.
Qed.
Lemma bytes_at_app buf t s s' : bytes_at buf t (s ++ s') -> bytes_at buf t s /\ bytes_at buf (t + len s) s'.
Proof.
  intros (pre & post & -> & <-). split.
  - exists pre, (s' ++ post). rewrite <- !app_assoc. auto.
  - exists (pre ++ s), post. rewrite <- !app_assoc. split; auto. unfold len. rewrite app_length. lia.
Qed.
Lemma read_byte buf t b : bytes_at buf t [b] -> read_uint buf t 0 = Some b /\ read_int buf t 0 = Some (to_signed 0 b).
Proof.
  intro A. unfold read_int, read_uint. rewrite (read_exact_at _ _ [b] 0 A) by auto. cbn [option_map le_uint].
  split; repeat f_equal; lia.
Qed.
Lemma signed_zero b : 0 <= b < 256 -> (to_signed 0 b = 0 <-> b = 0).
Proof.
  intro R. unfold to_signed. change (2 ^ (8 * size_of 0 - 1)) with 128. change (2 ^ (8 * size_of 0)) with 256.
  destruct (Z.ltb_spec b 128); lia.
Qed.
Lemma key_size_at s : forall n buf t k, nul_free s -> bytes_at buf (t + k) (s ++ [0]) -> (length s < n)%nat ->
  key_size n buf t k = Some (k + len s).
Proof.
  induction s as [|b s IH]; intros [|n] buf t k N A L; try (cbn in L; lia); cbn [key_size].
  - destruct (read_byte buf (t + k) 0 A) as [_ ->]. cbn. f_equal. unfold len. cbn. lia.
  - inversion N as [|? ? Hb N']; subst. cbv beta in Hb. change ((b :: s) ++ [0]) with ([b] ++ (s ++ [0])) in A.
    apply bytes_at_app in A. destruct A as [A1 A2].
    destruct (read_byte _ _ _ A1) as [_ ->]. assert (to_signed 0 b <> 0) by (intro Q; apply (proj1 (signed_zero b ltac:(lia))) in Q; lia).
    destruct (to_signed 0 b) eqn:E; [contradiction| |].
    + rewrite (IH n buf t (k + 1) N'); [apply (f_equal Some); unfold len; cbn [length]; lia| |cbn in L; lia].
      replace (t + (k + 1)) with (t + k + len [b]) by (unfold len; cbn; lia). exact A2.
    + rewrite (IH n buf t (k + 1) N'); [apply (f_equal Some); unfold len; cbn [length]; lia| |cbn in L; lia].
      replace (t + (k + 1)) with (t + k + len [b]) by (unfold len; cbn; lia). exact A2.
Qed.
(** when the size field has the expected width *)
Lemma str_size_at n buf t w s : uint_at buf (t - zbytes w) w (len s) -> bytes_at buf t (s ++ [0]) -> str_size (S n) buf t w = Some (len s).
Proof.
  intros U A. cbn [str_size]. rewrite size_of_zbytes, (read_uint_at _ _ _ _ U).
  apply bytes_at_app in A. destruct A as [_ A]. destruct (read_byte _ _ _ A) as [_ ->]. reflexivity.
Qed.
(** the high order bytes of a size field *)
Lemma uint_bytes_skip k j : forall n, (j <= k)%nat -> 0 <= n -> skipn (k - j) (uint_bytes k n) = uint_bytes j (n / 2 ^ (8 * Z.of_nat (k - j))).
Proof.
  intros n L P. remember (k - j)%nat as d eqn:Ed. assert (k = (d + j)%nat) by lia. subst k. clear Ed L. revert n P.
  induction d as [|d IH]; intros n P.
  - cbn [Nat.add skipn]. change (8 * Z.of_nat 0) with 0. rewrite Z.div_1_r. reflexivity.
  - cbn [Nat.add uint_bytes skipn]. rewrite IH by (apply Z.div_pos; lia). f_equal.
    rewrite Z.div_div by (try lia; apply Z.pow_pos_nonneg; lia). f_equal.
    replace (8 * Z.of_nat (S d)) with (8 + 8 * Z.of_nat d) by lia. rewrite Z.pow_add_r by lia. reflexivity.
Qed.
Lemma uint_at_tail buf t w w' n : uint_at buf (t - zbytes w) w n -> (w' <= w)%nat ->
  exists m, uint_at buf (t - zbytes w') w' m /\ m = n / 2 ^ (8 * (zbytes w - zbytes w')).
Proof.
  intros (W & R & A) L.
  assert (NB : (nbytes w' <= nbytes w)%nat) by (unfold nbytes; apply Nat.pow_le_mono_r; lia).
  eexists. split; [|reflexivity].
  assert (ED : 8 * (zbytes w - zbytes w') = 8 * Z.of_nat (nbytes w - nbytes w')) by (unfold zbytes; lia).
  split; [lia|]. split.
  - split; [apply Z.div_pos; [lia|apply Z.pow_pos_nonneg; unfold zbytes; lia]|].
    apply Z.div_lt_upper_bound; [apply Z.pow_pos_nonneg; unfold zbytes; lia|]. rewrite <- Z.pow_add_r by (unfold zbytes; lia).
    replace (8 * (zbytes w - zbytes w') + 8 * zbytes w') with (8 * zbytes w) by lia. lia.
  - rewrite ED. rewrite <- uint_bytes_skip by (auto; lia).
    rewrite <- (firstn_skipn (nbytes w - nbytes w') (uint_bytes (nbytes w) n)) in A. apply bytes_at_app in A. destruct A as [_ A].
    replace (t - zbytes w') with (t - zbytes w + len (firstn (nbytes w - nbytes w') (uint_bytes (nbytes w) n))); auto.
    unfold len. rewrite firstn_length, uint_bytes_length. unfold zbytes. lia.
Qed.
Lemma str_size_widen d : forall n buf t w s, nul_free s -> uint_at buf (t - zbytes (d + w)) (d + w) (len s) -> bytes_at buf t (s ++ [0]) ->
  (d < n)%nat -> str_size n buf t w = Some (len s).
Proof.
  induction d as [|d IH]; intros [|n] buf t w s N U A L; try lia.
  - apply str_size_at; auto.
  - cbn [str_size]. rewrite size_of_zbytes. destruct (uint_at_tail buf t (S d + w) w (len s) U) as (m & Um & Em); [lia|].
    rewrite (read_uint_at _ _ _ _ Um).
    assert (P : zbytes w < zbytes (S d + w)). { unfold zbytes, nbytes. apply Nat2Z.inj_lt. apply Nat.pow_lt_mono_r; lia. }
    assert (B : 2 <= 2 ^ (8 * (zbytes (S d + w) - zbytes w))). { change 2 with (2 ^ 1) at 1. apply Z.pow_le_mono_r; lia. }
    assert (LS : 0 <= len s) by (unfold len; lia).
    destruct (Z.eq_dec (len s) 0) as [Z0|Z0].
    + destruct s; [|unfold len in Z0; cbn in Z0; lia]. unfold len in Em. cbn in Em.
      assert (m = 0) by (subst m; reflexivity). clear Em. subst m.
      rewrite Z.add_0_r. destruct (read_byte buf t 0 A) as [_ ->]. reflexivity.
    + assert (M : 0 <= m < len s). { subst m. split; [apply Z.div_pos; lia|]. apply Z.div_lt; lia. }
      assert (NE : exists b, nth_error s (Z.to_nat m) = Some b).
      { destruct (nth_error s (Z.to_nat m)) eqn:E; eauto. apply nth_error_None in E. unfold len in M. lia. }
      destruct NE as (b & Eb). assert (Hb : 0 < b < 256). { unfold nul_free in N. rewrite Forall_forall in N. apply N. eapply nth_error_In; eauto. }
      destruct (bytes_at_app _ _ _ _ A) as [A1 _]. pose proof (bytes_at_nth _ _ _ _ _ A1 Eb) as Ab. rewrite Z2Nat.id in Ab by lia.
      destruct (read_byte _ _ _ Ab) as [_ ->]. assert (to_signed 0 b <> 0) by (intro Q; apply (proj1 (signed_zero b ltac:(lia))) in Q; lia).
      assert (K : str_size n buf t (S w) = Some (len s)).
      { apply IH; auto; [|lia]. replace (d + S w)%nat with (S d + w)%nat by lia. exact U. }
      destruct (to_signed 0 b); [contradiction|exact K|exact K].
Qed.

Lemma collect_all {A} (f : Z -> option A) vs : forall i, (forall j v, nth_error vs j = Some v -> f (i + Z.of_nat j) = Some v) ->
  collect f i (length vs) = Some vs.
Proof.
  induction vs as [|v vs IH]; intros i Hf; [reflexivity|]. cbn [length collect].
  pose proof (Hf 0%nat v eq_refl) as H0. rewrite Z.add_0_r in H0. rewrite H0. rewrite IH; [reflexivity|].
  intros j v' E. specialize (Hf (S j) v' E). rewrite <- Hf. f_equal. lia.
Qed.
Lemma mset_all kvs : NoDup (map fst kvs) -> fold_left (fun d kv => mset d (fst kv) (snd kv)) kvs [] = kvs.
Proof.
  intro ND.
  assert (MS : forall d k v, ~ In k (map fst d) -> mset d k v = d ++ [(k, v)]).
  { induction d as [|[k' v'] d IH]; intros k v N; cbn; auto. destruct (bytes_eq_dec k' k) as [->|]; [exfalso; apply N; left; auto|].
    rewrite IH; auto. intro I. apply N. right. exact I. }
  cut (forall pre, NoDup (map fst (pre ++ kvs)) -> fold_left (fun d kv => mset d (fst kv) (snd kv)) kvs pre = pre ++ kvs).
  { intro K. apply (K []). exact ND. }
  clear ND. induction kvs as [|[k v] kvs IH]; intros pre ND; cbn [fold_left fst snd]; [rewrite app_nil_r; auto|].
  rewrite MS.
  - rewrite IH; [rewrite <- app_assoc; reflexivity|]. rewrite <- app_assoc. exact ND.
  - intro I. rewrite map_app in ND. cbn in ND. apply NoDup_remove_2 in ND. apply ND. apply in_app_iff. left. exact I.
Qed.

(** enough fuel for finitely many reads *)
Lemma fuel_max (P : nat -> nat -> Prop) n : (forall i, (i < n)%nat -> exists f, forall f', (f <= f')%nat -> P i f') ->
  exists f, forall i f', (i < n)%nat -> (f <= f')%nat -> P i f'.
Proof.
  induction n as [|n IH]; intro Hp; [exists 0%nat; lia|].
  destruct IH as (f1 & H1). { intros i L. apply Hp. lia. }
  destruct (Hp n) as (f2 & H2); [lia|]. exists (Nat.max f1 f2). intros i f' Li Lf.
  destruct (Nat.eq_dec i n) as [->|]; [apply H2; lia|apply H1; lia].
Qed.

Definition packed (ty : Z) (bw : nat) : Z := ty * 4 + Z.of_nat bw.
Lemma land_packed ty bw : 0 <= ty -> (bw <= 3)%nat -> Z.land (packed ty bw) 3 = Z.of_nat bw /\ Z.shiftr (packed ty bw) 2 = ty.
Proof.
  intros T W. unfold packed. change 3 with (Z.ones 2). rewrite Z.land_ones by lia. change (2 ^ 2) with 4. rewrite Z.shiftr_div_pow2 by lia. change (2 ^ 2) with 4.
  split; [symmetry; apply (Z.mod_unique _ _ ty); lia|symmetry; apply (Z.div_unique _ _ _ (Z.of_nat bw)); lia].
Qed.
Lemma shiftl_packed ty : Z.shiftl ty 2 = packed ty 0.
Proof. unfold packed. rewrite Z.shiftl_mul_pow2 by lia. change (2 ^ 2) with 4. cbn. lia. Qed.
Lemma width_of_zbytes w : (w <= 3)%nat -> width_of_bytes (zbytes w) = Some w.
Proof. intro L. destruct w as [|[|[|[|?]]]]; try lia; reflexivity. Qed.

Definition reads buf off w ty bw v := exists f, forall f', (f <= f')%nat -> read_buffer f' buf off w (packed ty bw) = Some v.

Ltac start T W := exists 1%nat; intros [|f'] Lf; [lia|]; cbn [read_buffer];
  destruct (land_packed _ _ T W) as [-> ->]; rewrite Nat2Z.id; rewrite ?size_of_zbytes.

Lemma some_none {A} (l : list A) i : (i < length l)%nat -> exists v, nth_error l i = Some v.
Proof. intro L. destruct (nth_error l i) eqn:E; eauto. apply nth_error_None in E. lia. Qed.

Lemma reads_null buf off w bw : (bw <= 3)%nat -> reads buf off w T_NULL bw VNull.
Proof. intro W. assert (T : 0 <= T_NULL) by (cbv; discriminate). start T W. reflexivity. Qed.
Lemma zbytes_gt w : Z.of_nat w < zbytes w.
Proof. unfold zbytes, nbytes. apply Nat2Z.inj_lt. apply Nat.pow_gt_lin_r. lia. Qed.

Lemma read_string_any buf off w sw bw s f : nul_free s -> stored buf off w T_STRING sw (VStr s) -> (bw = 0)%nat -> (0 < f)%nat ->
  read_buffer f buf off w (packed T_STRING bw) = Some (VStr s).
Proof.
  intros N St -> Lf. destruct f as [|f]; [lia|]. inversion St as [| | | | | |off0 w0 bw0 t s0 P B Fb U A| | | | | |? ? ? ? ? ? ? VO| |? ? ? ? ? ? ? ? FO|]; subst.
  - cbn [read_buffer]. destruct (land_packed T_STRING 0) as [-> ->]; [cbv; discriminate|lia|]. rewrite Nat2Z.id; rewrite ?size_of_zbytes. cbn [Z.eqb Pos.eqb T_STRING].
    rewrite (read_indirect_at _ _ _ _ P). cbn [bind].
    assert (SB : (sw < S (length buf))%nat).
    { destruct (bytes_at_bounds _ _ _ A) as [B1 B2]. unfold len in B2. rewrite app_length in B2. cbn in B2.
      pose proof (zbytes_gt sw). unfold zbytes in *. lia. }
    rewrite (str_size_widen sw (S (length buf)) buf t 0 s N); [| |exact A|exact SB].
    2:{ replace (sw + 0)%nat with sw by lia. exact U. }
    cbn [bind]. rewrite (slice_at buf t s) by (auto; apply (bytes_at_app _ _ _ _ A)). reflexivity.
Qed.

Lemma points_w buf off w t : points buf off w t -> (w <= 3)%nat.
Proof. intros (_ & W & _). exact W. Qed.

Lemma fixed_inv vty n ty : fixed_of vty n ty -> exists k, (2 <= n <= 4)%nat /\ 0 <= k < 3 /\ vty = 16 + 3 * (Z.of_nat n - 2) + k /\ ty = 1 + k.
Proof. intros [n' k A B]. exists k. auto. Qed.
Ltac ty0 := cbv; discriminate.
Ltac head Lf T W := cbn [read_buffer]; destruct (land_packed T W) as [-> ->]; [ty0|assumption|]; rewrite Nat2Z.id; rewrite ?size_of_zbytes.

Theorem stored_reads buf off w ty bw v : stored buf off w ty bw v -> (bw <= 3)%nat -> reads buf off w ty bw v.
Proof.
  induction 1 as [off w bw|off w bw z A|off w bw z A|off w bw bs Wr A L|off w bw z b A Hb|off w bw t s P N A|off w bw t s P B Fb U A
    |off w bw t z P A|off w bw t z P A|off w bw t bs P Wr A L|off w bw t bs P U A
    |off w bw t vs tys P U LT HT HS IH|off w bw t vs vty ty VO P U HS IH|off w bw t ss sw P U N HS IH
    |off w bw t vs vty ty Wb FO P HS IH|off w bw t kv kw kvs tys P U LT ND PK Wk UK HK IHK HT HS IH]; intro W.
  - exists 1%nat. intros [|f] Lf; [lia|]. head Lf T_NULL bw. reflexivity.
  - exists 1%nat. intros [|f] Lf; [lia|]. head Lf T_INT bw. cbn [Z.eqb Pos.eqb T_INT]. rewrite (read_int_at _ _ _ _ A). reflexivity.
  - exists 1%nat. intros [|f] Lf; [lia|]. head Lf T_UINT bw. cbn [Z.eqb Pos.eqb T_UINT]. rewrite (read_uint_at _ _ _ _ A). reflexivity.
  - exists 1%nat. intros [|f] Lf; [lia|]. head Lf T_FLOAT bw. cbn [Z.eqb Pos.eqb T_FLOAT]. unfold read_float. rewrite (read_exact_at _ _ _ _ A L) by lia.
    assert (w = 2%nat \/ w = 3%nat) as [->| ->] by lia; reflexivity.
  - exists 1%nat. intros [|f] Lf; [lia|]. head Lf T_BOOL bw. cbn [Z.eqb Pos.eqb T_BOOL]. rewrite (read_uint_at _ _ _ _ A). cbn. do 2 f_equal.
    destruct A as (_ & R & _). destruct (Z.ltb_spec 0 z).
    + symmetry. apply Hb. lia.
    + destruct b; auto. exfalso. apply (proj1 Hb eq_refl). lia.
  - exists 1%nat. intros [|f] Lf; [lia|]. head Lf T_KEY bw. cbn [Z.eqb Pos.eqb T_KEY]. rewrite (read_indirect_at _ _ _ _ P). cbn [bind].
    assert (A' := A). rewrite <- (Z.add_0_r t) in A'.
    rewrite (key_size_at s (S (length buf)) buf t 0 N A').
    + cbn [bind]. rewrite Z.add_0_l. rewrite (slice_at buf t s) by (auto; apply (bytes_at_app _ _ _ _ A)). reflexivity.
    + destruct (bytes_at_bounds _ _ _ A) as [B1 B2]. unfold len in B2. rewrite app_length in B2. cbn in B2. lia.
  - exists 1%nat. intros [|f] Lf; [lia|]. head Lf T_STRING bw. cbn [Z.eqb Pos.eqb T_STRING]. rewrite (read_indirect_at _ _ _ _ P). cbn [bind].
    rewrite (str_size_at _ _ _ _ s U A). cbn [bind]. rewrite (slice_at buf t s) by (auto; apply (bytes_at_app _ _ _ _ A)). reflexivity.
  - exists 1%nat. intros [|f] Lf; [lia|]. head Lf T_INDIRECT_INT bw. cbn [Z.eqb Pos.eqb T_INDIRECT_INT]. rewrite (read_indirect_at _ _ _ _ P). cbn [bind]. rewrite (read_int_at _ _ _ _ A). reflexivity.
  - exists 1%nat. intros [|f] Lf; [lia|]. head Lf T_INDIRECT_UINT bw. cbn [Z.eqb Pos.eqb T_INDIRECT_UINT]. rewrite (read_indirect_at _ _ _ _ P). cbn [bind]. rewrite (read_uint_at _ _ _ _ A). reflexivity.
  - exists 1%nat. intros [|f] Lf; [lia|]. head Lf T_INDIRECT_FLOAT bw. cbn [Z.eqb Pos.eqb T_INDIRECT_FLOAT]. rewrite (read_indirect_at _ _ _ _ P). cbn [bind].
    unfold read_float. rewrite (read_exact_at _ _ _ _ A L) by lia. assert (bw = 2%nat \/ bw = 3%nat) as [->| ->] by lia; reflexivity.
  - exists 1%nat. intros [|f] Lf; [lia|]. head Lf T_BLOB bw. cbn [Z.eqb Pos.eqb T_BLOB]. rewrite (read_indirect_at _ _ _ _ P). cbn [bind].
    rewrite (read_uint_at _ _ _ _ U). cbn [bind]. rewrite (slice_at buf t bs) by auto. reflexivity.
  - destruct (fuel_max (fun i f => forall v ty tw, nth_error vs i = Some v -> nth_error tys i = Some (ty, tw) ->
      read_buffer f buf (t + Z.of_nat i * zbytes bw) bw (packed ty tw) = Some v) (length vs)) as (f0 & Hf).
    { intros i Li. destruct (some_none vs i Li) as (v & Ev). destruct (some_none tys i) as ([ty tw] & Et); [lia|].
      destruct (HT _ _ _ _ Ev Et) as (_ & Wt & _). destruct (IH _ _ _ _ Ev Et Wt) as (f & Hf). exists f. intros f' L v' ty' tw' Ev' Et'.
      rewrite Ev in Ev'. rewrite Et in Et'. inversion Ev'; inversion Et'; subst. auto. }
    exists (S f0). intros [|f] Lf; [lia|]. head Lf T_VECTOR bw. cbn [Z.eqb Pos.eqb T_VECTOR]. rewrite (read_indirect_at _ _ _ _ P). cbn [bind].
    rewrite (read_uint_at _ _ _ _ U). cbn [bind]. rewrite Nat2Z.id.
    rewrite (collect_all _ vs 0); [reflexivity|]. intros j v Ej. rewrite Z.add_0_l.
    destruct (some_none tys j) as ([ty tw] & Et). { rewrite LT. apply nth_error_Some. congruence. }
    destruct (HT _ _ _ _ Ej Et) as (Ty & Wt & Ab). destruct (read_byte _ _ _ Ab) as [-> _]. cbn [bind].
    apply (Hf j); auto; [apply nth_error_Some; congruence|lia].
  - destruct (fuel_max (fun i f => forall v, nth_error vs i = Some v ->
      read_buffer f buf (t + Z.of_nat i * zbytes bw) bw (packed ty 0) = Some v) (length vs)) as (f0 & Hf).
    { intros i Li. destruct (some_none vs i Li) as (v & Ev). destruct (IH _ _ Ev ltac:(lia)) as (f & Hf). exists f. intros f' L v' Ev'.
      rewrite Ev in Ev'. inversion Ev'; subst. auto. }
    exists (S f0). intros [|f] Lf; [lia|].
    assert (T : 0 <= vty) by (destruct VO; ty0). cbn [read_buffer]. destruct (land_packed vty bw T W) as [-> ->]. rewrite Nat2Z.id; rewrite ?size_of_zbytes.
    assert (K : (do t <- read_indirect buf off w; do n <- read_uint buf (t - zbytes bw) bw;
      do items <- collect (fun i => read_buffer f buf (t + i * zbytes bw) bw (Z.shiftl ty 2)) 0 (Z.to_nat n); Some (VList items)) = Some (VList vs)).
    { rewrite (read_indirect_at _ _ _ _ P). cbn [bind]. rewrite (read_uint_at _ _ _ _ U). cbn [bind]. rewrite Nat2Z.id.
      rewrite (collect_all _ vs 0); [reflexivity|]. intros j v Ej. rewrite Z.add_0_l, shiftl_packed.
      apply (Hf j); auto; [apply nth_error_Some; congruence|lia]. }
    destruct VO; exact K.
  - exists 2%nat. intros [|f] Lf; [lia|]. head Lf T_VECTOR_STRING bw. cbn [Z.eqb Z.leb T_VECTOR_STRING andb orb Pos.eqb Z.compare Pos.compare Pos.compare_cont].
    rewrite (read_indirect_at _ _ _ _ P). cbn [bind]. rewrite (read_uint_at _ _ _ _ U). cbn [bind]. rewrite Nat2Z.id.
    rewrite <- (map_length VStr ss). rewrite (collect_all _ (map VStr ss) 0); [reflexivity|]. intros j v Ej. rewrite Z.add_0_l.
    rewrite nth_error_map in Ej. destruct (nth_error ss j) as [s|] eqn:Es; [|discriminate]. injection Ej as <-.
    change (15 - 11 + 1) with T_STRING. rewrite shiftl_packed. eapply read_string_any; eauto; [|lia]. apply N. eapply nth_error_In; eauto.
  - destruct (fuel_max (fun i f => forall v, nth_error vs i = Some v ->
      read_buffer f buf (t + Z.of_nat i * zbytes bw) bw (packed ty 0) = Some v) (length vs)) as (f0 & Hf).
    { intros i Li. destruct (some_none vs i Li) as (v & Ev). destruct (IH _ _ Ev ltac:(lia)) as (f & Hf). exists f. intros f' L v' Ev'.
      rewrite Ev in Ev'. inversion Ev'; subst. auto. }
    exists (S f0). intros [|f] Lf; [lia|].
    destruct (fixed_inv _ _ _ FO) as (k & Rn & Rk & Ev & Et).
    assert (T : 0 <= vty) by lia. cbn [read_buffer]. destruct (land_packed vty bw T W) as [-> ->]. rewrite Nat2Z.id; rewrite ?size_of_zbytes.
    assert (RV : 16 <= vty <= 24) by lia.
    repeat match goal with |- context [vty =? ?c] => destruct (Z.eqb_spec vty c); [exfalso; lia|] end.
    destruct (Z.leb_spec 11 vty); [|lia]. destruct (Z.leb_spec vty 15); [lia|]. destruct (Z.leb_spec 16 vty); [|lia]. destruct (Z.leb_spec vty 24); [|lia].
    cbn [andb orb].
    assert (D : (vty - 16) / 3 = Z.of_nat (length vs) - 2) by (symmetry; apply (Z.div_unique _ _ _ k); lia).
    assert (M : (vty - 16) mod 3 + 1 = 1 + k). { assert ((vty - 16) mod 3 = k) by (symmetry; apply (Z.mod_unique _ _ (Z.of_nat (length vs) - 2)); lia). lia. }
    rewrite D, M, <- Et. rewrite (read_indirect_at _ _ _ _ P). cbn [bind].
    replace (Z.to_nat (Z.of_nat (length vs) - 2 + 2)) with (length vs) by lia.
    rewrite (collect_all _ vs 0); [reflexivity|]. intros j v Ej. rewrite Z.add_0_l, shiftl_packed.
    apply (Hf j); auto; [apply nth_error_Some; congruence|lia].
  - destruct (fuel_max (fun i f => forall k v ty tw, nth_error kvs i = Some (k, v) -> nth_error tys i = Some (ty, tw) ->
      read_buffer f buf (kv + Z.of_nat i * zbytes kw) kw (packed T_KEY kw) = Some (VStr k) /\
      read_buffer f buf (t + Z.of_nat i * zbytes bw) bw (packed ty tw) = Some v) (length kvs)) as (f0 & Hf).
    { intros i Li. destruct (some_none kvs i Li) as ([k v] & Ev). destruct (some_none tys i) as ([ty tw] & Et); [lia|].
      destruct (HT _ _ _ _ _ Ev Et) as (_ & Wt & _). destruct (IH _ _ _ _ _ Ev Et Wt) as (f & Hf). destruct (IHK _ _ _ Ev Wk) as (f2 & Hf2).
      exists (Nat.max f f2). intros f' L k' v' ty' tw' Ev' Et'.
      rewrite Ev in Ev'. rewrite Et in Et'. inversion Ev'; inversion Et'; subst. split; [apply Hf2|apply Hf]; lia. }
    exists (S f0). intros [|f] Lf; [lia|]. head Lf T_MAP bw. cbn [Z.eqb T_MAP Pos.eqb]. rewrite (read_indirect_at _ _ _ _ P). cbn [bind].
    rewrite (read_uint_at _ _ _ _ U). cbn [bind].
    rewrite (read_indirect_at _ _ _ _ PK). cbn [bind]. replace (t - zbytes bw * 3 + zbytes bw) with (t - zbytes bw * 2) by lia.
    rewrite (read_uint_at _ _ _ _ UK). cbn [bind]. rewrite (width_of_zbytes _ Wk). cbn [bind]. rewrite Nat2Z.id.
    rewrite (collect_all _ kvs 0).
    + cbn [bind]. rewrite mset_all by exact ND. reflexivity.
    + intros j [k v] Ej. rewrite Z.add_0_l.
      destruct (some_none tys j) as ([ty tw] & Et). { rewrite LT. apply nth_error_Some. congruence. }
      destruct (HT _ _ _ _ _ Ej Et) as (Ty & Wt & Ab). destruct (read_byte _ _ _ Ab) as [Rb _].
      destruct (Hf j f) with (1 := proj1 (nth_error_Some kvs j) ltac:(congruence)) (3 := Ej) (4 := Et) as [R1 R2]; [lia|].
      assert (EP : Z.lor (Z.shiftl 4 2) (Z.of_nat kw) = packed T_KEY kw) by (destruct kw as [|[|[|[|?]]]]; try lia; reflexivity).
      rewrite EP, R1. cbn [bind]. rewrite Rb. cbn [bind]. unfold packed in R2. rewrite R2. reflexivity.
Qed.

Theorem document_reads buf v : document buf v -> exists f, forall f', (f <= f')%nat -> read_flexbuffer f' buf = Some v.
Proof.
  intros (body & slot & ty & tw & w & Ww & Wt & Ty & Ls & Eb & St).
  destruct (stored_reads _ _ _ _ _ _ St Wt) as (f & Hf). exists f. intros f' L. unfold read_flexbuffer.
  assert (A1 : bytes_at buf (len buf - 1) [zbytes w]).
  { exists (body ++ slot ++ [ty * 4 + Z.of_nat tw]), []. rewrite Eb. rewrite <- !app_assoc. split; auto. unfold len. rewrite !app_length. cbn. lia. }
  assert (A2 : bytes_at buf (len buf - 2) [ty * 4 + Z.of_nat tw]).
  { exists (body ++ slot), [zbytes w]. rewrite Eb. rewrite <- !app_assoc. split; auto. unfold len. rewrite !app_length. cbn. lia. }
  destruct (read_byte _ _ _ A1) as [-> _]. cbn [bind]. rewrite width_of_zbytes by exact Ww. cbn [bind].
  destruct (read_byte _ _ _ A2) as [-> _]. cbn [bind].
  replace (len buf - 2 - zbytes w) with (Z.of_nat (length body)); [apply Hf; exact L|].
  unfold len. rewrite Eb, !app_length. cbn. unfold zbytes. lia.
Qed.
