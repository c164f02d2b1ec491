(** Slice and GatherV2. *)
From Coq Require Import List Arith ZArith Bool Lia Permutation.
From Verif Require Import Tensor FoldModel OnnxSpec TensorProofs TOps TOpsProofs TOpsProofs2 SpaceModel SpaceProofs2 NNProofs IdxModel IdxSpec.
Import ListNotations.
Local Open Scope list_scope.

(** ** Slice *)
Lemma clamp_in d z : (0 <= z <= Z.of_nat d)%Z -> clamp d z = Z.to_nat z.
Proof. intro H. unfold clamp. rewrite (proj2 (Z.ltb_ge z 0)) by lia. f_equal. lia. Qed.
Lemma clamp_big d z : (Z.of_nat d <= z)%Z -> clamp d z = d.
Proof. intro H. unfold clamp. rewrite (proj2 (Z.ltb_ge z 0)) by lia. lia. Qed.
(** the ends that make Slice equal to tf.slice *)
Definition good_end (d : nat) (b s e : Z) : Prop :=
  if Z.eqb s (-1) then (Z.of_nat d <= e)%Z else e = (b + s)%Z.
Inductive good_ends : list nat -> list Z -> list Z -> list Z -> Prop :=
| ge_nil : good_ends [] [] [] []
| ge_cons d b s e sh bs ss es : good_end d b s e -> good_ends sh bs ss es -> good_ends (d :: sh) (b :: bs) (s :: ss) (e :: es).
Lemma good_segs sh bs ss es lens : good_ends sh bs ss es -> slice_lens sh bs ss = Some lens ->
  map snd (zip2 seg sh (combine bs es)) = lens /\ (forall ix, addix (map fst (zip2 seg sh (combine bs es))) ix = plus_ix bs ix) /\
  length bs = length sh /\ length es = length sh.
Proof.
  intros G. revert lens. induction G as [|d b s e sh bs ss es H G IH]; intros lens E; cbn [slice_lens] in E.
  - injection E as <-. cbn. auto.
  - destruct (slice_len d b s) as [n|] eqn:En; [|discriminate]. destruct (slice_lens sh bs ss) as [l|]; [|discriminate]. injection E as <-.
    destruct (IH l eq_refl) as (I1 & I2 & I3 & I4). cbn [combine zip2 map length]. unfold seg at 1 3. cbn [fst snd]. rewrite I1.
    unfold slice_len in En. destruct (_ && _) eqn:C in En; [|discriminate]. apply andb_true_iff in C. rewrite !Z.leb_le in C. destruct C as [C1 C2].
    rewrite (clamp_in d b) by lia. repeat split; try lia.
    + f_equal. unfold good_end in H. destruct (Z.eqb s (-1)).
      * injection En as <-. rewrite clamp_big by lia. lia.
      * destruct (_ && _) eqn:C in En; [|discriminate]. injection En as <-. apply andb_true_iff in C. rewrite !Z.leb_le in C. subst e. rewrite clamp_in by lia. lia.
    + intros [|i ix]; auto. cbn [addix plus_ix]. now rewrite I2.
Qed.
Lemma slice_lens_len sh bs ss lens : slice_lens sh bs ss = Some lens -> length bs = length sh /\ length ss = length sh.
Proof.
  revert bs ss lens. induction sh as [|d sh IH]; intros [|b bs] [|s ss] lens E; cbn in E; try discriminate; auto.
  destruct (slice_len d b s); [|discriminate]. destruct (slice_lens sh bs ss) eqn:E2; [|discriminate]. apply IH in E2. cbn. lia.
Qed.
Lemma slice_none {T} ss es (x : tensor T) : f_slice ss es None x = f_slice ss es (Some (map Z.of_nat (seq 0 (length ss)))) x.
Proof. reflexivity. Qed.
Lemma f_slice_tf {T} (x y : tensor T) bs ss es : wf x -> tf_slice bs ss x = Some y -> good_ends (shape x) bs ss es -> f_slice bs es None x = Some y.
Proof.
  intros W TF G. unfold tf_slice in TF. destruct (slice_lens (shape x) bs ss) as [lens|] eqn:El; [|discriminate]. destruct (build_spec _ _ _ TF) as (Sy & Wy & Gy).
  destruct (good_segs _ _ _ _ _ G El) as (E1 & E2 & L1 & L2).
  destruct (slice_spec [] (shape x) [] x bs es W) as (z & Dz & Wz & Sz & Gz); auto; [cbn; now rewrite app_nil_r|].
  cbn [length] in Dz. rewrite slice_none, L1, Dz. f_equal. rewrite E1 in *. cbn in Sz. rewrite app_nil_r in Sz. apply tensor_ext; auto; [congruence|].
  rewrite Sz. intros ix Hi. rewrite Gy by auto. specialize (Gz [] ix []). cbn in Gz. rewrite !app_nil_r in Gz. rewrite Gz; auto. now rewrite E2.
Qed.
Lemma const_ends sh bs ss lens : slice_lens sh bs ss = Some lens -> Forall (fun d => Z.of_nat d <= int64_max)%Z sh -> good_ends sh bs ss (slice_ends bs ss).
Proof.
  revert bs ss lens. induction sh as [|d sh IH]; intros [|b bs] [|s ss] lens E F; cbn [slice_lens] in E; try discriminate; [constructor|].
  destruct (slice_len d b s); [|discriminate]. destruct (slice_lens sh bs ss) eqn:E2; [|discriminate]. inversion F; subst. unfold slice_ends. cbn [combine map]. constructor; [|eapply IH; eauto].
  unfold good_end. destruct (Z.eqb s (-1)); auto.
Qed.
Lemma slice_const_ok {A} (zero : A) opset bits bs ss (x y : tensor A) e others : wf x -> Forall (fun d => Z.of_nat d <= int64_max)%Z (shape x) ->
  tf_slice bs ss x = Some y -> slice opset bits (Some (bs, ss)) = Some e -> eval zero opset (D x :: others) e = Some (D y).
Proof.
  intros W F TF P. assert (G : good_ends (shape x) bs ss (slice_ends bs ss)).
  { unfold tf_slice in TF. destruct (slice_lens (shape x) bs ss) eqn:E; [|discriminate]. eapply const_ends; eauto. }
  assert (Fs := f_slice_tf _ _ _ _ _ W TF G). unfold slice in P. destruct (Nat.ltb opset 10) eqn:O; injection P as <-.
  - cbn [eval map sequence nth_error obind apply]. rewrite O. cbn [lift]. now rewrite Fs.
  - rewrite (ev3 zero opset (D x :: others) _ (Inp 0) _ _ _ _ _ eq_refl (ev_vec _ _ _ _) (ev_vec _ _ _ _)). cbn [apply]. rewrite O. cbn [ints obind lift]. rewrite !as_vec_tvec. cbn [obind]. now rewrite Fs.
Qed.

(** computed ends *)
Lemma wrap_id bits z : (0 < bits)%Z -> (- 2 ^ (bits - 1) <= z < 2 ^ (bits - 1))%Z -> wrap bits z = z.
Proof.
  intros P H. unfold wrap. assert (E : (2 ^ bits = 2 * 2 ^ (bits - 1))%Z) by (rewrite <- Z.pow_succ_r by lia; f_equal; lia).
  rewrite Z.mod_small by lia. lia.
Qed.
Lemma binary_1_vec {X Y W} (f : X -> Y -> W) x b : f_binary f (tvec [x]) (tvec b) = Some (tvec (map (f x) b)).
Proof.
  unfold f_binary. change (shape (tvec b)) with [length b]. change (shape (tvec [x])) with [1]. unfold tvec at 1 2.
  change (Nat.max _ _) with 1. unfold pad_ones. cbn [Nat.sub length repeat app bcast_dims].
  match goal with |- match ?m with _ => _ end = _ => replace m with (Some [length b]) end.
  - apply build_vec; [now rewrite map_length|]. intros i Hi. unfold bcast_ix. cbn [length Nat.sub skipn combine map]. cbn [Nat.eqb].
    rewrite !get_vec, nth_error_map. cbn [nth_error]. destruct (Nat.eqb_spec (length b) 1).
    + replace i with 0 by lia. now destruct (nth_error b 0).
    + now destruct (nth_error b i).
  - destruct (length b) as [|[|n]]; reflexivity.
Qed.
Lemma unary_vec {X Y} (f : X -> Y) l : f_unary f (tvec l) = tvec (map f l).
Proof. unfold f_unary, tvec. cbn [shape data]. now rewrite map_length. Qed.
Definition dyn_end (bits b s : Z) : Z :=
  wrap bits (b + wrap bits (s + wrap bits ((2 ^ (bits - 1) - 1) * Z.b2z (Z.eqb (-1) s)))).
Lemma ev_dyn_ends {A} (zero : A) opset env bits eb es bs ss : length bs = length ss ->
  eval zero opset env eb = Some (I (tvec bs)) -> eval zero opset env es = Some (I (tvec ss)) ->
  eval zero opset env (dyn_slice_ends bits eb es) = Some (I (tvec (zip2 (dyn_end bits) bs ss))).
Proof.
  intros L Eb Es. unfold dyn_slice_ends. cbv zeta.
  assert (E1 : eval zero opset env (Op Equal [vec [(-1)%Z]; es]) = Some (B (tvec (map (Z.eqb (-1)) ss)))).
  { rewrite (ev2 zero opset env _ _ _ _ _ (ev_vec _ _ _ _) Es). cbn [apply]. now rewrite binary_1_vec. }
  assert (E2 : eval zero opset env (Op Cast [Op Equal [vec [(-1)%Z]; es]]) = Some (I (tvec (map Z.b2z (map (Z.eqb (-1)) ss))))).
  { rewrite (ev1 zero opset env _ _ _ E1). cbn [apply]. now rewrite unary_vec. }
  assert (E3 := ev2 zero opset env (MulBits bits) _ _ _ _ (ev_vec zero opset env [(2 ^ (bits - 1) - 1)%Z]) E2). cbn [apply] in E3. rewrite binary_1_vec in E3. cbn [option_map] in E3.
  assert (E4 := ev2 zero opset env (AddBits bits) _ _ _ _ Es E3). cbn [apply] in E4. rewrite binary_vec in E4 by now rewrite !map_length. cbn [option_map] in E4.
  assert (E5 := ev2 zero opset env (AddBits bits) _ _ _ _ Eb E4). cbn [apply] in E5. rewrite binary_vec in E5 by (rewrite zip2_length; auto; now rewrite !map_length). cbn [option_map] in E5.
  rewrite E5. do 3 f_equal. clear - L. revert ss L. induction bs as [|b bs IH]; intros [|s ss] L; cbn in L; try discriminate; auto.
  cbn [map zip2]. f_equal. apply IH. lia.
Qed.
Lemma dyn_good bits d b s n : (2 <= bits)%Z -> slice_len d b s = Some n -> (Z.of_nat d < 2 ^ (bits - 1) - 1)%Z -> (s = (-1)%Z -> (b <= 1)%Z) -> good_end d b s (dyn_end bits b s).
Proof.
  intros Hb E Hd H1. unfold slice_len in E. destruct (_ && _) eqn:C in E; [|discriminate]. apply andb_true_iff in C. rewrite !Z.leb_le in C. destruct C as [C1 C2].
  set (M := (2 ^ (bits - 1))%Z) in *. unfold good_end, dyn_end. fold M. rewrite (Z.eqb_sym (-1)). destruct (Z.eqb_spec s (-1)) as [->|N].
  - specialize (H1 eq_refl). cbn [Z.b2z]. rewrite Z.mul_1_r. rewrite (wrap_id bits (M - 1)) by (fold M; lia). rewrite (wrap_id bits (-1 + (M - 1))) by (fold M; lia). rewrite (wrap_id bits) by (fold M; lia). lia.
  - destruct (_ && _) eqn:C in E; [|discriminate]. apply andb_true_iff in C. rewrite !Z.leb_le in C. cbn [Z.b2z]. rewrite Z.mul_0_r. rewrite (wrap_id bits 0) by (fold M; lia). rewrite (wrap_id bits (s + 0)) by (fold M; lia). rewrite (wrap_id bits) by (fold M; lia). lia.
Qed.
Lemma dyn_goods bits sh bs ss lens : (2 <= bits)%Z -> slice_lens sh bs ss = Some lens -> Forall (fun d => Z.of_nat d < 2 ^ (bits - 1) - 1)%Z sh ->
  Forall2 (fun b s => s = (-1)%Z -> (b <= 1)%Z) bs ss -> good_ends sh bs ss (zip2 (dyn_end bits) bs ss).
Proof.
  intro Hb. revert bs ss lens. induction sh as [|d sh IH]; intros [|b bs] [|s ss] lens E F G; cbn [slice_lens] in E; try discriminate; [constructor|].
  destruct (slice_len d b s) eqn:E1; [|discriminate]. destruct (slice_lens sh bs ss) eqn:E2; [|discriminate]. inversion F; subst. inversion G; subst. cbn [zip2]. constructor; [|eapply IH; eauto].
  eapply dyn_good; eauto.
Qed.
Lemma slice_dyn_ok {A} (zero : A) opset bits bs ss (x y : tensor A) e others : wf x -> (2 <= bits)%Z -> Forall (fun d => Z.of_nat d < 2 ^ (bits - 1) - 1)%Z (shape x) ->
  Forall2 (fun b s => s = (-1)%Z -> (b <= 1)%Z) bs ss ->
  tf_slice bs ss x = Some y -> slice opset bits None = Some e -> eval zero opset (D x :: I (tvec bs) :: I (tvec ss) :: others) e = Some (D y).
Proof.
  intros W Hb F G TF P. assert (TF' := TF). unfold tf_slice in TF'. destruct (slice_lens (shape x) bs ss) eqn:E; [|discriminate]. clear TF'.
  assert (Ge := dyn_goods _ _ _ _ _ Hb E F G). assert (Fs := f_slice_tf _ _ _ _ _ W TF Ge). destruct (slice_lens_len _ _ _ _ E) as [L1 L2].
  unfold slice in P. destruct (Nat.ltb opset 10) eqn:O; [discriminate|]. injection P as <-. set (env := D x :: I (tvec bs) :: I (tvec ss) :: others).
  assert (Ed : eval zero opset env (dyn_slice_ends bits (Inp 1) (Inp 2)) = Some (I (tvec (zip2 (dyn_end bits) bs ss)))) by (apply ev_dyn_ends; auto; congruence).
  rewrite (ev3 zero opset env _ (Inp 0) (Inp 1) _ (D x) (I (tvec bs)) _ eq_refl eq_refl Ed). cbn [apply]. rewrite O. cbn [ints obind lift]. rewrite !as_vec_tvec. cbn [obind]. now rewrite Fs.
Qed.

(** ** Gather *)
Lemma swap_blocks {T} P X Y Q (t : tensor T) : wf t -> shape t = P ++ X ++ Y ++ Q ->
  let perm := seq 0 (length P) ++ seq (length P + length X) (length Y) ++ seq (length P) (length X) ++ seq (length P + length X + length Y) (length Q) in
  exists y, f_transpose (Some perm) t = Some y /\ wf y /\ shape y = P ++ Y ++ X ++ Q /\
    forall p x0 y0 q, inb p P -> inb x0 X -> inb y0 Y -> inb q Q -> get y (p ++ y0 ++ x0 ++ q) = get t (p ++ x0 ++ y0 ++ q).
Proof.
  intros W S0 perm.
  assert (Pk : forall a b c d : list nat, length a = length P -> length b = length X -> length c = length Y -> length d = length Q -> pick perm (a ++ b ++ c ++ d) = a ++ c ++ b ++ d).
  { intros a b c d La Lb Lc Ld. unfold perm. rewrite <- La, <- Lb, <- Lc, <- Ld. unfold pick. rewrite !map_app. fold (pick (seq 0 (length a)) (a ++ b ++ c ++ d)).
    fold (pick (seq (length a + length b) (length c)) (a ++ b ++ c ++ d)). fold (pick (seq (length a) (length b)) (a ++ b ++ c ++ d)). fold (pick (seq (length a + length b + length c) (length d)) (a ++ b ++ c ++ d)).
    assert (K0 := pick_seq_mid [] a (b ++ c ++ d)). cbn [length app] in K0. rewrite K0, (pick_seq_mid a b (c ++ d)). rewrite <- (app_length a b).
    rewrite <- (app_length (a ++ b) c). rewrite !(app_assoc a b). rewrite (pick_seq_mid (a ++ b) c d).
    rewrite (app_assoc (a ++ b) c d). assert (K := pick_seq_mid ((a ++ b) ++ c) d []). rewrite app_nil_r in K. now rewrite K. }
  assert (Ip : is_perm perm (length (shape t))).
  { unfold is_perm, perm. rewrite S0, !app_length. rewrite seq_app. apply Permutation_app_head. cbn [Nat.add].
    rewrite (seq_app (length X)), (seq_app (length Y)). rewrite !app_assoc. apply Permutation_app_tail, Permutation_app_comm. }
  destruct (transpose_spec perm t W Ip) as (y & Dy & Sy & Wy & Gy). exists y. split; auto. split; auto. split; [rewrite Sy, S0; now apply Pk|].
  intros p x0 y0 q Hp Hx Hy Hq. rewrite <- Gy.
  - rewrite Pk; auto using inb_length.
  - rewrite S0. rewrite !inb_app; auto using inb_length.
Qed.
Lemma py_bound_nat n k : py_bound n (Z.of_nat k) = Nat.min k n.
Proof. unfold py_bound. rewrite (proj2 (Z.ltb_ge _ 0)) by lia. lia. Qed.
Lemma firstn_seq k a n : k <= n -> firstn k (seq a n) = seq a k.
Proof. revert a n. induction k as [|k IH]; intros a [|n] H; cbn; auto; [lia|]. f_equal. apply IH. lia. Qed.
Lemma skipn_seq k a n : skipn k (seq a n) = seq (a + k) (n - k).
Proof. revert a n. induction k as [|k IH]; intros a [|n]; cbn; auto; [now rewrite Nat.add_0_r|]. rewrite IH. f_equal. lia. Qed.
Lemma py_slice_mid n lo hi : lo <= hi -> hi <= n -> py_slice (seq 0 n) (Some (Z.of_nat lo)) (Some (Z.of_nat hi)) = seq lo (hi - lo).
Proof. intros. unfold py_slice. rewrite seq_length, !py_bound_nat, !Nat.min_l by lia. rewrite skipn_seq, firstn_seq by lia. reflexivity. Qed.
Lemma py_slice_to n hi : hi <= n -> py_slice (seq 0 n) None (Some (Z.of_nat hi)) = seq 0 hi.
Proof. intros. unfold py_slice. rewrite seq_length, py_bound_nat, Nat.min_l by lia. cbn [skipn]. rewrite firstn_seq by lia. f_equal; lia. Qed.
Lemma py_slice_from n lo : lo <= n -> py_slice (seq 0 n) (Some (Z.of_nat lo)) None = seq lo (n - lo).
Proof. intros. unfold py_slice. rewrite seq_length, py_bound_nat, Nat.min_l by lia. rewrite skipn_seq, firstn_seq by lia. reflexivity. Qed.
Lemma data_perm_is (b a c : list nat) (d : nat) :
  data_perm (length (b ++ a ++ d :: c)) (Z.of_nat (length b)) (Z.of_nat (length b + length a)) =
  seq 0 (length b) ++ seq (length b + length a) 1 ++ seq (length b) (length a) ++ seq (length b + length a + 1) (length c).
Proof.
  unfold data_perm. cbv zeta. replace (Z.of_nat (length b + length a) + 1)%Z with (Z.of_nat (length b + length a + 1)) by lia.
  rewrite !app_length. cbn [length]. rewrite py_slice_to, !py_slice_mid, py_slice_from by lia. repeat (f_equal; try lia).
Qed.
Lemma result_unperm_is (b a c i : list nat) (d : nat) :
  result_unperm (length (b ++ a ++ d :: c)) (length (b ++ i)) (Z.of_nat (length b)) (Z.of_nat (length b + length a)) =
  seq 0 (length b) ++ seq (length b + length i) (length a) ++ seq (length b) (length i) ++ seq (length b + length i + length a) (length c).
Proof.
  unfold result_unperm. cbv zeta. replace (Z.of_nat (length (b ++ i)) + (Z.of_nat (length b + length a) - Z.of_nat (length b)))%Z with (Z.of_nat (length b + length i + length a)) by (rewrite app_length; lia).
  match goal with |- context [Z.to_nat ?z] => replace (Z.to_nat z) with (length b + length i + length a + length c) by (rewrite !app_length; cbn [length]; lia) end.
  rewrite !app_length. rewrite py_slice_to, !py_slice_mid, py_slice_from by lia. repeat (f_equal; try lia).
Qed.
Lemma norm_index_1 d sh v : (0 <= v < Z.of_nat d)%Z -> norm_index (d :: sh) [v] = Some [Z.to_nat v].
Proof. intro H. cbn [norm_index]. unfold norm_axis. rewrite (proj2 (Z.leb_le 0 v)), (proj2 (Z.ltb_lt v _)) by lia. destruct sh; reflexivity. Qed.
Lemma app_cut {X} (l m : list X) n : length l = n -> firstn n (l ++ m) = l /\ skipn n (l ++ m) = m.
Proof. intros <-. rewrite firstn_app, skipn_app, Nat.sub_diag, firstn_all, skipn_all. cbn. now rewrite app_nil_r. Qed.
Lemma inb_split3 ix P X Q : inb ix (P ++ X ++ Q) -> exists p x q, ix = p ++ x ++ q /\ inb p P /\ inb x X /\ inb q Q.
Proof.
  intro H. assert (L := inb_length _ _ H). rewrite !app_length in L.
  assert (E := firstn_skipn (length P) ix). assert (L1 : length (firstn (length P) ix) = length P) by (rewrite firstn_length; lia).
  rewrite <- E in H. apply inb_app in H; auto. destruct H as [H1 H2].
  assert (E2 := firstn_skipn (length X) (skipn (length P) ix)).
  assert (L2 : length (firstn (length X) (skipn (length P) ix)) = length X) by (rewrite firstn_length, skipn_length; lia).
  rewrite <- E2 in H2. apply inb_app in H2; auto. destruct H2 as [H2 H3].
  exists (firstn (length P) ix), (firstn (length X) (skipn (length P) ix)), (skipn (length X) (skipn (length P) ix)). rewrite E2, E. auto.
Qed.
Lemma gather_nd_1 {T} b d rest i (t : tensor T) (idx : tensor Z) : wf t -> shape t = b ++ d :: rest -> shape idx = b ++ i ->
  (forall p x q, inb p b -> inb x i -> inb q rest -> exists v, get idx (p ++ x) = Some v /\ (0 <= v < Z.of_nat d)%Z) ->
  exists z, f_gather_nd (length b) t (Tensor (shape idx ++ [1]) (data idx)) = Some z /\ wf z /\ shape z = b ++ i ++ rest /\
    forall p x q v, inb p b -> inb x i -> inb q rest -> get idx (p ++ x) = Some v -> get z (p ++ x ++ q) = get t (p ++ Z.to_nat v :: q).
Proof.
  intros W St Si H. unfold f_gather_nd. cbn [shape]. rewrite last_last. rewrite app_length. cbn [length]. rewrite Nat.add_sub.
  assert (C : Nat.ltb (length b) (length (shape idx) + 1) && Nat.leb 1 1 && Nat.leb (length b + 1) (length (shape t)) && list_eqb (firstn (length b) (shape idx ++ [1])) (firstn (length b) (shape t)) = true).
  { rewrite Si, St, <- app_assoc. destruct (app_cut b (i ++ [1]) _ eq_refl) as [-> _]. destruct (app_cut b (d :: rest) _ eq_refl) as [-> _].
    rewrite !andb_true_iff, Nat.ltb_lt, !Nat.leb_le, !app_length. cbn [length]. repeat split; try lia. unfold list_eqb. destruct list_eq_dec; congruence. }
  rewrite C. destruct (app_cut (shape idx) [1] _ eq_refl) as [-> _].
  assert (K : skipn (length b + 1) (shape t) = rest). { rewrite St. replace (b ++ d :: rest) with ((b ++ [d]) ++ rest) by (now rewrite <- app_assoc). apply (app_cut (b ++ [d]) rest). rewrite app_length. reflexivity. }
  assert (K2 : skipn (length b) (shape t) = d :: rest) by (rewrite St; apply (app_cut b); reflexivity).
  rewrite K, K2, Si, <- app_assoc.
  match goal with |- exists z0, build _ ?g = Some z0 /\ _ => set (f := g) end.
  assert (Q : forall p x q v, inb p b -> inb x i -> inb q rest -> get idx (p ++ x) = Some v -> (0 <= v < Z.of_nat d)%Z -> f (p ++ x ++ q) = get t (p ++ Z.to_nat v :: q)).
  { intros p x q v Hp Hx Hq Hv Hr. unfold f. assert (Lp := inb_length _ _ Hp). assert (Lx := inb_length _ _ Hx).
    rewrite (app_assoc p x q). assert (Lpx : length (p ++ x) = length (b ++ i)) by (rewrite !app_length; lia).
    destruct (app_cut (p ++ x) q _ Lpx) as [-> ->]. rewrite <- (app_assoc p x q). destruct (app_cut p (x ++ q) _ Lp) as [-> _].
    cbn [seq map sequence]. assert (G : get (Tensor ((b ++ i) ++ [1]) (data idx)) ((p ++ x) ++ [0]) = get idx (p ++ x)).
    { assert (G := get_ones (b ++ i) [] idx (p ++ x) [] Lpx). rewrite !app_nil_r in G. apply G. exact Si. }
    rewrite G, Hv. rewrite norm_index_1 by auto. reflexivity. }
  destruct (build_ex (b ++ i ++ rest) f) as (z & Bz & Sz & Wz & Gz).
  - intros ix Hi. apply inb_split3 in Hi. destruct Hi as (p & x & q & -> & Hp & Hx & Hq). destruct (H p x q Hp Hx Hq) as (v & Hv & Hr).
    rewrite (Q _ _ _ v) by auto. apply get_some; auto. rewrite St. apply inb_mid; auto. lia.
  - exists z. split; auto. split; auto. split; auto. intros p x q v Hp Hx Hq Hv. rewrite Gz.
    + apply Q; auto. destruct (H p x q Hp Hx Hq) as (v' & Hv' & Hr). congruence.
    + rewrite !inb_app; auto using inb_length.
Qed.
Lemma unsqueeze_last {T} (t : tensor T) : f_unsqueeze [(-1)%Z] t = Some (Tensor (shape t ++ [1]) (data t)).
Proof.
  assert (U := unsqueeze_mid (shape t) [] t). rewrite app_nil_r in U. specialize (U eq_refl). rewrite <- U. unfold f_unsqueeze. cbn [length norm_axes].
  rewrite seq_axis by lia. replace (norm_axis (length (shape t) + 1) (-1)) with (Some (length (shape t))); auto.
  unfold norm_axis. cbn [Z.leb Z.compare]. destruct (Z.leb_spec (- Z.of_nat (length (shape t) + 1)) (-1)); [|lia]. f_equal. lia.
Qed.
(** the parts of the shapes of a defined gather *)
Lemma tf_gather_inv {A} axis (n : nat) (x y : tensor A) idx : tf_gather axis (Z.of_nat n) x idx = Some y ->
  exists b a d c i, shape x = b ++ a ++ d :: c /\ shape idx = b ++ i /\ length b = n /\ norm_axis (length (shape x)) axis = Some (length b + length a) /\
    wf y /\ shape y = b ++ a ++ i ++ c /\
    forall p u w q, inb p b -> inb u a -> inb w i -> inb q c -> exists v, get idx (p ++ w) = Some v /\ (0 <= v < Z.of_nat d)%Z /\
      get y (p ++ u ++ w ++ q) = get x (p ++ u ++ Z.to_nat v :: q).
Proof.
  intro TF. unfold tf_gather in TF. cbv zeta in TF. rewrite (proj2 (Z.ltb_ge (Z.of_nat n) 0)) in TF by lia. rewrite Nat2Z.id in TF.
  destruct (norm_axis (length (shape x)) axis) as [ax|] eqn:Ea; [|discriminate]. destruct (_ && _ && _ && _) eqn:C in TF; [|discriminate].
  rewrite !andb_true_iff, !Nat.leb_le in C. destruct C as (((_ & C1) & C2) & C3). unfold list_eqb in C3. destruct list_eq_dec as [C4|]; [|discriminate]. clear C3.
  assert (Hx := norm_axis_lt _ _ _ Ea). destruct (mid_axis 0 (shape x) ax Hx) as [Sx Lp]. set (d := nth ax (shape x) 0) in *.
  assert (E1 := firstn_skipn n (firstn ax (shape x))). rewrite firstn_firstn, Nat.min_l in E1 by lia.
  set (b := firstn n (shape x)) in *. set (a := skipn n (firstn ax (shape x))) in *. set (c := skipn (S ax) (shape x)) in *. set (i := skipn n (shape idx)) in *.
  assert (Lb : length b = n) by (unfold b; rewrite firstn_length; lia). assert (La : length b + length a = ax) by (rewrite <- app_length, E1; exact Lp).
  assert (Si : shape idx = b ++ i) by (rewrite <- C4; symmetry; apply firstn_skipn).
  rewrite <- E1, <- app_assoc in Sx. destruct (build_spec _ _ _ TF) as (Sy & Wy & Gy). rewrite <- E1, <- app_assoc in Sy, Gy.
  exists b, a, d, c, i. rewrite La. split; [exact Sx|]. do 3 (split; [auto|]). split; [exact Wy|]. split; [exact Sy|].
  intros p u w q Hp Hu Hw Hq. assert (I0 : inb (p ++ u ++ w ++ q) (b ++ a ++ i ++ c)) by (rewrite !inb_app; auto using inb_length).
  assert (G := Gy _ I0). assert (Lpp := inb_length _ _ Hp). assert (Luu := inb_length _ _ Hu). assert (Lww := inb_length _ _ Hw).
  assert (Lpu : length (p ++ u) = ax) by (rewrite app_length; lia).
  assert (N : get y (p ++ u ++ w ++ q) <> None) by (apply get_some; auto; rewrite Sy; auto).
  revert G. destruct (app_cut p (u ++ w ++ q) n ltac:(lia)) as [-> _]. rewrite (app_assoc p u (w ++ q)). destruct (app_cut (p ++ u) (w ++ q) ax Lpu) as [-> ->].
  assert (Lw : length w = length (shape idx) - n) by (rewrite Si, app_length; lia). destruct (app_cut w q _ Lw) as [-> _].
  rewrite (app_assoc (p ++ u) w q). destruct (app_cut ((p ++ u) ++ w) q (ax + (length (shape idx) - n)) ltac:(rewrite app_length; lia)) as [_ ->].
  rewrite <- !app_assoc in *. destruct (get idx (p ++ w)) as [v|]; [|congruence]. destruct (Z.leb_spec 0 v), (Z.ltb_spec v (Z.of_nat d)); cbn [andb]; intro G; try congruence.
  exists v. repeat split; auto. rewrite G. now rewrite <- app_assoc.
Qed.
Lemma gather_1_ok {A} (zero : A) opset axis (x y : tensor A) idx others : wf x ->
  tf_gather axis 0 x idx = Some y -> eval zero opset (D x :: I idx :: others) (gather_1 axis) = Some (D y).
Proof.
  intros W TF. destruct (tf_gather_inv axis 0 x y idx TF) as (b & a & d & c & i & Sx & Si & Lb & Ea & Wy & Sy & Gy).
  destruct b; [|discriminate]. cbn [app length Nat.add] in *. cbn [gather_1 eval map sequence nth_error obind apply lift]. unfold gather_1. cbn [eval map sequence nth_error obind apply lift].
  unfold f_gather. rewrite Ea, Si. rewrite Sx in *. rewrite nth_mid. destruct (firstn_mid a d c) as (-> & -> & _).
  rewrite (build_is _ _ y); auto. rewrite <- Sy. rewrite Sy. intros ix Hi. apply inb_split3 in Hi. destruct Hi as (u & w & q & -> & Hu & Hw & Hq).
  destruct (Gy [] u w q) as (v & Ev & Hv & G); auto; [exact Logic.I|]. cbn [app] in *. rewrite G. assert (Lu := inb_length _ _ Hu). assert (Lw := inb_length _ _ Hw).
  destruct (app_cut u (w ++ q) _ Lu) as [-> ->]. destruct (app_cut w q _ Lw) as [-> _]. rewrite Ev. unfold norm_axis. rewrite (proj2 (Z.leb_le 0 v)), (proj2 (Z.ltb_lt v _)) by lia.
  rewrite (app_assoc u w q). destruct (app_cut (u ++ w) q (length a + length i)) as [_ ->]; [rewrite app_length; lia|]. reflexivity.
Qed.
Lemma gather_v2_ok {A} (zero : A) opset axis (n : nat) (dr ir : option nat) (x y : tensor A) idx e others : wf x -> n = 0 \/ (0 <= axis)%Z ->
  (dr = Some (length (shape x)) \/ dr = None) -> (ir = Some (length (shape idx)) \/ ir = None) ->
  tf_gather axis (Z.of_nat n) x idx = Some y -> gather_v2 opset (Some axis) (Z.of_nat n) dr ir = Some e ->
  eval zero opset (D x :: I idx :: others) e = Some (D y).
Proof.
  intros W Hn Hdr Hir TF P. unfold gather_v2 in P. destruct (Z.eqb_spec (Z.of_nat n) 0) as [En|En].
  { rewrite En in TF. injection P as <-. now apply gather_1_ok. }
  destruct (Nat.ltb opset 12) eqn:O; [discriminate|]. apply Nat.ltb_ge in O. destruct Hn as [Hn|Hn]; [lia|].
  destruct (tf_gather_inv axis n x y idx TF) as (b & a & d & c & i & Sx & Si & Lb & Ea & Wy & Sy & Gy).
  assert (Eax : axis = Z.of_nat (length b + length a)).
  { unfold norm_axis in Ea. rewrite (proj2 (Z.leb_le 0 axis)) in Ea by lia. destruct (Z.ltb axis _); [|discriminate]. injection Ea as Ea. lia. }
  set (env := D x :: I idx :: others).
  assert (Ei : eval zero opset env (make_unsqueeze opset [(-1)%Z] (Op Cast [Inp 1])) = Some (I (Tensor (shape idx ++ [1]) (data idx)))).
  { assert (Ec : eval zero opset env (Op Cast [Inp 1]) = Some (I idx)) by reflexivity.
    rewrite (ev_unsqueeze zero opset env _ _ _ Ec). cbn [lift]. now rewrite unsqueeze_last. }
  assert (ND : forall t0 e0, eval zero opset env e0 = Some (D t0) ->
    eval zero opset env (Op (GatherND (Z.of_nat n)) [e0; make_unsqueeze opset [(-1)%Z] (Op Cast [Inp 1])]) = option_map D (f_gather_nd (length b) t0 (Tensor (shape idx ++ [1]) (data idx)))).
  { intros t0 e0 E0. rewrite (ev2 zero opset env _ _ _ _ _ E0 Ei). cbn [apply]. rewrite (proj2 (Z.eqb_neq (Z.of_nat n) 0)) by auto.
    rewrite (proj2 (Nat.ltb_ge opset 12)) by lia. rewrite (proj2 (Z.ltb_ge (Z.of_nat n) 0)) by lia. cbn [orb lift]. now rewrite Nat2Z.id, Lb. }
  destruct (Z.eqb_spec axis (Z.of_nat n)) as [Ean|Ean].
  - injection P as <-. rewrite (ND x (Inp 0) eq_refl). destruct a; [|cbn in Eax; lia]. cbn [app] in *.
    destruct (gather_nd_1 b d c i x idx W Sx Si) as (z & Dz & Wz & Sz & Gz).
    { intros p w q Hp Hw Hq. destruct (Gy p [] w q) as (v & H1 & H2 & _); auto; [exact Logic.I|]. eauto. }
    rewrite Dz. cbn [option_map]. do 2 f_equal. apply tensor_ext; auto; [congruence|]. rewrite Sz. intros ix Hx. apply inb_split3 in Hx. destruct Hx as (p & w & q & -> & Hp & Hw & Hq).
    destruct (Gy p [] w q) as (v & H1 & H2 & G); auto; [exact Logic.I|]. cbn [app] in G. rewrite G. apply Gz; auto.
  - destruct Hdr as [-> | ->]; [|discriminate]. destruct Hir as [-> | ->]; [|discriminate]. injection P as <-.
    rewrite <- Lb in *. rewrite Eax, Sx, Si, result_unperm_is, data_perm_is.
    destruct (swap_blocks b a [d] c x W Sx) as (t1 & D1 & W1 & S1 & G1). cbn [length] in D1.
    assert (E1 : eval zero opset env (Op (Transpose (Some (seq 0 (length b) ++ seq (length b + length a) 1 ++ seq (length b) (length a) ++ seq (length b + length a + 1) (length c)))) [Inp 0]) = Some (D t1)).
    { rewrite (ev1 zero opset env _ (Inp 0) (D x) eq_refl). cbn [apply lift]. now rewrite D1. }
    destruct (gather_nd_1 b d (a ++ c) i t1 idx W1 S1 Si) as (z & Dz & Wz & Sz & Gz).
    { intros p w q Hp Hw Hq. apply (inb_split3 _ [] a c) in Hq. destruct Hq as (q0 & u & q1 & -> & Hq0 & Hu & Hq1). destruct (Gy p u w q1) as (v & H1 & H2 & _); auto. eauto. }
    assert (E2 := ND _ _ E1). rewrite Dz in E2. cbn [option_map] in E2.
    rewrite (ev1 zero opset env _ _ _ E2). cbn [apply lift].
    destruct (swap_blocks b i a c z Wz Sz) as (t2 & D2 & W2 & S2 & G2). rewrite D2. cbn [option_map]. do 2 f_equal.
    apply tensor_ext; auto; [congruence|]. rewrite S2. intros ix Hx. apply inb_split3 in Hx. destruct Hx as (p & u & q & -> & Hp & Hu & Hq).
    apply (inb_split3 _ [] i c) in Hq. destruct Hq as (q0 & w & q1 & -> & Hq0 & Hw & Hq1). destruct q0; [|contradiction]. cbn [app] in *.
    destruct (Gy p u w q1) as (v & H1 & H2 & G); auto. rewrite G, G2 by auto. rewrite (Gz p w (u ++ q1) v); auto.
    + apply (G1 p u [Z.to_nat v] q1); auto. cbn. lia.
    + rewrite inb_app; auto using inb_length.
Qed.
