(** The general path of SpaceToBatch computes tf.space_to_batch_nd. *)
From Coq Require Import List Arith ZArith Bool Lia Permutation.
From Verif Require Import Tensor FoldModel OnnxSpec TensorProofs TOps TOpsProofs SpaceModel SpaceSpec SpaceProofs SpaceProofs2 SpaceProofs3.
Import ListNotations.
Local Open Scope list_scope.

Definition sums (l : list (nat * nat)) : list nat := map (fun '(c, d) => c + d) l.
(** what tf_space_to_batch = Some y means *)
Lemma tf_s2b_inv {A} (zero : A) block pads (x y : tensor A) : tf_space_to_batch zero block pads x = Some y ->
  exists n sp dp red, shape x = n :: sp ++ dp /\ length sp = length block /\ length pads = length block /\ Forall (fun d => 0 < d) block /\
    length red = length block /\ zip2 Nat.add sp (sums pads) = zip2 Nat.mul red block /\ wf y /\
    shape y = size block * n :: red ++ dp /\
    forall i s q, inb (i :: s ++ q) (shape y) -> length s = length block ->
      get y (i :: s ++ q) = match unpad (zip2 Nat.add (zip2 Nat.mul s block) (unravel block (i / n))) sp (map fst pads) with
                            | Some t => get x (i mod n :: t ++ q)
                            | None => Some zero
                            end.
Proof.
  unfold tf_space_to_batch. destruct (shape x) as [|n rest] eqn:Sx; [discriminate|]. cbv zeta. set (m := length block).
  destruct (Nat.leb m (length rest) && Nat.eqb (length pads) m && forallb (Nat.ltb 0) block && _) eqn:C; [|discriminate].
  rewrite !andb_true_iff in C. destruct C as (((C1 & C2) & C3) & C4). apply Nat.leb_le in C1. apply Nat.eqb_eq in C2. apply forallb_pos in C3.
  intro E. destruct (build_spec _ _ _ E) as (Sy & Wy & Gy). rewrite !map2_zip2 in *. fold (sums pads) in *.
  assert (Lsp : length (firstn m rest) = m) by (now apply firstn_len).
  assert (Lsm : length (sums pads) = m) by (unfold sums; rewrite map_length; auto).
  exists n, (firstn m rest), (skipn m rest), (zip2 Nat.div (zip2 Nat.add (firstn m rest) (sums pads)) block).
  rewrite firstn_skipn. split; auto. split; auto. split; auto. split; auto.
  split; [rewrite zip2_length; rewrite zip2_length; lia|]. split.
  { assert (Lz : length (zip2 Nat.add (firstn m rest) (sums pads)) = length block) by (rewrite zip2_length; lia).
    clear -C3 C4 Lz. revert C4 Lz. generalize (zip2 Nat.add (firstn m rest) (sums pads)). intro l. revert l. induction block as [|b block IH]; intros [|p l] H L; cbn in L; try discriminate; auto.
    inversion C3; subst. cbn [combine forallb] in H. apply andb_true_iff in H. destruct H as [H H']. apply Nat.eqb_eq in H. cbn [zip2]. rewrite <- IH by (auto; lia). f_equal.
    rewrite (Nat.div_mod p b) at 1 by lia. lia. }
  split; auto. split; auto. intros i s q Ix Ls. rewrite Sy in Ix. rewrite (Gy _ Ix). rewrite !map2_zip2. destruct (split_app m s q Ls) as [-> ->]. reflexivity.
Qed.

Lemma get_rows {T} k (rows : list (T * T)) i j : j < 2 -> get (Tensor [k; 2] (flat2 rows)) [i; j] = option_map (if Nat.eqb j 0 then fst else snd) (nth_error rows i).
Proof.
  intro Hj. unfold get. cbn [shape data ravel]. unfold size. cbn [fold_right]. destruct (flat2_nth rows i) as [E0 E1]. rewrite !nth_error_map in *.
  destruct j as [|[|j]]; [| |lia]; cbn [Nat.eqb].
  - rewrite <- E0. f_equal. lia.
  - rewrite <- E1. reflexivity.
Qed.
Lemma pad_rows_spec a b rows : f_pad 0%Z (map Z.of_nat [a; 0; b; 0]) (Tensor [length rows; 2] (flat2 rows)) =
  Some (Tensor [a + (length rows + b); 2] (flat2 (repeat (0%Z, 0%Z) a ++ rows ++ repeat (0%Z, 0%Z) b))).
Proof.
  destruct (pad_spec 0%Z [a; 0] [b; 0] (Tensor [length rows; 2] (flat2 rows))) as (y & E & W & Sy & G); auto.
  { unfold wf. cbn [shape data]. rewrite flat2_length, !size_cons. change (size []) with 1. lia. }
  cbn [app] in E. rewrite E. f_equal. cbn [shape addix] in Sy. change (0 + (2 + 0)) with 2 in Sy.
  apply tensor_ext; auto.
  { unfold wf. cbn [shape data]. rewrite flat2_length, !app_length, !repeat_length, !size_cons. change (size []) with 1. lia. }
  intros ix Ix. rewrite (G _ Ix). rewrite Sy in Ix. destruct ix as [|i [|j [|k ix]]]; cbn in Ix; try tauto. destruct Ix as (Ii & Ij & _). rewrite get_rows by auto.
  cbn [shape pad_src]. cbn [Nat.leb]. replace (j - 0) with j by lia. destruct (Nat.ltb_spec j 2); [|lia]. cbn [andb option_map].
  destruct (Nat.leb_spec a i); cbn [andb].
  - rewrite nth_error_app2 by (rewrite repeat_length; auto). rewrite repeat_length. destruct (Nat.ltb_spec (i - a) (length rows)).
    + cbn [option_map]. rewrite get_rows by auto. now rewrite nth_error_app1 by auto.
    + rewrite nth_error_app2 by auto. rewrite nth_error_repeat by lia. cbn [option_map]. now destruct (Nat.eqb j 0).
  - rewrite nth_error_app1 by (rewrite repeat_length; auto). rewrite nth_error_repeat by auto. cbn [option_map]. now destruct (Nat.eqb j 0).
Qed.
Lemma unpad_src : forall t sp bs, length t = length sp -> length bs = length sp -> unpad t sp bs = pad_src sp bs t.
Proof.
  induction t as [|v t IH]; intros [|d sp] [|b bs] L L'; cbn in L, L'; try discriminate; auto. cbn [unpad pad_src].
  destruct (Nat.leb b v && Nat.ltb (v - b) d); auto. now rewrite IH by lia.
Qed.
Lemma zip_div_mod : forall s b o, length s = length b -> inb o b ->
  zip2 Nat.div (zip2 Nat.add (zip2 Nat.mul s b) o) b = s /\ zip2 Nat.modulo (zip2 Nat.add (zip2 Nat.mul s b) o) b = o.
Proof.
  induction s as [|v s IH]; intros [|d b] [|w o] L Io; cbn in L; try discriminate; cbn [inb] in Io; try tauto; auto. destruct Io as [I1 I2].
  cbn [zip2]. destruct (IH b o) as [-> ->]; auto. split; f_equal.
  - rewrite Nat.div_add_l, Nat.div_small; lia.
  - rewrite Nat.add_comm, Nat.mod_add, Nat.mod_small; lia.
Qed.
Lemma inb_inter2 : forall red block s o, inb s red -> inb o block -> inb (inter s o) (inter red block).
Proof.
  induction red as [|r red IH]; intros [|b block] [|v s] [|w o] Is Io; cbn [inb combine flat2] in *; try tauto. repeat split; try tauto. apply IH; tauto.
Qed.
Lemma inb_mul_add : forall red block s o, inb s red -> inb o block -> inb (zip2 Nat.add (zip2 Nat.mul s block) o) (zip2 Nat.mul red block).
Proof.
  induction red as [|r red IH]; intros [|b block] [|v s] [|w o] Is Io; cbn [inb zip2] in *; try tauto. destruct Io, Is. split; [nia|auto].
Qed.
Lemma addix_zip2 : forall a b, addix a b = zip2 Nat.add a b.
Proof. induction a as [|x a IH]; intros [|y b]; cbn [addix zip2]; auto. now rewrite IH. Qed.
Lemma zip_pads : forall sp pads, zip2 Nat.add (map fst pads) (zip2 Nat.add sp (map snd pads)) = zip2 Nat.add sp (sums pads).
Proof.
  induction sp as [|d sp IH]; intros [|[a b] pads]; cbn [map zip2 sums fst snd]; auto. fold (sums pads). rewrite IH. f_equal. lia.
Qed.

Section S2B.
Context {A : Type} (zero : A) (opset : nat) (block : list nat) (x y : tensor A) (pads : list (nat * nat)) (other : value A).
Hypothesis Hop : 11 <= opset.
Hypothesis Hm : 1 <= length block.
Hypothesis Wx : wf x.
Hypothesis Rank : (Z.of_nat (length (shape x)) <= int64_max)%Z.
Hypothesis Pos : Forall (fun d => 0 < d) (tl (shape y)).
Hypothesis TF : tf_space_to_batch zero block pads x = Some y.
Notation m := (length block).
Notation env := [D x; other; I (matrix pads)].
Notation ev := (eval zero opset env).
Let xlen := length (shape x).

Lemma s2b_general_ok : exists e, s2b_general opset block xlen = Some e /\ ev e = Some (D y).
Proof.
  destruct (tf_s2b_inv _ _ _ _ _ TF) as (n & sp & dp & red & Sx & Lsp & Lc & Pb & Lred & Fit & Wy & Sy & Gy).
  assert (Xl : xlen = 1 + m + length dp) by (unfold xlen; rewrite Sx; cbn [length]; rewrite app_length; lia).
  assert (Rk : (Z.of_nat (1 + m + length dp) <= int64_max)%Z) by (rewrite <- Xl; auto).
  rewrite Sy in Pos. cbn [tl] in Pos. apply Forall_app in Pos. destruct Pos as [Pred Pdp].
  assert (E0 : ev (@input0 A) = Some (D x)) by reflexivity.
  assert (Es : ev (@x_shape A) = Some (I (tvec (znat (shape x))))).
  { unfold x_shape. rewrite (ev1 _ _ _ _ _ _ E0). cbn [apply dims]. reflexivity. }
  assert (Ep : ev (@pad_rows A) = Some (I (matrix pads))) by reflexivity.
  set (zc := map (fun '(c, d) => (Z.of_nat c, Z.of_nat d)) pads).
  assert (Lzc : length zc = m) by (unfold zc; rewrite map_length; auto).
  assert (Z1 : map fst zc = znat (map fst pads)) by (unfold zc, znat; rewrite !map_map; apply map_ext; intros [c d]; auto).
  assert (Z2 : map snd zc = znat (map snd pads)) by (unfold zc, znat; rewrite !map_map; apply map_ext; intros [c d]; auto).
  assert (Ep' : ev (@pad_rows A) = Some (I (Tensor [length zc; 2] (flat2 zc)))) by (rewrite Ep, matrix_flat2; reflexivity).
  set (g := length dp).
  assert (Eg : ev (@gapminus1 A) = Some (I (tvec [Z.of_nat g]))).
  { unfold gapminus1.
    assert (Q1 : ev (Op Size [@x_shape A]) = Some (I (Tensor [] [Z.of_nat xlen]))).
    { rewrite (ev1 _ _ _ _ _ _ Es). cbn [apply dims tvec shape]. unfold znat. rewrite map_length, size_cons. change (size []) with 1. now rewrite Nat.mul_1_r. }
    assert (Q2 : ev (Op Shape [@pad_rows A]) = Some (I (tvec [Z.of_nat m; 2%Z]))).
    { rewrite (ev1 _ _ _ _ _ _ Ep). cbn [apply dims]. unfold matrix. cbn [shape map]. rewrite Lc. reflexivity. }
    assert (Q3 : ev (Op (Slice None) [Op Shape [@pad_rows A]; vec [0%Z]; @one_const A]) = Some (I (tvec [Z.of_nat m]))).
    { erewrite ev_slice3; [|auto|exact Q2|apply ev_vec|apply ev_vec]. cbn [lift]. rewrite slice_vec. reflexivity. }
    assert (Q4 : ev (Op Sub [Op Size [@x_shape A]; Op (Slice None) [Op Shape [@pad_rows A]; vec [0%Z]; @one_const A]]) = Some (I (tvec [Z.of_nat xlen - Z.of_nat m]%Z))).
    { rewrite (ev2 _ _ _ _ _ _ _ _ Q1 Q3). cbn [apply]. now rewrite binary_scalar_1. }
    assert (E1c : ev (@one_const A) = Some (I (tvec [1%Z]))) by reflexivity.
    rewrite (ev2 _ _ _ _ _ _ _ _ Q4 E1c). cbn [apply]. rewrite binary_vec by reflexivity. cbn [option_map zip2]. do 4 f_equal. unfold g. lia. }
  assert (Et : ev (@padfilltop A) = Some (I (Tensor [length ((0%Z, 0%Z) :: zc); 2] (flat2 ((0%Z, 0%Z) :: zc))))).
  { unfold padfilltop. rewrite (ev2 _ _ _ _ _ _ _ _ Ep' (ev_vec _ _ _ _)). cbn [apply]. rewrite op11 by auto. cbn [ints]. rewrite as_vec_tvec. cbn [obind].
    change [1%Z; 0%Z; 0%Z; 0%Z] with (map Z.of_nat [1; 0; 0; 0]). rewrite pad_rows_spec. cbn [option_map repeat app length]. rewrite app_nil_r, Nat.add_0_r. reflexivity. }
  assert (Eb : ev (@padfilltopbottom A) = Some (I (Tensor [length ((0%Z, 0%Z) :: zc ++ repeat (0%Z, 0%Z) g); 2] (flat2 ((0%Z, 0%Z) :: zc ++ repeat (0%Z, 0%Z) g))))).
  { unfold padfilltopbottom.
    assert (Q : ev (Op Mul [vec [0%Z; 0%Z; 1%Z; 0%Z]; @gapminus1 A]) = Some (I (tvec (map Z.of_nat [0; 0; g; 0])))).
    { rewrite (ev2 _ _ _ _ _ _ _ _ (ev_vec _ _ _ _) Eg). cbn [apply]. rewrite binary_vec_1 by (cbn; lia). cbn [map option_map]. do 4 f_equal. f_equal. f_equal. lia. }
    rewrite (ev2 _ _ _ _ _ _ _ _ Et Q). cbn [apply]. rewrite op11 by auto. cbn [ints]. rewrite as_vec_tvec. cbn [obind].
    rewrite pad_rows_spec. cbn [option_map repeat app length]. rewrite app_length, repeat_length. reflexivity. }
  set (bs := 0 :: map fst pads ++ repeat 0 g). set (as_ := 0 :: map snd pads ++ repeat 0 g).
  assert (E1d : ev (@pad1d A) = Some (I (tvec (map Z.of_nat (bs ++ as_))))).
  { unfold pad1d. erewrite ev_reshape; [| |apply ev_vec].
    2:{ rewrite (ev1 _ _ _ _ _ _ Eb). cbn [apply lift]. rewrite transpose_rows. cbn [option_map]. reflexivity. }
    cbn [lift]. rewrite reshape_flat.
    - cbn [option_map data]. do 3 f_equal. unfold bs, as_. rewrite map_app. cbn [map]. rewrite !map_app. rewrite Z1, Z2. unfold znat. cbn [fst snd].
      assert (Rp : forall (f : Z * Z -> Z) k, f (0%Z, 0%Z) = 0%Z -> map f (repeat (0%Z, 0%Z) k) = map Z.of_nat (repeat 0 k)).
      { intros f k Hf. induction k as [|k IH]; auto. cbn [repeat map]. now rewrite Hf, IH. }
      rewrite !Rp by reflexivity. reflexivity.
    - unfold wf. cbn [shape data]. rewrite app_length, !map_length, !size_cons. change (size []) with 1. lia. }
  assert (Lbs : length bs = length (shape x)) by (unfold bs; fold xlen; cbn [length]; rewrite app_length, map_length, repeat_length; unfold g; lia).
  assert (Las : length as_ = length (shape x)) by (unfold as_; fold xlen; cbn [length]; rewrite app_length, map_length, repeat_length; unfold g; lia).
  destruct (pad_spec zero bs as_ x Wx Lbs Las) as (x1 & P1 & W1 & S1 & G1).
  assert (Ex1 : ev (@s2b_x1 A) = Some (D x1)).
  { unfold s2b_x1. rewrite (ev2 _ _ _ _ _ _ _ _ E0 E1d). cbn [apply]. rewrite op11 by auto. cbn [ints]. rewrite as_vec_tvec. cbn [obind]. now rewrite P1. }
  set (padded := zip2 Nat.mul red block) in *.
  assert (S1' : shape x1 = n :: padded ++ dp).
  { rewrite S1, Sx. unfold bs, as_. cbn [addix]. f_equal; [lia|]. rewrite (addix_app sp) by (rewrite map_length; lia). rewrite addix_app by (rewrite map_length, addix_length; rewrite ?map_length; lia).
    unfold g. rewrite addix_zero_r, addix_zero_l. f_equal. rewrite !addix_zip2, zip_pads. exact Fit. }
  assert (Es1 : ev (@x1_shape A) = Some (I (tvec (znat (n :: padded ++ dp))))).
  { unfold x1_shape. rewrite (ev1 _ _ _ _ _ _ Ex1). cbn [apply dims]. now rewrite S1'. }
  assert (Lp : length padded = m) by (unfold padded; rewrite zip2_length; lia).
  assert (Esp := ev_spatial zero opset env Hop block _ padded dp Lp Rk _ Es1).
  assert (Edp := ev_depth zero opset env Hop block _ padded dp Lp Rk _ Es1).
  assert (Er : ev (@reduced_ A block) = Some (I (tvec (znat red)))).
  { unfold reduced_. rewrite (ev2 _ _ _ _ _ _ _ _ Esp (ev_bshape zero opset env block)). cbn [apply].
    replace (forallb (fun z => negb (z =? 0)%Z) (data (tvec (znat block)))) with true.
    2:{ symmetry. apply forallb_forall. intros z Hz. cbn [tvec data] in Hz. unfold znat in Hz. apply in_map_iff in Hz. destruct Hz as (b & <- & Hb). rewrite Forall_forall in Pb. specialize (Pb _ Hb).
        destruct (Z.eqb_spec (Z.of_nat b) 0); auto; lia. }
    rewrite binary_vec by (unfold znat; rewrite !map_length; lia). cbn [option_map]. do 3 f_equal. unfold padded.
    clear -Lred Pb. revert red Lred. induction block as [|b l IH]; intros [|r red] L; cbn in L; try discriminate; auto. inversion Pb; subst. unfold znat in *. cbn [zip2 map]. rewrite IH by (auto; lia). f_equal.
    rewrite Nat2Z.inj_mul. apply Z.quot_mul. lia. }
  assert (Ei := ev_interleave zero opset env Hop block _ red Hm Lred Er).
  assert (Esh1 : ev (@s2b_shape1 A block) = Some (I (tvec ((-1)%Z :: znat (inter red block ++ dp))))).
  { unfold s2b_shape1. erewrite (ev_concat zero opset env [[(-1)%Z]; znat (inter red block); znat dp]); [|discriminate|repeat constructor; auto].
    cbn [concat app]. unfold znat. now rewrite app_nil_r, map_app. }
  assert (Pint : Forall (fun d => 0 < d) (inter red block ++ dp)).
  { apply Forall_app. split; auto. apply size_pos. rewrite size_inter, size_zip_mul by lia. apply size_pos in Pred. apply size_pos in Pb. nia. }
  assert (Sz1 : size (shape x1) = size [] * n * size (inter red block ++ dp)).
  { rewrite S1', size_cons, !size_app, size_inter by lia. change (size []) with 1. fold padded. lia. }
  assert (Ex2 : ev (@s2b_x2 A block) = Some (D (Tensor (n :: inter red block ++ dp) (data x1)))).
  { unfold s2b_x2. erewrite ev_reshape; [|exact Ex1|exact Esh1]. cbn [lift]. change ((-1)%Z :: znat (inter red block ++ dp)) with (map Z.of_nat [] ++ (-1)%Z :: map Z.of_nat (inter red block ++ dp)).
    rewrite reshape_infer with (n := n); auto. }
  set (x2 := Tensor (n :: inter red block ++ dp) (data x1)) in *.
  assert (Wx2 : wf x2). { unfold wf, x2. cbn [shape data]. rewrite W1, Sz1, size_cons. change (size []) with 1. lia. }
  assert (R2 : length (shape x2) = xlen + m) by (unfold x2; cbn [shape length]; rewrite app_length, inter_length; lia).
  destruct (transpose_spec (gperm block xlen) x2 Wx2) as (x3 & T3 & S3 & W3 & G3); [rewrite R2; apply gperm_perm; lia|].
  assert (Etr : ev (@s2b_tr2 A block xlen) = Some (D x3)). { unfold s2b_tr2. rewrite (ev1 _ _ _ _ _ _ Ex2). cbn [apply lift]. now rewrite T3. }
  assert (GP : forall h a b q, length a = m -> length b = m -> length q = xlen - 1 - m -> pick (gperm block xlen) (h :: inter a b ++ q) = b ++ h :: a ++ q).
  { intros. unfold pick. apply gperm_pick; auto. lia. }
  unfold x2 in S3. cbn [shape] in S3. rewrite GP in S3 by lia.
  assert (Esh2 : ev (@s2b_shape2 A block) = Some (I (tvec ((-1)%Z :: znat (red ++ dp))))).
  { unfold s2b_shape2. erewrite (ev_concat zero opset env [[(-1)%Z]; znat red; znat dp]); [|discriminate|repeat constructor; auto].
    cbn [concat app]. unfold znat. now rewrite app_nil_r, map_app. }
  unfold s2b_general. rewrite op11 by auto. eexists. split; [reflexivity|].
  erewrite ev_reshape; [|exact Etr|exact Esh2]. cbn [lift]. change ((-1)%Z :: znat (red ++ dp)) with (map Z.of_nat [] ++ (-1)%Z :: map Z.of_nat (red ++ dp)).
  rewrite reshape_infer with (n := size block * n); [|constructor|now apply Forall_app|].
  2:{ rewrite S3. rewrite (size_app block), size_cons. change (size []) with 1. lia. }
  cbn [option_map app]. do 2 f_equal. apply tensor_ext; auto.
  { unfold wf. cbn [shape data]. rewrite W3, S3, (size_app block), !size_cons. lia. }
  intros ix Ix. cbn [shape] in Ix. destruct ix as [|i jx]; [destruct Ix|]. cbn [inb] in Ix. destruct Ix as [Ii Ij].
  assert (Dj : exists s q, jx = s ++ q /\ inb s red /\ inb q dp).
  { exists (firstn m jx), (skipn m jx). split; [now rewrite firstn_skipn|]. rewrite <- (firstn_skipn m jx) in Ij. apply inb_app in Ij; auto.
    rewrite firstn_len; [lia|]. apply inb_length in Ij. rewrite firstn_skipn, app_length in Ij. lia. }
  destruct Dj as (s & q & -> & Is & Iq). assert (Ls : length s = m) by (apply inb_length in Is; lia). assert (Lq : length q = length dp) by (now apply inb_length in Iq).
  rewrite Gy; [|rewrite Sy; cbn [inb]; auto|auto].
  assert (Hn : n <> 0) by (intro; subst; lia). set (k := i / n). set (i0 := i mod n). set (o := unravel block k).
  assert (Hk : k < size block) by (apply Nat.div_lt_upper_bound; lia). assert (Hi0 : i0 < n) by (apply Nat.mod_upper_bound; auto).
  assert (Io : inb o block) by (now apply unravel_inb). assert (Lo : length o = m) by (now apply inb_length in Io).
  rewrite (reindex x3 (size block * n :: red ++ dp) (i :: s ++ q) (o ++ i0 :: s ++ q)).
  2:{ rewrite S3. rewrite (ravel_app block) by lia. cbn [ravel]. rewrite size_cons. unfold o. rewrite ravel_unravel by auto.
      rewrite (Nat.div_mod i n) at 1 by auto. fold k i0. nia. }
  rewrite <- (GP i0 s o q) by lia. set (u := zip2 Nat.add (zip2 Nat.mul s block) o).
  destruct (zip_div_mod s block o) as [Ud Um]; auto. fold u in Ud, Um.
  assert (Lzm : length (zip2 Nat.mul s block) = m) by (rewrite zip2_length; lia).
  assert (Lu : length u = m) by (unfold u; rewrite zip2_length; lia).
  assert (Iso : inb (inter s o) (inter red block)) by (now apply inb_inter2).
  rewrite G3. 2:{ unfold x2. cbn [shape inb]. split; auto. apply inb_app; [rewrite !inter_length; lia|]. auto. }
  unfold x2. rewrite (reindex x1 _ _ (i0 :: u ++ q)).
  2:{ rewrite S1'. cbn [ravel]. rewrite !ravel_app by (rewrite ?inter_length; lia). rewrite <- Ud, <- Um at 1. rewrite ravel_inter by (auto; lia). fold padded.
      rewrite !size_app, size_inter by lia. fold padded. reflexivity. }
  assert (Iu : inb u padded) by (now apply inb_mul_add).
  rewrite G1 by (rewrite S1'; cbn [inb]; split; auto; apply inb_app; [lia|auto]).
  rewrite Sx. unfold bs. change (n :: sp ++ dp) with ([n] ++ sp ++ dp). change (0 :: map fst pads ++ repeat 0 g) with (repeat 0 (length [n]) ++ map fst pads ++ repeat 0 g).
  change (i0 :: u ++ q) with ([i0] ++ u ++ q). rewrite pad_src_app by reflexivity. rewrite pad_src_zero by (cbn; auto).
  rewrite pad_src_app by (rewrite ?map_length; lia). unfold g. rewrite pad_src_zero by auto. rewrite unpad_src by (rewrite ?map_length; lia).
  destruct (pad_src sp (map fst pads) u); reflexivity.
Qed.
End S2B.
