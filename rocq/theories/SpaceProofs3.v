(** The general path of BatchToSpace computes tf.batch_to_space. *)
From Coq Require Import List Arith ZArith Bool Lia Permutation.
From Verif Require Import Tensor FoldModel OnnxSpec TensorProofs TOps TOpsProofs SpaceModel SpaceSpec SpaceProofs SpaceProofs2.
Import ListNotations.
Local Open Scope list_scope.

Lemma forallb_pos block : forallb (Nat.ltb 0) block = true -> Forall (fun d => 0 < d) block.
Proof. intro H. apply Forall_forall. intros d Hd. rewrite forallb_forall in H. apply Nat.ltb_lt. auto. Qed.
Lemma firstn_len {T} k (l : list T) : k <= length l -> length (firstn k l) = k.
Proof. intro H. rewrite firstn_length. lia. Qed.
Lemma split_app {T} m (a b : list T) : length a = m -> firstn m (a ++ b) = a /\ skipn m (a ++ b) = b.
Proof.
  intros <-. rewrite firstn_app, skipn_app, Nat.sub_diag, firstn_all, skipn_all. cbn [firstn skipn app]. now rewrite app_nil_r.
Qed.
(** what tf_batch_to_space = Some y means *)
Lemma tf_b2s_inv {A} block crops (x y : tensor A) : tf_batch_to_space block crops x = Some y ->
  exists n sp dp, shape x = size block * n :: sp ++ dp /\ length sp = length block /\ length crops = length block /\ Forall (fun d => 0 < d) block /\
    Forall2 (fun b c => fst c + snd c <= b) (zip2 Nat.mul sp block) crops /\ wf y /\
    shape y = n :: zip2 Nat.sub (zip2 Nat.mul sp block) (map (fun '(c, d) => c + d) crops) ++ dp /\
    forall i t q, inb (i :: t ++ q) (shape y) -> length t = length block ->
      get y (i :: t ++ q) = get x (ravel block (zip2 Nat.modulo (addix (map fst crops) t) block) * n + i :: zip2 Nat.div (addix (map fst crops) t) block ++ q).
Proof.
  unfold tf_batch_to_space. destruct (shape x) as [|batch rest] eqn:Sx; [discriminate|]. cbv zeta. set (m := length block).
  destruct (Nat.leb m (length rest) && Nat.eqb (length crops) m && forallb (Nat.ltb 0) block && Nat.eqb (batch mod size block) 0 && _) eqn:C; [|discriminate].
  rewrite !andb_true_iff in C. destruct C as ((((C1 & C2) & C3) & C4) & C5). apply Nat.leb_le in C1. apply Nat.eqb_eq in C2, C4. apply forallb_pos in C3.
  intro E. destruct (build_spec _ _ _ E) as (Sy & Wy & Gy). exists (batch / size block), (firstn m rest), (skipn m rest).
  assert (Pb : 0 < size block) by (now apply size_pos). rewrite firstn_skipn. rewrite !map2_zip2 in *.
  assert (Lsp : length (firstn m rest) = m) by (now apply firstn_len).
  split; [f_equal; rewrite (Nat.div_mod batch (size block)) at 1 by lia; lia|]. split; auto. split; auto. split; auto. split.
  { assert (Lz : length (zip2 Nat.mul (firstn m rest) block) = length crops) by (rewrite zip2_length; lia).
    clear -C5 Lz. revert crops C5 Lz. generalize (zip2 Nat.mul (firstn m rest) block). intro l. induction l as [|b l IH]; intros [|[c d] crops] H L; cbn in L; try discriminate; constructor.
    - cbn [combine forallb] in H. apply andb_true_iff in H. cbn [fst snd]. now apply Nat.leb_le.
    - apply IH; [|lia]. cbn [combine forallb] in H. now apply andb_true_iff in H. }
  split; auto. split; auto. intros i t q Ix Lt. rewrite Sy in Ix. rewrite (Gy _ Ix). rewrite !map2_zip2. destruct (split_app m t q Lt) as [-> ->].
  assert (Ea : zip2 Nat.add t (map fst crops) = addix (map fst crops) t).
  { clear. revert t. induction (map fst crops) as [|c l IH]; intros [|v t]; cbn [zip2 addix]; auto. rewrite IH. f_equal. lia. }
  now rewrite Ea.
Qed.

Section B2S.
Context {A : Type} (zero : A) (opset : nat) (block : list nat) (x y : tensor A) (crops : list (nat * nat)) (other : value A).
Hypothesis Hop : 11 <= opset.
Hypothesis Hm : 1 <= length block.
Hypothesis Wx : wf x.
Hypothesis Rank : (Z.of_nat (length (shape x)) <= int64_max)%Z.
Hypothesis Pos : Forall (fun d => 0 < d) (tl (shape x)).
Hypothesis TF : tf_batch_to_space block crops x = Some y.
Notation m := (length block).
Notation env := [D x; other; I (matrix crops)].
Notation ev := (eval zero opset env).
Let xlen := length (shape x).

Lemma b2s_general_ok : exists e, b2s_general opset block xlen = Some e /\ ev e = Some (D y).
Proof.
  destruct (tf_b2s_inv _ _ _ _ TF) as (n & sp & dp & Sx & Lsp & Lc & Pb & Fit & Wy & Sy & Gy).
  assert (Xl : xlen = 1 + m + length dp) by (unfold xlen; rewrite Sx; cbn [length]; rewrite app_length; lia).
  assert (Rk : (Z.of_nat (1 + m + length dp) <= int64_max)%Z) by (rewrite <- Xl; auto).
  rewrite Sx in Pos. cbn [tl] in Pos. apply Forall_app in Pos. destruct Pos as [Psp Pdp].
  assert (E0 : ev (@input0 A) = Some (D x)) by reflexivity.
  assert (Es : ev (@x_shape A) = Some (I (tvec (znat (size block * n :: sp ++ dp))))).
  { unfold x_shape. rewrite (ev1 _ _ _ _ _ _ E0). cbn [apply dims]. rewrite Sx. reflexivity. }
  assert (Esp := ev_spatial zero opset env Hop block _ sp dp Lsp Rk _ Es).
  assert (Edp := ev_depth zero opset env Hop block _ sp dp Lsp Rk _ Es).
  set (big := zip2 Nat.mul sp block) in *.
  assert (Lbig : length big = m) by (unfold big; rewrite zip2_length; lia).
  assert (Pbig : Forall (fun d => 0 < d) big) by (apply size_pos; unfold big; rewrite size_zip_mul by lia; apply size_pos in Psp; apply size_pos in Pb; nia).
  assert (Et : ev (target_spatial block) = Some (I (tvec (znat big)))).
  { unfold target_spatial. rewrite (ev2 _ _ _ _ _ _ _ _ Esp (ev_bshape zero opset env block)). cbn [apply].
    rewrite binary_vec by (unfold znat; rewrite !map_length; lia). cbn [option_map]. rewrite (zip2_of_nat Z.mul Nat.mul); [reflexivity|]. intros; lia. }
  assert (Ei := ev_interleave zero opset env Hop block _ sp Hm Lsp Esp).
  assert (E1 : ev (b2s_shape1 block) = Some (I (tvec ((-1)%Z :: inter (znat sp) (znat block) ++ znat dp)))).
  { unfold b2s_shape1. erewrite (ev_concat zero opset env [[(-1)%Z]; znat (inter sp block); znat dp]); [|discriminate|repeat constructor; auto].
    cbn [concat app]. unfold znat. rewrite app_nil_r, flat2_map. reflexivity. }
  assert (Eg : ev (b2s_gather block xlen) = Some (I (tvec (znat block ++ (-1)%Z :: znat (sp ++ dp))))).
  { unfold b2s_gather. rewrite (ev2 _ _ _ _ _ _ _ _ E1 (ev_vec _ _ _ _)). cbn [apply lift]. unfold znat at 4. rewrite <- zvec_tvec with (l := map Z.of_nat (gperm block xlen)). rewrite (gather_vec 0%Z).
    - cbn [option_map]. rewrite (gperm_pick block xlen) by (unfold znat; rewrite ?map_length; lia). unfold znat. now rewrite map_app.
    - apply Forall_forall. intros k Hk. apply (is_perm_in _ _ (gperm_perm block xlen ltac:(lia))) in Hk. cbn [length]. rewrite app_length, inter_length; unfold znat; rewrite !map_length; lia. }
  assert (Ssz : size (shape x) = size block * n * size (sp ++ dp)) by (rewrite Sx, size_cons; auto).
  assert (Ex2 : ev (b2s_x2 block xlen) = Some (D (Tensor (block ++ n :: sp ++ dp) (data x)))).
  { unfold b2s_x2. erewrite ev_reshape; [|exact E0|exact Eg]. cbn [lift]. unfold znat. rewrite reshape_infer with (n := n); auto. now apply Forall_app. }
  set (x2 := Tensor (block ++ n :: sp ++ dp) (data x)) in *.
  assert (Wx2 : wf x2). { unfold wf, x2. cbn [shape data]. rewrite Wx, Ssz, (size_app block), size_cons. lia. }
  assert (R2 : length (shape x2) = xlen + m) by (unfold x2; cbn [shape]; rewrite app_length; cbn [length]; rewrite app_length; lia).
  destruct (transpose_spec (p_perm block xlen) x2 Wx2) as (x3 & T3 & S3 & W3 & G3); [rewrite R2; apply p_perm_perm; lia|].
  assert (Etr : ev (b2s_tr2 block xlen) = Some (D x3)). { unfold b2s_tr2. rewrite (ev1 _ _ _ _ _ _ Ex2). cbn [apply lift]. now rewrite T3. }
  unfold x2 in S3. cbn [shape] in S3. rewrite p_perm_pick in S3 by lia.
  assert (Esh2 : ev (b2s_shape2 block) = Some (I (tvec ((-1)%Z :: znat (big ++ dp))))).
  { unfold b2s_shape2. erewrite (ev_concat zero opset env [[(-1)%Z]; znat big; znat dp]); [|discriminate|repeat constructor; auto].
    cbn [concat app]. unfold znat. now rewrite app_nil_r, map_app. }
  assert (Sz3 : size (shape x3) = size [] * n * size (big ++ dp)).
  { rewrite S3, size_cons, !size_app, size_inter by lia. change (size []) with 1. fold big. lia. }
  assert (Ex3 : ev (b2s_x3 block xlen) = Some (D (Tensor (n :: big ++ dp) (data x3)))).
  { unfold b2s_x3. erewrite ev_reshape; [|exact Etr|exact Esh2]. cbn [lift]. change ((-1)%Z :: znat (big ++ dp)) with (map Z.of_nat [] ++ (-1)%Z :: map Z.of_nat (big ++ dp)).
    rewrite reshape_infer with (n := n); auto. now apply Forall_app. }
  set (x4 := Tensor (n :: big ++ dp) (data x3)) in *.
  assert (Wx4 : wf x4). { unfold wf, x4. cbn [shape data]. rewrite W3, Sz3, size_cons. change (size []) with 1. lia. }
  (* crops *)
  set (zc := map (fun '(c, d) => (Z.of_nat c, Z.of_nat d)) crops).
  assert (Lzc : length zc = m) by (unfold zc; rewrite map_length; auto).
  assert (Z1 : map fst zc = znat (map fst crops)) by (unfold zc, znat; rewrite !map_map; apply map_ext; intros [c d]; auto).
  assert (Z2 : map snd zc = znat (map snd crops)) by (unfold zc, znat; rewrite !map_map; apply map_ext; intros [c d]; auto).
  assert (Ect : ev (@crop_transposed A) = Some (I (Tensor [2; m] (znat (map fst crops) ++ znat (map snd crops))))).
  { unfold crop_transposed. assert (Ec : ev (Op Cast [@input2 A]) = Some (I (matrix crops))) by reflexivity.
    rewrite (ev1 _ _ _ _ _ _ Ec). cbn [apply lift]. rewrite matrix_flat2. fold zc. rewrite transpose_rows. cbn [option_map]. now rewrite Z1, Z2, Lzc. }
  assert (Lf : length (znat (map fst crops)) = m) by (unfold znat; rewrite !map_length; auto).
  assert (Ls : length (znat (map snd crops)) = m) by (unfold znat; rewrite !map_length; auto).
  assert (Ecs : ev (make_squeeze opset [0%Z] (@crop_starts A)) = Some (I (tvec (znat (map fst crops))))).
  { erewrite ev_squeeze. 2:{ unfold crop_starts. erewrite ev_slice3; [|auto|exact Ect|apply ev_vec|apply ev_vec]. cbn [lift]. rewrite slice_row0 by (auto; lia). cbn [option_map]. reflexivity. }
    cbn [lift]. rewrite <- Lf. reflexivity. }
  assert (Ece : ev (make_squeeze opset [0%Z] (@crop_ends A)) = Some (I (tvec (znat (map snd crops))))).
  { erewrite ev_squeeze. 2:{ unfold crop_ends. erewrite ev_slice3; [|auto|exact Ect|apply ev_vec|apply ev_vec]. cbn [lift]. rewrite slice_row1 by (auto; lia). cbn [option_map]. reflexivity. }
    cbn [lift]. rewrite <- Ls. reflexivity. }
  assert (Lbc : length big = length (map snd crops)) by (rewrite map_length; lia).
  assert (Eer : ev (end_range opset block) = Some (I (tvec (znat (zip2 Nat.sub big (map snd crops)))))).
  { unfold end_range. rewrite (ev2 _ _ _ _ _ _ _ _ Et Ece). cbn [apply]. rewrite binary_vec by (unfold znat; rewrite !map_length in *; lia). cbn [option_map]. do 3 f_equal.
    clear -Fit. induction Fit as [|b [c d] l crops H F IH]; auto. cbn [map snd znat zip2]. unfold znat in *. cbn [map zip2]. rewrite IH. f_equal. cbn in H. lia. }
  unfold b2s_general. rewrite op11 by auto. eexists. split; [reflexivity|].
  erewrite ev_slice4; [|auto|exact Ex3|exact Ecs|exact Eer|apply ev_vec]. cbn [lift].
  destruct (slice_spec [n] big dp x4 (znat (map fst crops)) (znat (zip2 Nat.sub big (map snd crops)))) as (z & Sl & Wz & Sz & Gz); auto.
  { unfold znat. rewrite !map_length. lia. }
  { unfold znat. rewrite map_length, zip2_length; auto. }
  cbn [length] in Sl. unfold blocklen, znat at 3. rewrite <- Lbig, Sl. cbn [option_map]. do 2 f_equal.
  assert (Rg : zip2 seg big (combine (znat (map fst crops)) (znat (zip2 Nat.sub big (map snd crops)))) =
               combine (map fst crops) (zip2 Nat.sub big (map (fun '(c, d) => c + d) crops))).
  { clear -Fit. induction Fit as [|b [c d] l crops H F IH]; auto. cbn in H. cbn [map fst snd znat zip2 combine]. unfold znat in *. cbn [map zip2 combine]. rewrite IH. f_equal.
    unfold seg. cbn [fst snd]. rewrite !clamp_nat by lia. f_equal. lia. }
  rewrite Rg in Sz, Gz.
  assert (Lsum : length (zip2 Nat.sub big (map (fun '(c, d) => c + d) crops)) = m) by (rewrite zip2_length; rewrite ?map_length; lia).
  rewrite map_snd_combine in Sz, Gz by (rewrite map_length; lia). rewrite map_fst_combine in Gz by (rewrite map_length; lia).
  apply tensor_ext; auto; [rewrite Sy, Sz; reflexivity|].
  intros ix Ix. rewrite Sz in Ix. destruct ix as [|i jx]; [destruct Ix|].
  cbn [app inb] in Ix. destruct Ix as [Ii Ij].
  assert (Dj : exists t q, jx = t ++ q /\ inb t (zip2 Nat.sub big (map (fun '(c, d) => c + d) crops)) /\ inb q dp).
  { exists (firstn m jx), (skipn m jx). split; [now rewrite firstn_skipn|]. rewrite <- (firstn_skipn m jx) in Ij. apply inb_app in Ij; auto.
    rewrite firstn_len; [lia|]. apply inb_length in Ij. rewrite firstn_skipn, app_length in Ij. lia. }
  destruct Dj as (t & q & -> & It & Iq).
  assert (Lt : length t = m) by (apply inb_length in It; lia).
  rewrite Gy; [|rewrite Sy; cbn [inb]; auto|auto].
  assert (Q := Gz [i] t q ltac:(cbn; auto) It Iq). cbn [app] in Q. rewrite Q. clear Q.
  set (u := addix (map fst crops) t).
  assert (Iu : inb u big).
  { unfold u. clear -Fit It. revert t It. induction Fit as [|b [c d] l crops H F IH]; intros [|v t] It; cbn [map zip2 inb addix fst] in *; try tauto. cbn in H. destruct It as [I1 I2]. split; [lia|auto]. }
  assert (Lu : length u = m) by (apply inb_length in Iu; lia).
  destruct (inb_parts sp block u Lsp Pb Iu) as [Id Im].
  assert (Ld : length (zip2 Nat.div u block) = m) by (rewrite zip2_length; lia).
  assert (Lmd : length (zip2 Nat.modulo u block) = m) by (rewrite zip2_length; lia).
  (* x4 -> x3 *)
  unfold x4. rewrite (reindex x3 (n :: big ++ dp) (i :: u ++ q) (i :: inter (zip2 Nat.div u block) (zip2 Nat.modulo u block) ++ q)).
  2:{ rewrite S3. cbn [ravel]. rewrite !ravel_app by (rewrite ?inter_length; lia). rewrite ravel_inter by (auto; lia). fold big. rewrite !size_app, size_inter by lia. reflexivity. }
  rewrite <- (p_perm_pick block xlen ltac:(lia) Hm i _ _ q) by (auto; apply inb_length in Iq; lia).
  rewrite G3. 2:{ unfold x2. cbn [shape]. apply inb_app; [lia|]. split; auto. cbn [inb]. split; auto. apply inb_app; [lia|]. auto. }
  unfold x2. apply reindex. rewrite Sx. rewrite ravel_app by lia. cbn [ravel]. rewrite size_cons. rewrite !ravel_app by lia. rewrite size_app. nia.
Qed.
End B2S.
