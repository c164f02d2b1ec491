(** The paths through DepthToSpace and SpaceToDepth: correctness. *)
From Coq Require Import List Arith ZArith Bool Lia Permutation.
From Verif Require Import Tensor FoldModel OnnxSpec TensorProofs TOps TOpsProofs SpaceModel SpaceSpec SpaceProofs SpaceProofs2 SpaceProofs3 SpaceProofs4 SpaceProofs5.
Import ListNotations.
Local Open Scope list_scope.

Lemma d2s_spec {T} b c n h w (t : tensor T) : 0 < b -> wf t -> shape t = [c; b * b * n; h; w] ->
  exists z, f_depth_to_space b t = Some z /\ wf z /\ shape z = [c; n; h * b; w * b] /\
    forall k i u v, inb [k; i; u; v] [c; n; h * b; w * b] ->
      get z [k; i; u; v] = get t [k; (u mod b * b + v mod b) * n + i; u / b; v / b].
Proof.
  intros Pb W Sh. unfold f_depth_to_space. rewrite Sh. rewrite (proj2 (Nat.ltb_lt 0 b) Pb).
  replace (b * b * n) with (n * (b * b)) by lia. rewrite Nat.mod_mul by nia. cbn [Nat.eqb andb]. rewrite Nat.div_mul by nia.
  match goal with |- exists z, build ?sh ?f = Some z /\ _ => destruct (build_ex sh f) as (z & B & S1 & W1 & G1) end; [|exists z; split; [exact B|]; split; auto; split; auto; intros; now rewrite G1].
  intros [|k [|i [|u [|v [|]]]]] Ix; cbn in Ix; try tauto. destruct Ix as (Hk & Hi & Hu & Hv & _). apply get_some; auto. rewrite Sh. cbn [inb].
  assert (u mod b < b) by (apply Nat.mod_upper_bound; lia). assert (v mod b < b) by (apply Nat.mod_upper_bound; lia).
  repeat split; auto; [|apply Nat.div_lt_upper_bound; lia|apply Nat.div_lt_upper_bound; lia].
  assert (u mod b * b + v mod b < b * b) by nia. nia.
Qed.
Lemma s2d_spec {T} b c n h w (t : tensor T) : 0 < b -> wf t -> shape t = [c; n; h * b; w * b] ->
  exists z, f_space_to_depth b t = Some z /\ wf z /\ shape z = [c; b * b * n; h; w] /\
    forall k i u v, inb [k; i; u; v] [c; b * b * n; h; w] ->
      get z [k; i; u; v] = get t [k; i mod n; u * b + i / n / b; v * b + (i / n) mod b].
Proof.
  intros Pb W Sh. unfold f_space_to_depth. rewrite Sh. rewrite (proj2 (Nat.ltb_lt 0 b) Pb). rewrite !Nat.mod_mul, !Nat.div_mul by lia. cbn [Nat.eqb andb].
  match goal with |- exists z, build ?sh ?f = Some z /\ _ => destruct (build_ex sh f) as (z & B & S1 & W1 & G1) end; [|exists z; split; [exact B|]; split; auto; split; auto; intros; now rewrite G1].
  intros [|k [|i [|u [|v [|]]]]] Ix; cbn in Ix; try tauto. destruct Ix as (Hk & Hi & Hu & Hv & _). apply get_some; auto. rewrite Sh. cbn [inb].
  assert (n <> 0) by (intro; subst; lia). assert (i / n < b * b) by (apply Nat.div_lt_upper_bound; lia).
  assert (i / n / b < b) by (apply Nat.div_lt_upper_bound; lia). assert ((i / n) mod b < b) by (apply Nat.mod_upper_bound; lia).
  repeat split; auto; try nia. apply Nat.mod_upper_bound; auto.
Qed.

(** four entries of the matrix *)
Section Four.
Context {A : Type} (zero : A) (opset : nat) (x : tensor A) (other : value A) (t bt l r : nat).
Notation ev := (eval zero opset [D x; other; I (matrix [(t, bt); (l, r)])]).
Lemma ev_four k : k < 4 -> ev (four k) = Some (I (tvec [nth k [Z.of_nat t; Z.of_nat bt; Z.of_nat l; Z.of_nat r] 0%Z])).
Proof. intro H. do 4 (destruct k as [|k]; [reflexivity|]). lia. Qed.
Lemma ev_crop_to_end e v : ev e = Some (I (tvec [v])) -> ev (crop_to_end e) = Some (I (tvec [crop_end v])).
Proof.
  intro H. unfold crop_to_end, crop_end.
  assert (E1 : ev (Op Equal [e; vec [0%Z]]) = Some (B (tvec [Z.eqb v 0]))) by (rewrite (ev2 _ _ _ _ _ _ _ _ H (ev_vec _ _ _ _)); reflexivity).
  assert (E2 : ev (Op Not [Op Equal [e; vec [0%Z]]]) = Some (B (tvec [negb (Z.eqb v 0)]))) by (rewrite (ev1 _ _ _ _ _ _ E1); reflexivity).
  assert (E3 : ev (Op Neg [Op Cast [Op Not [Op Equal [e; vec [0%Z]]]]]) = Some (I (tvec [Z.opp (Z.b2z (negb (Z.eqb v 0)))]))).
  { assert (E4 : ev (Op Cast [Op Not [Op Equal [e; vec [0%Z]]]]) = Some (I (tvec [Z.b2z (negb (Z.eqb v 0))]))) by (rewrite (ev1 _ _ _ _ _ _ E2); reflexivity).
    rewrite (ev1 _ _ _ _ _ _ E4). reflexivity. }
  assert (E5 : ev (Op Cast [Op Equal [e; vec [0%Z]]]) = Some (I (tvec [Z.b2z (Z.eqb v 0)]))) by (rewrite (ev1 _ _ _ _ _ _ E1); reflexivity).
  assert (E6 : ev (Op Mul [e; Op Neg [Op Cast [Op Not [Op Equal [e; vec [0%Z]]]]]]) = Some (I (tvec [v * Z.opp (Z.b2z (negb (Z.eqb v 0)))]%Z))) by (rewrite (ev2 _ _ _ _ _ _ _ _ H E3); reflexivity).
  assert (E7 : ev (Op Mul [vec [int32_max]; Op Cast [Op Equal [e; vec [0%Z]]]]) = Some (I (tvec [int32_max * Z.b2z (Z.eqb v 0)]%Z))) by (rewrite (ev2 _ _ _ _ _ _ _ _ (ev_vec _ _ _ _) E5); reflexivity).
  rewrite (ev2 _ _ _ _ _ _ _ _ E6 E7). cbn [apply]. rewrite binary_vec by reflexivity. cbn [zip2 option_map]. do 4 f_equal.
  destruct (Z.eqb v 0); cbn [negb Z.b2z]; lia.
Qed.
End Four.

Lemma clamp_crop_end d bt : bt <= d -> (Z.of_nat d <= int32_max)%Z -> clamp d (crop_end (Z.of_nat bt)) = d - bt.
Proof.
  intros H1 H2. unfold crop_end. destruct (Z.eqb_spec (Z.of_nat bt) 0); cbn [negb].
  - rewrite clamp_max by auto. lia.
  - unfold clamp. destruct (Z.ltb_spec (- Z.of_nat bt) 0); lia.
Qed.
Definition zpairs (l : list (nat * nat)) : list (Z * Z) := map (fun '(c, d) => (Z.of_nat c, Z.of_nat d)) l.

Section B2S.
Context {A : Type} (zero : A) (opset : nat) (block : list nat) (x y : tensor A) (crops : list (nat * nat)) (other : value A) (const : bool).
Hypothesis Wx : wf x.
Hypothesis Sq : square_2d block (length (shape x)) = true.
Hypothesis Small : Forall (fun d => (Z.of_nat d <= int32_max)%Z) (map2 Nat.mul (tl (shape x)) block).
Hypothesis TF : tf_batch_to_space block crops x = Some y.
Notation env := [D x; other; I (matrix crops)].
Notation ev := (eval zero opset env).

Lemma b2s_square_ok e : b2s_square opset block (length (shape x)) (if const then Some (zpairs crops) else None) = Some e -> ev e = Some (D y).
Proof.
  destruct (tf_b2s_inv _ _ _ _ TF) as (n & sp & dp & Sx & Lsp & Lc & Pb & Fit & Wy & Sy & Gy).
  unfold square_2d, blocklen in Sq. rewrite !andb_true_iff, orb_true_iff in Sq. destruct Sq as ((Hx & Hb) & He). apply Nat.eqb_eq in Hb, He. rewrite !Nat.eqb_eq in Hx.
  destruct block as [|b [|b' [|]]]; try discriminate. cbn [nth] in He. subst b'. cbn [length] in *.
  destruct sp as [|h [|w [|]]]; try discriminate. destruct crops as [|[t bt] [|[l r] [|]]]; try discriminate.
  assert (Lx : length (shape x) = 3 + length dp) by (rewrite Sx; cbn; lia).
  assert (Ldp : length dp = 0 \/ length dp = 1) by lia. rewrite Lx.
  inversion Pb as [|? ? Hb0 _]; subst. rewrite Sx in Small. cbn in Small. inversion Small as [|? ? M1 M2]; subst. inversion M2 as [|? ? M3 _]; subst. clear Small M2.
  cbn [zip2] in *. inversion Fit as [|? ? ? ? F1 F2]; subst. inversion F2 as [|? ? ? ? F3 _]; subst. cbn [fst snd] in F1, F3. clear Fit F2.
  replace (size [b; b] * n) with (b * b * n) in Sx by (rewrite !size_cons; change (size []) with 1; lia).
  destruct (trans1_ok zero opset x other (I (matrix [(t, bt); (l, r)])) Wx _ h w dp Sx Ldp) as (t1 & E1 & W1 & S1 & G1).
  set (c := hd 1 dp) in *.
  destruct (d2s_spec b c n h w t1 Hb0 W1 S1) as (t2 & D2 & W2 & S2 & G2).
  set (env' := [D x; other; I (matrix [(t, bt); (l, r)])]) in *.
  assert (E2 : eval zero opset env' (Op (DepthToSpace b) [trans1 opset (3 + length dp)]) = Some (D t2)) by (rewrite (ev1 _ _ _ _ _ _ E1); cbn [apply lift]; now rewrite D2).
  set (ss := [Z.of_nat t; Z.of_nat l]). set (es := [crop_end (Z.of_nat bt); crop_end (Z.of_nat r)]).
  destruct (slice_spec [c; n] [h * b; w * b] [] t2 ss es W2) as (t3 & D3 & W3 & S3 & G3); auto.
  assert (Rg : zip2 seg [h * b; w * b] (combine ss es) = [(t, h * b - (t + bt)); (l, w * b - (l + r))]).
  { unfold ss, es. cbn [combine zip2]. unfold seg. cbn [fst snd]. rewrite !clamp_crop_end, !clamp_nat by lia. replace (h * b - bt - t) with (h * b - (t + bt)) by lia. replace (w * b - r - l) with (w * b - (l + r)) by lia. reflexivity. }
  rewrite Rg in S3, G3. cbn [map fst snd app] in S3, G3.
  assert (Main : forall e3, eval zero opset env' e3 = Some (D t3) -> eval zero opset env' (trans_back opset (3 + length dp) e3) = Some (D y)).
  { intros e3 E3. destruct (trans_back_ok zero opset x other (I (matrix [(t, bt); (l, r)])) _ h w dp Sx Ldp e3 t3 _ _ _ E3 W3 S3) as (t4 & E4 & W4 & S4 & G4).
    fold env' in E4. rewrite E4. do 2 f_equal. apply tensor_ext; auto; [now rewrite S4, Sy|]. intros ix Ix. rewrite S4 in Ix.
    destruct ix as [|i [|u [|v q]]]; try (cbn in Ix; tauto). change (i :: u :: v :: q) with (i :: [u; v] ++ q) in *.
    destruct (G4 i u v q Ix) as (Q1 & Q2 & Q3). rewrite Q1, Gy; [|rewrite Sy; exact Ix|reflexivity].
    cbn [app inb] in Ix. destruct Ix as (Ii & Iu & Iv & Iq).
    assert (G3' := G3 [hd 0 q; i] [u; v] [] ltac:(cbn; auto) ltac:(cbn; auto) Logic.I). cbn [app addix] in G3'. rewrite G3'.
    rewrite G2 by (cbn; lia). rewrite G1.
    2:{ assert (b <> 0) by lia. cbn [inb]. assert ((t + u) mod b < b) by (apply Nat.mod_upper_bound; lia). assert ((l + v) mod b < b) by (apply Nat.mod_upper_bound; lia).
        repeat split; auto; [|apply Nat.div_lt_upper_bound; lia|apply Nat.div_lt_upper_bound; lia]. assert ((t + u) mod b * b + (l + v) mod b < b * b) by nia. nia. }
    rewrite <- Q3. cbn [map fst addix zip2 app ravel]. unfold size. cbn [fold_right]. do 2 f_equal. f_equal. f_equal. lia. }
  unfold b2s_square. cbn [nth]. destruct const.
  - cbn [zpairs map]. intro E. injection E as <-. apply Main. rewrite (ev_slice_const _ _ _ _ _ _ _ _ E2). cbn [lift]. fold ss es.
    change [2%Z; 3%Z] with (map Z.of_nat (seq (length [c; n]) (length [h * b; w * b]))). rewrite D3. reflexivity.
  - unfold make_slice_dyn. destruct (Nat.ltb opset 10) eqn:O10; [discriminate|]. cbn [option_map]. intro E. injection E as <-. apply Main.
    assert (Es : eval zero opset env' dyn_starts = Some (I (tvec ss))).
    { apply (ev_concat zero opset env' [[Z.of_nat t]; [Z.of_nat l]]); [discriminate|].
      constructor; [apply (ev_four zero opset x other t bt l r 0); lia|]. constructor; [apply (ev_four zero opset x other t bt l r 2); lia|constructor]. }
    assert (Ee : eval zero opset env' dyn_ends = Some (I (tvec es))).
    { apply (ev_concat zero opset env' [[crop_end (Z.of_nat bt)]; [crop_end (Z.of_nat r)]]); [discriminate|].
      constructor; [apply ev_crop_to_end; apply (ev_four zero opset x other t bt l r 1); lia|].
      constructor; [apply ev_crop_to_end; apply (ev_four zero opset x other t bt l r 3); lia|constructor]. }
    rewrite (ev4 _ _ _ _ _ _ _ _ _ _ _ _ E2 Es Ee (ev_vec _ _ _ _)). cbn [apply]. rewrite O10. cbn [ints]. rewrite !as_vec_tvec. cbn [obind lift].
    change [2%Z; 3%Z] with (map Z.of_nat (seq (length [c; n]) (length [h * b; w * b]))). rewrite D3. reflexivity.
Qed.
End B2S.

Section S2B.
Context {A : Type} (zero : A) (opset : nat) (block : list nat) (x y : tensor A) (pads : list (nat * nat)) (other : value A) (const : bool).
Hypothesis Wx : wf x.
Hypothesis Sq : square_2d block (length (shape x)) = true.
Hypothesis TF : tf_space_to_batch zero block pads x = Some y.
Hypothesis Hc : const = true \/ 11 <= opset.
Notation env := [D x; other; I (matrix pads)].
Notation ev := (eval zero opset env).

Lemma s2b_square_ok e : s2b_square opset block (length (shape x)) (if const then Some (zpairs pads) else None) = Some e -> ev e = Some (D y).
Proof.
  destruct (tf_s2b_inv _ _ _ _ _ TF) as (n & sp & dp & red & Sx & Lsp & Lc & Pb & Lred & Fit & Wy & Sy & Gy).
  unfold square_2d, blocklen in Sq. rewrite !andb_true_iff, orb_true_iff in Sq. destruct Sq as ((Hx & Hb) & He). apply Nat.eqb_eq in Hb, He. rewrite !Nat.eqb_eq in Hx.
  destruct block as [|b [|b' [|]]]; try discriminate. cbn [nth] in He. subst b'. cbn [length] in *.
  destruct sp as [|h [|w [|]]]; try discriminate. destruct red as [|rh [|rw [|]]]; try discriminate. destruct pads as [|[t bt] [|[l r] [|]]]; try discriminate.
  assert (Lx : length (shape x) = 3 + length dp) by (rewrite Sx; cbn; lia).
  assert (Ldp : length dp = 0 \/ length dp = 1) by lia. rewrite Lx.
  inversion Pb as [|? ? Hb0 _]; subst. cbn in Fit. injection Fit as F1 F2.
  replace (size [b; b] * n) with (b * b * n) in Sy by (rewrite !size_cons; change (size []) with 1; lia).
  destruct (trans1_ok zero opset x other (I (matrix [(t, bt); (l, r)])) Wx _ h w dp Sx Ldp) as (t1 & E1 & W1 & S1 & G1).
  set (c := hd 1 dp) in *.
  destruct (pad_spec zero [0; 0; t; l] [0; 0; bt; r] t1 W1) as (t2 & D2 & W2 & S2 & G2); [rewrite S1; reflexivity|rewrite S1; reflexivity|].
  rewrite S1 in S2. cbn [addix] in S2. assert (S2' : shape t2 = [c; n; rh * b; rw * b]) by (rewrite S2; cbn [Nat.add]; rewrite !Nat.add_0_r; rewrite <- F1, <- F2; replace (t + (h + bt)) with (h + (t + bt)) by lia; replace (l + (w + r)) with (w + (l + r)) by lia; reflexivity).
  destruct (s2d_spec b c n rh rw t2 Hb0 W2 S2') as (t3 & D3 & W3 & S3 & G3).
  set (env' := [D x; other; I (matrix [(t, bt); (l, r)])]) in *.
  assert (Main : forall e2, eval zero opset env' e2 = Some (D t2) -> eval zero opset env' (trans_back opset (3 + length dp) (Op (SpaceToDepth b) [e2])) = Some (D y)).
  { intros e2 E2. assert (E3 : eval zero opset env' (Op (SpaceToDepth b) [e2]) = Some (D t3)) by (rewrite (ev1 _ _ _ _ _ _ E2); cbn [apply lift]; now rewrite D3).
    destruct (trans_back_ok zero opset x other (I (matrix [(t, bt); (l, r)])) _ h w dp Sx Ldp _ t3 _ _ _ E3 W3 S3) as (t4 & E4 & W4 & S4 & G4).
    fold env' in E4. rewrite E4. do 2 f_equal. apply tensor_ext; auto; [now rewrite S4, Sy|]. intros ix Ix. rewrite S4 in Ix.
    destruct ix as [|i [|u [|v q]]]; try (cbn in Ix; tauto). change (i :: u :: v :: q) with (i :: [u; v] ++ q) in *.
    destruct (G4 i u v q Ix) as (Q1 & Q2 & Q3). rewrite Q1, Gy; [|rewrite Sy; exact Ix|reflexivity].
    cbn [app inb] in Ix. destruct Ix as (Ii & Iu & Iv & Iq). rewrite G3 by (cbn; lia).
    assert (Hn : n <> 0) by (intro; subst; lia). assert (K0 : i / n < b * b) by (apply Nat.div_lt_upper_bound; lia).
    assert (K1 : i / n / b < b) by (apply Nat.div_lt_upper_bound; lia). assert (K2 : (i / n) mod b < b) by (apply Nat.mod_upper_bound; lia).
    assert (K3 : i mod n < n) by (apply Nat.mod_upper_bound; auto).
    rewrite G2 by (rewrite S2'; cbn; repeat split; auto; nia).
    assert (Un : unravel [b; b] (i / n) = [i / n / b; (i / n) mod b]) by (cbn [unravel]; unfold size; cbn [fold_right]; rewrite !Nat.mul_1_r, Nat.div_1_r; reflexivity).
    rewrite Un. cbn [zip2 map fst]. rewrite S1. set (u' := u * b + i / n / b). set (v' := v * b + (i / n) mod b). set (i0 := i mod n) in *. cbn [pad_src unpad].
    cbn [Nat.leb]. rewrite !Nat.sub_0_r. rewrite (proj2 (Nat.ltb_lt (hd 0 q) c) Q2), (proj2 (Nat.ltb_lt i0 n) K3). cbn [andb option_map].
    destruct (Nat.leb t u' && Nat.ltb (u' - t) h) eqn:B1; [|reflexivity].
    destruct (Nat.leb l v' && Nat.ltb (v' - l) w) eqn:B2; [|reflexivity]. cbn [option_map].
    rewrite andb_true_iff, Nat.ltb_lt in B1, B2. rewrite G1 by (cbn; tauto). rewrite <- Q3. reflexivity. }
  unfold s2b_square, s2b_pad. cbn [nth]. destruct const.
  - cbn [zpairs map option_map]. intro E. injection E as <-. apply Main.
    change [0%Z; 0%Z; Z.of_nat t; Z.of_nat l; 0%Z; 0%Z; Z.of_nat bt; Z.of_nat r] with (map Z.of_nat ([0; 0; t; l] ++ [0; 0; bt; r])).
    destruct (Nat.leb_spec opset 10).
    + rewrite (ev1 _ _ _ _ _ _ E1). cbn [apply]. rewrite (proj2 (Nat.ltb_lt opset 11)) by lia. now rewrite D2.
    + rewrite (ev2 _ _ _ _ _ _ _ _ E1 (ev_vec _ _ _ _)). cbn [apply]. rewrite (proj2 (Nat.ltb_ge opset 11)) by lia. cbn [ints]. rewrite as_vec_tvec. cbn [obind]. now rewrite D2.
  - destruct Hc as [Hc'|Hc']; [discriminate|]. cbn [option_map]. intro E. injection E as <-. apply Main.
    assert (Ep : eval zero opset env' (Op (Concat 0) [vec [0%Z]; vec [0%Z]; four 0; four 2; vec [0%Z]; vec [0%Z]; four 1; four 3]) = Some (I (tvec (map Z.of_nat ([0; 0; t; l] ++ [0; 0; bt; r]))))).
    { apply (ev_concat zero opset env' [[0%Z]; [0%Z]; [Z.of_nat t]; [Z.of_nat l]; [0%Z]; [0%Z]; [Z.of_nat bt]; [Z.of_nat r]]); [discriminate|].
      assert (F := ev_four zero opset x other t bt l r). fold env' in F.
      repeat (constructor; [first [reflexivity|apply (F 0); lia|apply (F 1); lia|apply (F 2); lia|apply (F 3); lia]|]). constructor. }
    rewrite (ev2 _ _ _ _ _ _ _ _ E1 Ep). cbn [apply]. rewrite (proj2 (Nat.ltb_ge opset 11)) by lia. cbn [ints]. rewrite as_vec_tvec. cbn [obind]. now rewrite D2.
Qed.
End S2B.
