(** MatrixBandPart before opset 11: the mask made line by line. *)
From Coq Require Import List Arith ZArith Bool Lia.
From Verif Require Import Tensor FoldModel OnnxSpec FoldProofs TensorProofs TOps TOpsProofs TOpsProofs2 RewValues MatProofs CumProofs BandSpec BandModel BandProofs.
Import ListNotations.
Local Open Scope list_scope.

Section Lines.
Variables (pre post : list nat) (d : nat).
Hypothesis Unit_ : [1; 1] = pre ++ 1 :: post.
Notation Is := (Is pre d post).
Lemma shifted_ok line f : Is line f -> exists y, shifted (length pre) line = Some y /\ Is y (fun p q c => if Nat.eqb c 0 then false else f p q (c - 1)).
Proof.
  intros (W & Sh & G).
  destruct (concat_spec pre post [Tensor [1; 1] [false]; line] [1; d]) as (z & E & Wz & Sz & Gz).
  - discriminate.
  - constructor; [split; [reflexivity|exact Unit_]|]. constructor; [split; auto|constructor].
  - destruct (slice_mid pre (total [1; d]) post z 0 (-1) Wz Sz) as (y & Ey & Wy & Sy & Gy).
    exists y. unfold shifted. rewrite E. split; [exact Ey|].
    assert (C0 : clamp (total [1; d]) 0 = 0) by (unfold clamp; change (0 <? 0)%Z with false; cbv iota; lia).
    assert (C1 : clamp (total [1; d]) (-1) = d) by (unfold clamp, total; cbn [fold_right]; change (-1 <? 0)%Z with true; cbv iota; lia).
    rewrite C0, C1 in *. rewrite Nat.sub_0_r in *. split; [exact Wy|]. split; [exact Sy|]. intros p q c Hp Hq Hc. rewrite Gy by auto. cbn [Nat.add].
    rewrite Gz by (unfold total; cbn; auto; lia). cbn [part_of]. destruct (Nat.ltb_spec c 1).
    + assert (c = 0) by lia. subst c. cbn [Nat.eqb]. assert (X : inb (p ++ 0 :: q) [1; 1]) by (rewrite Unit_; apply TOpsProofs2.inb_mid; auto).
      destruct (inb_2 _ _ _ X) as (i & j & -> & Hi & Hj). replace i with 0 by lia. replace j with 0 by lia. reflexivity.
    + rewrite (proj2 (Nat.ltb_lt _ _)) by lia. destruct (Nat.eqb_spec c 0); [lia|]. apply G; auto. lia.
Qed.
Lemma lines_ok : forall n line k, Is line (fun _ _ c => Nat.leb k c) -> exists ls, lines (length pre) n line = Some ls /\ length ls = n /\
  forall i, i < n -> exists t, nth_error ls i = Some t /\ Is t (fun _ _ c => Nat.leb (k + i) c).
Proof.
  induction n as [|n IH]; intros line k L.
  - exists []. split; [reflexivity|]. split; [reflexivity|]. intros; lia.
  - destruct (shifted_ok _ _ L) as (y & Ey & Iy). destruct (IH y (S k)) as (ls & El & Ll & Gl).
    { apply (Is_ext _ _ _ _ _ _ Iy). intros p q c _. destruct c as [|c]; [reflexivity|]. cbn [Nat.eqb Nat.leb]. now rewrite Nat.sub_succ, Nat.sub_0_r. }
    exists (line :: ls). cbn [lines]. rewrite Ey. cbn [obind]. rewrite El. split; [reflexivity|]. split; [cbn; auto|]. intros [|i] Hi.
    + exists line. split; [reflexivity|]. rewrite Nat.add_0_r. exact L.
    + destruct (Gl i) as (t & Et & It); [lia|]. exists t. split; [exact Et|]. replace (k + S i) with (S k + i) by lia. exact It.
Qed.
Lemma stack_ok : forall ls n, 0 < n -> length ls = n -> (forall i, i < n -> exists t, nth_error ls i = Some t /\ Is t (fun _ _ c => Nat.leb i c)) ->
  exists s, f_stack ls = Some s /\ wf s /\ shape s = n :: pre ++ d :: post /\ forall i p q c, i < n -> inb p pre -> inb q post -> c < d -> get s (i :: p ++ c :: q) = Some (Nat.leb i c).
Proof.
  intros ls n N L H. destruct ls as [|t0 ls]; [cbn in L; lia|]. unfold f_stack.
  assert (Sh : forall t, In t (t0 :: ls) -> shape t = pre ++ d :: post).
  { intros t I. apply In_nth_error in I. destruct I as [i E]. assert (Li : i < n) by (rewrite <- L; apply nth_error_Some; congruence). destruct (H i Li) as (t' & E' & (_ & S' & _)). congruence. }
  assert (F : forallb (fun t => list_eqb (shape t) (shape t0)) (t0 :: ls) = true).
  { apply forallb_forall. intros t I. rewrite (Sh t I), (Sh t0) by (left; reflexivity). unfold list_eqb. destruct list_eq_dec; congruence. }
  rewrite F, (Sh t0) by (left; reflexivity). rewrite L.
  match goal with |- context [build _ ?G] => destruct (build_ex (n :: pre ++ d :: post) G) as (s & E & Ss & Ws & Gs) end.
  - intros [|i ix] I; [destruct I|]. destruct I as [Hi I]. destruct (H i Hi) as (t & Et & (Wt & St & _)). rewrite Et. apply get_some; [exact Wt|]. now rewrite St.
  - exists s. split; [exact E|]. split; [exact Ws|]. split; [exact Ss|]. intros i p q c Hi Hp Hq Hc. rewrite Gs by (split; [exact Hi|now apply TOpsProofs2.inb_mid]).
    destruct (H i Hi) as (t & Et & (_ & _ & Gt)). rewrite Et. now apply Gt.
Qed.
End Lines.

Section V7.
Context {A : Type}.
Variable mul : A -> A -> A.
Variables zero one : A.
Variable truth : A -> bool.
Hypothesis mul_one : forall v, mul one v = v.
Hypothesis mul_zero : forall v, mul zero v = zero.
Variable x : tensor A.
Variables (r c : nat).
Hypothesis Wx : wf x.
Hypothesis Sx : shape x = [r; c].
(** the first row or column, made True *)
Lemma ones_of r' c' (t : tensor A) f : M r' c' t f -> exists z, f_binary xorb (f_unary truth t) (f_unary truth t) = Some z /\ M r' c' (f_unary negb z) (fun _ _ => true).
Proof.
  intro Mt. apply (M_unary truth) in Mt. destruct (M_both xorb r' c' _ _ _ _ Mt Mt) as (z & E & Mz). exists z. split; [exact E|].
  apply (M_unary negb) in Mz. apply (M_ext _ _ _ _ _ Mz). intros. now rewrite xorb_nilpotent.
Qed.
(** reading x at a place; only the places within x matter *)
Lemma at_x : A -> exists f, M r c x f.
Proof.
  intro v0. exists (fun i j => match get x [i; j] with Some v => v | None => v0 end). split; [exact Wx|]. split; [exact Sx|]. intros i j Hi Hj.
  destruct (get_wf x [i; j] Wx) as [v E]; [rewrite Sx; cbn; auto|]. now rewrite E.
Qed.
Lemma first_col : 0 < c -> exists t f, f_gather 1 x (Tensor [1] [0%Z]) = Some t /\ M r 1 t f.
Proof.
  intro C. destruct (at_x zero) as [f (_ & _ & G)]. unfold f_gather. rewrite Sx. change (norm_axis (length [r; c]) 1) with (Some 1). cbv iota.
  cbn [firstn skipn length app shape].
  match goal with |- context [build _ ?F] => destruct (M_build r 1 (fun i _ => f i 0) F) as (t & E & Mt) end.
  - intros i j Hi Hj. assert (j = 0) by lia. subst j. cbn [firstn skipn get shape data ravel app Nat.add nth]. change (get (Tensor [1] [0%Z]) [0]) with (Some 0%Z). cbv iota.
    assert (E : norm_axis c 0 = Some 0) by (unfold norm_axis; cbn; destruct (Z.ltb_spec 0 (Z.of_nat c)); [reflexivity|lia]). rewrite E. now rewrite G.
  - exists t, (fun i _ => f i 0). auto.
Qed.
Lemma first_row : 0 < r -> exists t f, f_gather 0 x (Tensor [1] [0%Z]) = Some t /\ M 1 c t f.
Proof.
  intro R. destruct (at_x zero) as [f (_ & _ & G)]. unfold f_gather. rewrite Sx. change (norm_axis (length [r; c]) 0) with (Some 0). cbv iota.
  cbn [firstn skipn length app shape].
  match goal with |- context [build _ ?F] => destruct (M_build 1 c (fun _ j => f 0 j) F) as (t & E & Mt) end.
  - intros i j Hi Hj. assert (i = 0) by lia. subst i. cbn [firstn skipn get shape data ravel app Nat.add nth]. change (get (Tensor [1] [0%Z]) [0]) with (Some 0%Z). cbv iota.
    assert (E : norm_axis r 0 = Some 0) by (unfold norm_axis; cbn; destruct (Z.ltb_spec 0 (Z.of_nat r)); [reflexivity|lia]). rewrite E. now rewrite G.
  - exists t, (fun _ j => f 0 j). auto.
Qed.
Lemma squeezed_ok {T} pre post (s : tensor T) : wf s -> shape s = pre ++ 1 :: post -> exists y, f_squeeze [Z.of_nat (length pre)] s = Some y /\ wf y /\ shape y = pre ++ post /\
  forall p q, length p = length pre -> get y (p ++ q) = get s (p ++ 0 :: q).
Proof.
  intros W Sh. exists (Tensor (pre ++ post) (data s)). split; [now apply squeeze_mid|]. split; [|split; [reflexivity|]].
  - unfold wf in *. cbn [shape data]. rewrite W, Sh, !size_app, size_cons. lia.
  - intros p q L. rewrite <- (get_ones pre post (Tensor (pre ++ post) (data s)) p q L eq_refl). cbn [data]. rewrite <- Sh. now destruct s.
Qed.
Lemma band7_lower : 0 < c -> exists y, band7 mul zero one truth (Some (-1)%Z) (Some 0%Z) x = Some y /\ tf_band_part zero (-1) 0 x y.
Proof.
  intro C. unfold band7. rewrite Sx. cbn [length Nat.eqb negb]. change (Z.eqb (-1) (-1) && Z.eqb 0 0) with true. cbn [orb negb nth].
  destruct (first_col C) as (t & f & E & Mt). change (Z.of_nat 1) with 1%Z. rewrite E. cbn [obind]. destruct (ones_of _ _ _ _ Mt) as (z & Ez & Mz). rewrite Ez. cbn [obind].
  destruct (lines_ok [] [1] r eq_refl c (f_unary negb z) 0) as (ls & El & Ll & Gl).
  { destruct Mz as (W & Sh & G). split; [exact W|]. split; [exact Sh|]. intros p q i Hp Hq Hi. destruct p; [|destruct Hp]. apply inb_1 in Hq. destruct Hq as (j & -> & Hj). cbn [app]. now rewrite G. }
  cbn [length] in El. rewrite El. cbn [obind]. destruct (stack_ok [] [1] r ls c C Ll Gl) as (s & Es & Ws & Ss & Gs). rewrite Es. cbn [obind].
  destruct (squeezed_ok [c; r] [] s Ws Ss) as (q & Eq & Wq & Sq & Gq). change (Z.of_nat (length [c; r])) with (Z.of_nat 2) in Eq. rewrite Eq. cbn [obind].
  assert (Tr : f_transpose None q = f_transpose (Some [1; 0]) q) by (unfold f_transpose; rewrite Sq; reflexivity). rewrite Tr.
  destruct (transpose_spec [1; 0] q Wq) as (m & Em & Sm & Wm & Gm).
  { rewrite Sq. cbn. apply Permutation.perm_swap. }
  rewrite Em. cbn [obind]. rewrite Sq in Sm.
  assert (Mm : M r c m (in_band (-1) 0)).
  { split; [exact Wm|]. split; [exact Sm|]. intros i j Hi Hj. specialize (Gm [j; i]). rewrite Sq in Gm. change (pick [1; 0] [j; i]) with [i; j] in Gm. rewrite Gm by (cbn; auto).
    specialize (Gq [j; i] [] eq_refl). rewrite app_nil_r in Gq. rewrite Gq. specialize (Gs j [] [0] i Hj Logic.I). cbn [app] in Gs |- *. rewrite Gs by (cbn; auto). f_equal. unfold in_band. cbn [Z.ltb Z.compare orb andb].
    destruct (Nat.leb_spec j i), (Z.leb_spec (Z.of_nat j - Z.of_nat i) 0); try reflexivity; lia. }
  destruct (masked_ok mul zero one x [] r c Wx Sx mul_one mul_zero m _ Mm) as (y & Ey & Wy & Sy & Gy). exists y. split; [exact Ey|]. split; [exact Wy|]. split; [congruence|]. exists [], r, c. auto.
Qed.
Lemma band7_upper : 0 < r -> exists y, band7 mul zero one truth (Some 0%Z) (Some (-1)%Z) x = Some y /\ tf_band_part zero 0 (-1) x y.
Proof.
  intro C. unfold band7. rewrite Sx. cbn [length Nat.eqb negb]. change (Z.eqb 0 (-1) && Z.eqb (-1) 0) with false. change (Z.eqb 0 0 && Z.eqb (-1) (-1)) with true. cbn [orb negb nth].
  destruct (first_row C) as (t & f & E & Mt). change (Z.of_nat 0) with 0%Z. rewrite E. cbn [obind]. destruct (ones_of _ _ _ _ Mt) as (z & Ez & Mz). rewrite Ez. cbn [obind].
  destruct (lines_ok [1] [] c eq_refl r (f_unary negb z) 0) as (ls & El & Ll & Gl).
  { destruct Mz as (W & Sh & G). split; [exact W|]. split; [exact Sh|]. intros p q i Hp Hq Hi. destruct q; [|destruct Hq]. apply inb_1 in Hp. destruct Hp as (j & -> & Hj). cbn [app]. now rewrite G. }
  cbn [length] in El. rewrite El. cbn [obind]. destruct (stack_ok [1] [] c ls r C Ll Gl) as (s & Es & Ws & Ss & Gs). rewrite Es. cbn [obind].
  destruct (squeezed_ok [r] [c] s Ws Ss) as (q & Eq & Wq & Sq & Gq). change (Z.of_nat (length [r])) with (Z.of_nat 1) in Eq. rewrite Eq. cbn [obind Nat.eqb].
  assert (Mm : M r c q (in_band 0 (-1))).
  { split; [exact Wq|]. split; [exact Sq|]. intros i j Hi Hj. specialize (Gq [i] [j] eq_refl). cbn [app] in Gq. rewrite Gq. specialize (Gs i [0] [] j Hi). cbn [app] in Gs. rewrite Gs by (cbn; auto). f_equal. unfold in_band. cbn [Z.ltb Z.compare orb andb]. rewrite andb_true_r.
    destruct (Nat.leb_spec i j), (Z.leb_spec (Z.of_nat i - Z.of_nat j) 0); try reflexivity; lia. }
  destruct (masked_ok mul zero one x [] r c Wx Sx mul_one mul_zero q _ Mm) as (y & Ey & Wy & Sy & Gy). exists y. split; [exact Ey|]. split; [exact Wy|]. split; [congruence|]. exists [], r, c. auto.
Qed.
(** everything else is refused *)
Lemma band7_refused l u y : band7 mul zero one truth l u x = Some y -> (l = Some (-1)%Z /\ u = Some 0%Z) \/ (l = Some 0%Z /\ u = Some (-1)%Z).
Proof.
  unfold band7. destruct (negb _); [discriminate|]. destruct l as [l|], u as [u|]; try discriminate.
  destruct ((Z.eqb l (-1) && Z.eqb u 0)%bool) eqn:E1; [intros _; apply andb_true_iff in E1; rewrite !Z.eqb_eq in E1; destruct E1; subst; auto|].
  destruct ((Z.eqb l 0 && Z.eqb u (-1))%bool) eqn:E2; [intros _; apply andb_true_iff in E2; rewrite !Z.eqb_eq in E2; destruct E2; subst; auto|discriminate].
Qed.
End V7.
