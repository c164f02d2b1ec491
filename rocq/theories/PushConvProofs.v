From Coq Require Import List Arith ZArith Reals Bool Lia.
From Verif Require Import Util Tensor TensorProofs OnnxSpec FoldModel FoldProofs ConvSpec B2BProofs NNModel NNSpec NNProofs PushSpec PushProofs PushProofs3 PushConvSpec PushConvModel.
Import ListNotations.
Local Open Scope nat_scope.
Local Open Scope list_scope.

Lemma msum_scale sh : forall f k, msum sh (fun t => f t * k)%R = (msum sh f * k)%R.
Proof. induction sh as [|n sh IH]; intros f k; cbn [msum]; auto. rewrite <- rsum_scale. apply rsum_ext. intro i. apply IH. Qed.
(** the element of the multiplier for output channel m *)
Definition mult_at (c : tensor R) (m : nat) : R := value c (bcast_ix 4 (shape c) [0; 0; 0; m]).
Lemma mult_bcast (c : tensor R) a b d m : multiplier_ok c = true -> length (shape c) <= 4 -> bcast_ix 4 (shape c) [a; b; d; m] = bcast_ix 4 (shape c) [0; 0; 0; m].
Proof.
  unfold multiplier_ok. destruct (shape c) as [|s0 [|s1 [|s2 [|s3 [|s4 l]]]]]; cbn [length]; intros H L; try lia; auto; cbn [removelast forallb] in H; rewrite ?andb_true_iff, ?Nat.eqb_eq in H.
  - destruct H as [<- _]. reflexivity.
  - destruct H as (<- & <- & _). reflexivity.
  - destruct H as (<- & <- & <- & _). reflexivity.
Qed.
Lemma perm4_a : is_perm [2; 3; 1; 0] 4. Proof. apply incl_perm; auto. intros [|[|[|[|k]]]] K; cbn; auto; lia. Qed.
Lemma perm4_b : is_perm [3; 2; 0; 1] 4. Proof. apply incl_perm; auto. intros [|[|[|[|k]]]] K; cbn; auto; lia. Qed.
Lemma perm4_c : is_perm [0; 2; 3; 1] 4. Proof. apply incl_perm; auto. intros [|[|[|[|k]]]] K; cbn; auto 6; lia. Qed.
Lemma fold_multiplier_spec (w c w' : tensor R) M C kh kw : wf w -> wf c -> shape w = [M; C; kh; kw] -> multiplier_ok c = true -> fold_multiplier w c = Some w' ->
  (forall d, last (shape c) 1 = d -> d = 1 \/ d = M) ->
  wf w' /\ shape w' = [M; C; kh; kw] /\ length (shape c) <= 4 /\ forall m q i j, inb [m; q; i; j] (shape w) -> value w' [m; q; i; j] = (value w [m; q; i; j] * mult_at c m)%R.
Proof.
  intros Ww Wc Sw Ok. unfold fold_multiplier. destruct (np_transpose w (Some [2; 3; 1; 0])) as [t|] eqn:Et; [|discriminate].
  destruct (np_binary Rmult t c) as [r|] eqn:Er; [|discriminate]. intros Ew Hd.
  apply (np_transpose_spec w _ t Ww) in Et. assert (Lw : length (shape w) = 4) by (now rewrite Sw).
  destruct (tr_facts _ 4 perm4_a w t Et) as (_ & Lt & _ & Wt & St & Gt).
  destruct (fold_binary_spec Rmult t c [r] Wt Wc) as (r' & E & (_ & _ & Wr & Lr & Dr & Gr)); [unfold fold_binary; now rewrite Er|]. inversion E; subst r'. clear E Er.
  apply (np_transpose_spec r _ w' Wr) in Ew. assert (Lr4 : length (shape r) = 4). { destruct Ew as (Pr & _). apply is_perm_length in Pr. now rewrite <- Pr. }
  rewrite Lt, Lr4 in *. destruct (tr_facts _ 4 perm4_b r w' Ew) as (_ & Lw' & _ & Ww' & Sw' & Gw').
  assert (Lc : length (shape c) <= 4) by lia. rewrite <- Lr in Dr, Gr. rewrite Sw in St. cbn in St.
  assert (Sr : shape r = [kh; kw; C; M]).
  { assert (Q : forall k, k < 4 -> nth k (shape r) 0 = nth k [kh; kw; C; M] 0).
    { intros k K. destruct (Dr k K) as [_ Dk]. rewrite Dk. rewrite St. cbn [length]. change (4 - 4) with 0. cbn [repeat app].
      set (dc := nth k (repeat 1 (4 - length (shape c)) ++ shape c) 0). assert (Hc : dc = 1 \/ (k = 3 /\ dc = M)).
      { unfold dc. clear -Ok Hd Lc K. unfold multiplier_ok in Ok. specialize (Hd _ eq_refl).
        destruct (shape c) as [|s0 [|s1 [|s2 [|s3 [|s4 l]]]]]; cbn [length] in Lc; try lia; cbn [removelast forallb last] in *; rewrite ?andb_true_iff, ?Nat.eqb_eq in Ok; cbn [length Nat.sub repeat app];
          destruct k as [|[|[|[|k]]]]; cbn [nth]; try lia. }
      fold dc in Dk. destruct (Nat.eqb_spec (nth k [kh; kw; C; M] 0) 1) as [E1|E1]; auto. destruct Hc as [->|[-> ->]]; auto. }
    apply list_nth_ext; [now rewrite Lr4|]. intros k K. apply Q. now rewrite Lr4 in K. }
  rewrite Sr in Sw'. cbn in Sw'. split; auto. split; auto. split; auto.
  intros m q i j I. assert (It : inb [i; j; q; m] (shape t)) by (rewrite St; rewrite Sw in I; cbn in *; lia).
  assert (Ir : inb [i; j; q; m] (shape r)) by (rewrite Sr; rewrite St in It; exact It).
  assert (G1 := Gw' [i; j; q; m] Ir). cbn [pick map nth] in G1. unfold value at 1. change (pick [3;2;0;1] [i;j;q;m]) with [m;q;i;j] in G1. rewrite G1.
  destruct (Gr [i; j; q; m] Ir) as (a & b & Ga & Gb & Gv). rewrite Gv. rewrite (mult_bcast c) in Gb by auto.
  assert (G2 := Gt [m; q; i; j] I). change (pick [2;3;1;0] [m;q;i;j]) with [i;j;q;m] in G2.
  assert (Eb : bcast_ix 4 (shape t) [i; j; q; m] = [i; j; q; m]).
  { rewrite St in *. cbn. clear -It. cbn in It. destruct It as (H1 & H2 & H3 & H4 & _).
    destruct (Nat.eqb_spec kh 1), (Nat.eqb_spec kw 1), (Nat.eqb_spec C 1), (Nat.eqb_spec M 1); repeat f_equal; lia. }
  rewrite Eb, G2 in Ga. unfold mult_at, value. rewrite Ga, Gb. reflexivity.
Qed.

Lemma nhwc_at {A} (y t : tensor A) N M H W b m i j : transpose_rel [0; 2; 3; 1] y t -> shape y = [N; M; H; W] -> inb [b; m; i; j] (shape y) -> get t [b; i; j; m] = get y [b; m; i; j].
Proof. intros T S I. destruct (tr_facts _ 4 perm4_c y t T) as (_ & _ & _ & _ & _ & G). exact (G _ I). Qed.
Lemma conv_multiplier g ks p ss ds (x w c w' y t z : tensor R) : length (shape w) = 4 -> wf c -> multiplier_ok c = true -> fold_multiplier w c = Some w' ->
  (forall d, last (shape c) 1 = d -> d = 1 \/ d = nth 0 (shape w) 0) ->
  onnx_conv_rel g ks p ss ds x w y -> transpose_rel [0; 2; 3; 1] y t -> elementwise_rel Rmult t c z ->
  exists y', onnx_conv_rel g ks p ss ds x w' y' /\ transpose_rel [0; 2; 3; 1] y' z.
Proof.
  intros Lw Wc Ok Ef Hd (N & ins & kk & cg & og & outs & begins & Wx & Ww & Wy & Hg & Sx & Sw & Sy & Ek & Ax & G) T (_ & _ & Wz & Lz & Dz & Gz).
  rewrite Sw in Hd. cbn [nth] in Hd. assert (Lk : length kk = 2) by (rewrite Sw in Lw; cbn in Lw; lia). destruct kk as [|kh [|kw [|]]]; try discriminate Lk. clear Lk.
  destruct (fold_multiplier_spec w c w' _ _ _ _ Ww Wc Sw Ok Ef Hd) as (Ww' & Sw' & Lc & V).
  destruct (tr_facts _ 4 perm4_c y t T) as (Ly & Lt & _ & Wt & St & Gt). assert (Lo : length outs = 2) by (rewrite Sy in Ly; cbn in Ly; lia). destruct outs as [|oh [|ow [|]]]; try discriminate Lo. clear Lo.
  rewrite Sy in St. cbn in St. rewrite Lt in *. rewrite Nat.max_l in * by auto.
  assert (Sz : shape z = [N; oh; ow; g * og]).
  { apply list_nth_ext; [now rewrite Lz|]. rewrite Lz. intros k K. destruct (Dz k K) as [_ Dk]. rewrite Dk, St. cbn [length]. change (4 - 4) with 0. cbn [repeat app].
    set (dc := nth k (repeat 1 (4 - length (shape c)) ++ shape c) 0). assert (Hc : dc = 1 \/ (k = 3 /\ dc = g * og)).
    { unfold dc. clear -Ok Hd Lc K. unfold multiplier_ok in Ok. specialize (Hd _ eq_refl).
      destruct (shape c) as [|s0 [|s1 [|s2 [|s3 [|s4 l]]]]]; cbn [length] in Lc; try lia; cbn [removelast forallb last] in *; rewrite ?andb_true_iff, ?Nat.eqb_eq in Ok; cbn [length Nat.sub repeat app];
        destruct k as [|[|[|[|k]]]]; cbn [nth]; try lia. }
    destruct (Nat.eqb_spec (nth k [N; oh; ow; g * og] 0) 1) as [E1|E1]; auto. destruct Hc as [->|[-> ->]]; auto. }
  set (y' := from_fun (shape y) (fun ix => (value y ix * mult_at c (nth 1 ix 0%nat))%R)).
  exists y'. split.
  - exists N, ins, [kh; kw], cg, og, [oh; ow], begins. split; auto. split; auto. split; [apply from_fun_wf|]. do 4 (split; [auto; fail|]). split; auto. split; auto.
    intros b m o Hb Hm Ho. unfold y'. rewrite get_from_fun by (rewrite Sy; cbn; auto). f_equal. cbn [nth]. unfold value at 1. rewrite (G b m o Hb Hm Ho). rewrite <- rsum_scale. apply rsum_ext_lt. intros q Hq.
    rewrite <- msum_scale. apply msum_ext. intros tt Ht. destruct tt as [|i [|j [|]]]; cbn in Ht; try tauto. rewrite (V m q i j) by (rewrite Sw; cbn; tauto). ring.
  - assert (Pr : is_perm [0; 2; 3; 1] (length (shape y'))) by (cbn [y' from_fun shape]; rewrite Ly; apply perm4_c).
    split; auto. split; [apply from_fun_wf|]. split; auto. split; [cbn [y' from_fun shape]; rewrite Sy; exact Sz|].
    intros ix I. change (shape y') with (shape y) in I. rewrite Sy in I. destruct ix as [|b [|m [|i [|j [|]]]]]; cbn in I; try tauto. cbn [pick map nth].
    assert (Iy : inb [b; m; i; j] (shape y)) by (rewrite Sy; cbn; tauto).
    destruct (Gz [b; i; j; m]) as (a & d & Ga & Gd & Gv); [rewrite Sz; cbn; tauto|]. etransitivity; [exact Gv|].
    unfold y'. rewrite get_from_fun by auto. f_equal. cbn [nth]. rewrite (mult_bcast c) in Gd by auto.
    assert (Eb : bcast_ix 4 (shape t) [b; i; j; m] = [b; i; j; m]).
    { rewrite St. cbn. destruct I as (H1 & H2 & H3 & H4 & _). destruct (Nat.eqb_spec N 1), (Nat.eqb_spec oh 1), (Nat.eqb_spec ow 1), (Nat.eqb_spec (g * og) 1); repeat f_equal; lia. }
    rewrite Eb in Ga. rewrite (nhwc_at y t _ _ _ _ b m i j T Sy Iy) in Ga. unfold value, mult_at. unfold value. rewrite Ga, Gd. reflexivity.
Qed.

Lemma bcast_expand' k M m : k + 1 <= 4 -> bcast_ix 4 (repeat 1 k ++ [M]) [0; 0; 0; m] = repeat 0 k ++ [if Nat.eqb M 1 then 0 else m].
Proof. destruct k as [|[|[|[|k]]]]; intro H; try lia; reflexivity. Qed.
Lemma bias_at (c b : tensor R) M m : wf c -> multiplier_ok c = true -> length (shape c) <= 4 -> shape c <> [] -> bias_of c M = Some b -> m < M ->
  wf b /\ shape b = [M] /\ last (shape c) 1 = M /\ mult_at c m = value b [m].
Proof.
  intros W Ok L Ne E Hm. unfold bias_of in E. destruct (Nat.ltb _ _); [discriminate|]. destruct (Nat.eqb_spec (fold_right Nat.max 0 (shape c)) M) as [Em|]; [|discriminate]. cbn [negb] in E. rewrite Em in E. destruct (Nat.eqb_spec (length (data c)) M) as [Ed|]; [|discriminate]. inversion E; subst b. clear E.
  assert (Zc : size (shape c) = M) by (unfold wf in W; congruence).
  assert (Sc : exists k, shape c = repeat 1 k ++ [M]).
  { unfold multiplier_ok in Ok. destruct (shape c) as [|s0 [|s1 [|s2 [|s3 [|s4 l]]]]]; cbn [length] in L; try lia; try congruence; cbn [removelast forallb fold_right] in *; unfold size in Zc; cbn [fold_right] in Zc; rewrite ?andb_true_iff, ?Nat.eqb_eq in Ok.
    - exists 0. cbn. f_equal. lia.
    - exists 1. cbn. destruct Ok as (<- & _). f_equal. f_equal. lia.
    - exists 2. cbn. destruct Ok as (<- & <- & _). do 3 f_equal. lia.
    - exists 3. cbn. destruct Ok as (<- & <- & <- & _). do 4 f_equal. lia. }
  destruct Sc as (k & Sc). assert (Lk : k + 1 <= 4) by (rewrite Sc, app_length, repeat_length in L; exact L). split; [|split; [reflexivity|split]].
  - unfold wf in *. cbn [shape data]. cbn. lia.
  - rewrite Sc. apply last_last.
  - unfold mult_at, value, get. cbn [shape data]. f_equal. f_equal. rewrite Sc. rewrite bcast_expand' by (cbn; auto). rewrite ravel_ones. clear -Hm. cbn [ravel size fold_right]. destruct (Nat.eqb_spec M 1); [assert (m = 0) by lia; subst; reflexivity|reflexivity].
Qed.

Lemma conv_bias g ks p ss ds (x w c b y t z : tensor R) : length (shape y) = 4 -> wf c -> multiplier_ok c = true -> length (shape c) <= 4 -> shape c <> [] -> bias_of c (nth 0 (shape w) 0) = Some b -> 0 < nth 0 (shape w) 0 ->
  onnx_conv_rel g ks p ss ds x w y -> transpose_rel [0; 2; 3; 1] y t -> elementwise_rel Rplus t c z ->
  exists y', onnx_conv_bias_rel g ks p ss ds x w b y' /\ transpose_rel [0; 2; 3; 1] y' z.
Proof.
  intros Ly Wc Ok Lc Ne Eb Hpos Cv T (_ & _ & Wz & Lz & Dz & Gz). assert (Cv' := Cv). destruct Cv as (N & ins & kk & cg & og & outs & begins & Wx & Ww & Wy & Hg & Sx & Sw & Sy & _).
  rewrite Sw in Eb, Hpos. cbn [nth] in Eb, Hpos. destruct (bias_at c b _ 0 Wc Ok Lc Ne Eb Hpos) as (Wb & Sb & Hl & _).
  destruct (tr_facts _ 4 perm4_c y t T) as (_ & Lt & _ & Wt & St & Gt). assert (Lo : length outs = 2) by (rewrite Sy in Ly; cbn in Ly; lia). destruct outs as [|oh [|ow [|]]]; try discriminate Lo. clear Lo.
  rewrite Sy in St. cbn in St. rewrite Lt in *. rewrite Nat.max_l in * by auto.
  assert (Sz : shape z = [N; oh; ow; g * og]).
  { apply list_nth_ext; [now rewrite Lz|]. rewrite Lz. intros k K. destruct (Dz k K) as [_ Dk]. rewrite Dk, St. cbn [length]. change (4 - 4) with 0. cbn [repeat app].
    set (dc := nth k (repeat 1 (4 - length (shape c)) ++ shape c) 0). assert (Hc : dc = 1 \/ (k = 3 /\ dc = g * og)).
    { unfold dc. clear -Ok Hl Lc K Ne. unfold multiplier_ok in Ok.
      destruct (shape c) as [|s0 [|s1 [|s2 [|s3 [|s4 l]]]]]; cbn [length] in Lc; try lia; cbn [removelast forallb last] in *; rewrite ?andb_true_iff, ?Nat.eqb_eq in Ok; cbn [length Nat.sub repeat app];
        destruct k as [|[|[|[|k]]]]; cbn [nth]; try lia; congruence. }
    destruct (Nat.eqb_spec (nth k [N; oh; ow; g * og] 0) 1) as [E1|E1]; auto. destruct Hc as [->|[-> ->]]; auto. }
  set (y' := from_fun (shape y) (fun ix => (value y ix + value b [nth 1 ix 0%nat])%R)).
  exists y'. split.
  - exists y. split; auto. split; [apply from_fun_wf|]. split; auto. split; [reflexivity|]. split; [rewrite Sy; cbn [nth]; exact Sb|]. intros ix I. unfold y'. now rewrite get_from_fun by auto.
  - assert (Pr : is_perm [0; 2; 3; 1] (length (shape y'))) by (cbn [y' from_fun shape]; rewrite Ly; apply perm4_c).
    split; auto. split; [apply from_fun_wf|]. split; auto. split; [cbn [y' from_fun shape]; rewrite Sy; exact Sz|].
    intros ix I. change (shape y') with (shape y) in I. rewrite Sy in I. destruct ix as [|n [|m [|i [|j [|]]]]]; cbn in I; try tauto. cbn [pick map nth].
    assert (Iy : inb [n; m; i; j] (shape y)) by (rewrite Sy; cbn; tauto).
    destruct (Gz [n; i; j; m]) as (a & d & Ga & Gd & Gv); [rewrite Sz; cbn; tauto|]. etransitivity; [exact Gv|].
    unfold y'. rewrite get_from_fun by auto. f_equal. cbn [nth]. rewrite (mult_bcast c) in Gd by auto.
    assert (Eb' : bcast_ix 4 (shape t) [n; i; j; m] = [n; i; j; m]).
    { rewrite St. cbn. destruct I as (H1 & H2 & H3 & H4 & _). destruct (Nat.eqb_spec N 1), (Nat.eqb_spec oh 1), (Nat.eqb_spec ow 1), (Nat.eqb_spec (g * og) 1); repeat f_equal; lia. }
    rewrite Eb' in Ga. rewrite (nhwc_at y t _ _ _ _ n m i j T Sy Iy) in Ga. destruct (bias_at c b _ m Wc Ok Lc Ne Eb ltac:(tauto)) as (_ & _ & _ & <-).
    unfold mult_at, value. rewrite Ga, Gd. reflexivity.
Qed.
