(** What the graphs of CeModel compute. *)
From Coq Require Import Reals List Arith ZArith Bool Permutation Lia Lra.
From Verif Require Import Tensor FoldModel OnnxSpec FoldProofs TensorProofs TOps TOpsProofs TOpsProofs2 RewValues CumProofs BandProofs ReduceSpec ReduceProofs BnSpec BnProofs CeSpec CeModel.
Import ListNotations.
Local Open Scope R_scope.
Local Open Scope list_scope.

(** ** rows of a matrix *)
Definition row_of (c : nat) (f : nat -> R) : list R := map f (seq 0 c).
Lemma row_length c f : length (row_of c f) = c.
Proof. unfold row_of. now rewrite map_length, seq_length. Qed.
Lemma row_nth c f j d : (j < c)%nat -> nth j (row_of c f) d = f j.
Proof. intro H. unfold row_of. rewrite (nth_indep _ d (f 0%nat)) by (now rewrite map_length, seq_length). rewrite map_nth, seq_nth by exact H. reflexivity. Qed.
Lemma row_entries c (g : nat -> option R) f : (forall j, (j < c)%nat -> g j = Some (f j)) -> Forall2 (fun j v => g j = Some v) (seq 0 c) (row_of c f).
Proof.
  intro H. unfold row_of. assert (A : forall l, (forall j, In j l -> (j < c)%nat) -> Forall2 (fun j v => g j = Some v) l (map f l)).
  { induction l as [|j l IH]; intro B; cbn [map]; constructor; [apply H, B; now left|apply IH; intros; apply B; now right]. }
  apply A. intros j J. apply in_seq in J. lia.
Qed.
Lemma M_lane r c t f i : M r c t f -> (i < r)%nat -> exists vs, lane t [1%nat] [i; 0%nat] = map Some vs /\ Permutation vs (row_of c (f i)).
Proof.
  intros (W & Sh & G) Hi. set (F := fun ix => match ix with [a; b] => f a b | _ => 0 end).
  assert (GF : forall ix, inb ix [r; c] -> get t ix = Some (F ix)).
  { intros ix I. apply inb_2 in I. destruct I as (a & b & -> & Ha & Hb). now apply G. }
  unfold lane. rewrite Sh. set (L1 := filter _ _). exists (map F L1). split.
  { rewrite map_map. apply map_ext_in. intros ix I. apply filter_In in I. destruct I as [I _]. apply in_indices in I. now apply GF. }
  assert (E : row_of c (f i) = map F (map (fun j => [i; j]) (seq 0 c))) by (unfold row_of; rewrite map_map; reflexivity). rewrite E. apply Permutation_map. apply NoDup_Permutation.
  - unfold L1. apply NoDup_filter. apply indices_NoDup.
  - apply FinFun.Injective_map_NoDup; [intros a b H; congruence|apply seq_NoDup].
  - intro ix. unfold L1. rewrite filter_In, in_indices, in_map_iff. split.
    + intros [I Mt]. apply inb_2 in I. destruct I as (a & b & -> & Ha & Hb). exists b. cbn in Mt. rewrite andb_true_r in Mt. apply Nat.eqb_eq in Mt. subst a. split; [reflexivity|apply in_seq; lia].
    + intros (j & <- & J). apply in_seq in J. split; [cbn; lia|]. cbn. now rewrite Nat.eqb_refl.
Qed.
Lemma inb_col ix r : inb ix [r; 1%nat] -> exists i, (i < r)%nat /\ ix = [i; 0%nat].
Proof. intro I. apply inb_2 in I. destruct I as (i & j & -> & Hi & Hj). exists i. split; [exact Hi|]. f_equal. f_equal. lia. Qed.
Definition vec (r : nat) (t : tensor R) (f : nat -> R) : Prop := wf t /\ shape t = [r] /\ forall i, (i < r)%nat -> get t [i] = Some (f i).
Lemma flat_col {T} r (t : tensor T) : wf t -> shape t = [r; 1%nat] -> wf (Tensor [r] (data t)) /\ forall i, get (Tensor [r] (data t)) [i] = get t [i; 0%nat].
Proof.
  intros W Sh. split; [unfold wf in *; cbn [data shape]; rewrite W, Sh; cbn; lia|]. intro i. apply reindex. rewrite Sh. cbn. lia.
Qed.
Lemma reduce_any g a r c t f : norm_axis 2 a = Some 1%nat -> M r c t f ->
  exists u h, f_reduce g [a] true t = Some u /\ f_reduce g [a] false t = Some (Tensor [r] (data u)) /\ M r 1 u (fun i _ => h i) /\
    forall i, (i < r)%nat -> exists vs, Permutation vs (row_of c (f i)) /\ h i = g vs.
Proof.
  intros Ax H. destruct (H) as (W & Sh & G). set (h := fun i => match sequence (lane t [1%nat] [i; 0%nat]) with Some vs => g vs | None => 0 end).
  unfold f_reduce. rewrite Sh. change (length [r; c]) with 2%nat. cbn [norm_axes]. rewrite Ax. change (kept [1%nat] [r; c]) with [r; 1%nat]. change (drop_axes [1%nat] [r; c]) with [r].
  destruct (build_ex [r; 1%nat] (fun ix => option_map g (sequence (lane t [1%nat] ix)))) as (u & E & Su & Wu & Gu).
  { intros ix I. apply inb_col in I. destruct I as (i & Hi & ->). destruct (M_lane r c t f i H Hi) as (vs & -> & _). rewrite sequence_map_some. discriminate. }
  exists u, h. rewrite E. split; [reflexivity|]. split; [reflexivity|]. split.
  - split; [exact Wu|]. split; [exact Su|]. intros i j Hi Hj. assert (j = 0)%nat by lia. subst j. rewrite Gu by (cbn; lia). unfold h. destruct (M_lane r c t f i H Hi) as (vs & -> & _). rewrite sequence_map_some. reflexivity.
  - intros i Hi. unfold h. destruct (M_lane r c t f i H Hi) as (vs & -> & P). rewrite sequence_map_some. eauto.
Qed.
Lemma reduce_row g a r c t f : (forall l l', Permutation l l' -> g l = g l') -> norm_axis 2 a = Some 1%nat -> M r c t f ->
  exists u, f_reduce g [a] true t = Some u /\ f_reduce g [a] false t = Some (Tensor [r] (data u)) /\ M r 1 u (fun i _ => g (row_of c (f i))) /\ vec r (Tensor [r] (data u)) (fun i => g (row_of c (f i))).
Proof.
  intros Pg Ax H. destruct (reduce_any g a r c t f Ax H) as (u & h & E1 & E2 & Mu & Eh). exists u. split; [exact E1|]. split; [exact E2|].
  assert (Mu' : M r 1 u (fun i _ => g (row_of c (f i)))). { apply (M_ext r 1 u _ _ Mu). intros i j Hi _. destruct (Eh i Hi) as (vs & P & ->). now apply Pg. }
  split; [exact Mu'|]. destruct Mu' as (Wu & Su & Gu). destruct (flat_col r u Wu Su) as [Wf Gf]. split; [exact Wf|]. split; [reflexivity|]. intros i Hi. rewrite Gf. apply Gu; auto.
Qed.
Lemma squeeze_col r u h : M r 1 u (fun i _ => h i) -> exists y, f_squeeze [1]%Z u = Some y /\ vec r y h.
Proof.
  intros (W & Sh & G). exists (Tensor [r] (data u)). split; [unfold f_squeeze; rewrite Sh; reflexivity|]. destruct (flat_col r u W Sh) as [Wf Gf]. split; [exact Wf|]. split; [reflexivity|]. intros i Hi. rewrite Gf. apply G; auto.
Qed.
(** ** element by element, with broadcasting *)
Definition at_dim (d i : nat) : nat := if Nat.eqb d 1 then 0%nat else i.
Lemma M_bcast {X Y Z0} (f : X -> Y -> Z0) r1 c1 r2 c2 b n t g u h : M r1 c1 t g -> M r2 c2 u h -> bcast_dims [r1; c1] [r2; c2] = Some [b; n] ->
  exists y, f_binary f t u = Some y /\ M b n y (fun i j => f (g (at_dim r1 i) (at_dim c1 j)) (h (at_dim r2 i) (at_dim c2 j))) /\
    (forall i j, (i < b)%nat -> (j < n)%nat -> (at_dim r1 i < r1)%nat /\ (at_dim c1 j < c1)%nat /\ (at_dim r2 i < r2)%nat /\ (at_dim c2 j < c2)%nat).
Proof.
  intros (Wt & St & Gt) (Wu & Su & Gu) B.
  assert (Rg : forall i j, (i < b)%nat -> (j < n)%nat -> (at_dim r1 i < r1)%nat /\ (at_dim c1 j < c1)%nat /\ (at_dim r2 i < r2)%nat /\ (at_dim c2 j < c2)%nat).
  { intros i j Hi Hj. destruct (bcast_dims_spec _ _ _ B) as (_ & _ & K). destruct (K 0%nat ltac:(cbn; lia)) as [K1 K2]. destruct (K 1%nat ltac:(cbn; lia)) as [K3 K4]. cbn [nth] in K1, K2, K3, K4.
    unfold at_dim. destruct (Nat.eqb_spec r1 1), (Nat.eqb_spec c1 1), (Nat.eqb_spec r2 1), (Nat.eqb_spec c2 1); lia. }
  unfold f_binary. cbv zeta. rewrite St, Su. change (Nat.max (length [r1; c1]) (length [r2; c2])) with 2%nat. unfold pad_ones. cbn [length Nat.sub repeat app]. rewrite B.
  assert (A : forall i j, (i < b)%nat -> (j < n)%nat -> match get t (bcast_ix 2 [r1; c1] [i; j]), get u (bcast_ix 2 [r2; c2] [i; j]) with Some p, Some q => Some (f p q) | _, _ => None end = Some (f (g (at_dim r1 i) (at_dim c1 j)) (h (at_dim r2 i) (at_dim c2 j)))).
  { intros i j Hi Hj. destruct (Rg i j Hi Hj) as (A1 & A2 & A3 & A4). change (bcast_ix 2 [r1; c1] [i; j]) with [at_dim r1 i; at_dim c1 j]. change (bcast_ix 2 [r2; c2] [i; j]) with [at_dim r2 i; at_dim c2 j].
    rewrite Gt, Gu by auto. reflexivity. }
  match goal with |- context [build _ ?F] => destruct (M_build b n (fun i j => f (g (at_dim r1 i) (at_dim c1 j)) (h (at_dim r2 i) (at_dim c2 j))) F A) as (y & E & My) end.
  exists y. split; [exact E|]. split; [exact My|exact Rg].
Qed.
Lemma at_dim_same d i : (i < d)%nat -> at_dim d i = i.
Proof. unfold at_dim. destruct (Nat.eqb_spec d 1); lia. Qed.
Lemma vec_bin (f : R -> R -> R) r t u g h : vec r t g -> vec r u h -> exists y, f_binary f t u = Some y /\ vec r y (fun i => f (g i) (h i)).
Proof.
  intros (Wt & St & Gt) (Wu & Su & Gu). unfold f_binary. cbv zeta. rewrite St, Su. change (Nat.max _ _) with (length [r]). unfold pad_ones. rewrite Nat.sub_diag. cbn [repeat app]. rewrite bcast_same.
  assert (A : forall i, (i < r)%nat -> match get t (bcast_ix (length [r]) [r] [i]), get u (bcast_ix (length [r]) [r] [i]) with Some p, Some q => Some (f p q) | _, _ => None end = Some (f (g i) (h i))).
  { intros i Hi. rewrite bcast_self by (cbn; auto). now rewrite Gt, Gu. }
  match goal with |- context [build ?s ?F] => destruct (build_ex s F) as (y & E & Sy & Wy & Gy) end.
  { intros [|i [|]]; cbn [inb]; try tauto. intros [Hi _]. rewrite A by auto. discriminate. }
  exists y. split; [exact E|]. split; [exact Wy|]. split; [exact Sy|]. intros i Hi. rewrite Gy by (cbn; auto). now apply A.
Qed.
Lemma vec_scalar (f : R -> R -> R) r t g v : vec r t g -> exists y, f_binary f t (Tensor [] [v]) = Some y /\ vec r y (fun i => f (g i) v).
Proof.
  intros (W & Sh & G). unfold f_binary. cbv zeta. rewrite Sh. cbn [shape length Nat.max]. unfold pad_ones. cbn [length Nat.sub repeat app].
  assert (B : bcast_dims [r] [1%nat] = Some [r]) by (cbn [bcast_dims]; destruct (Nat.eqb_spec r 1); subst; reflexivity). rewrite B.
  assert (A : forall i, (i < r)%nat -> match get t (bcast_ix 1 [r] [i]), get (Tensor [] [v]) (bcast_ix 1 [] [i]) with Some p, Some q => Some (f p q) | _, _ => None end = Some (f (g i) v)).
  { intros i Hi. change 1%nat with (length [r]) at 1. rewrite bcast_self by (cbn; auto). now rewrite G. }
  match goal with |- context [build ?s ?F] => destruct (build_ex s F) as (y & E & Sy & Wy & Gy) end.
  { intros [|i [|]]; cbn [inb]; try tauto. intros [Hi _]. rewrite A by auto. discriminate. }
  exists y. split; [exact E|]. split; [exact Wy|]. split; [exact Sy|]. intros i Hi. rewrite Gy by (cbn; auto). now apply A.
Qed.
Lemma vec_unary (f : R -> R) r t g : vec r t g -> vec r (f_unary f t) (fun i => f (g i)).
Proof.
  intros (W & Sh & G). split; [|split].
  - unfold wf, f_unary. cbn [shape data]. rewrite map_length. exact W.
  - exact Sh.
  - intros i Hi. specialize (G i Hi). unfold get, f_unary in *. cbn [shape data]. rewrite nth_error_map, G. reflexivity.
Qed.
Lemma M_of r c (t : tensor R) : wf t -> shape t = [r; c] -> exists f, M r c t f.
Proof.
  intros W Sh. exists (fun i j => match get t [i; j] with Some v => v | None => 0 end). split; [exact W|]. split; [exact Sh|]. intros i j Hi Hj. destruct (get_wf t [i; j] W) as [v E]; [rewrite Sh; cbn; auto|]. now rewrite E.
Qed.
(** ** softmax *)
Lemma M_softmax opset h r c t f : M r c t f -> exists y, f_softmax opset h None t = Some y /\ M r c y (fun i j => h (row_of c (f i)) (f i j)).
Proof.
  intros (W & Sh & G). unfold f_softmax. rewrite Sh. change (length [r; c]) with 2%nat.
  assert (Ax : norm_axis 2 (if Nat.ltb opset 13 then 1 else -1) = Some 1%nat) by (destruct (Nat.ltb opset 13); reflexivity). rewrite Ax.
  apply M_build. intros i j Hi Hj. rewrite G by auto. cbn [firstn skipn nth].
  assert (E : (if Nat.ltb opset 13 then map (fun l => get t ([i] ++ l)) (indices [c]) else map (fun k => get t (set_dim 1 k [i; j])) (seq 0 c)) = map Some (row_of c (f i))).
  { unfold row_of. rewrite map_map. destruct (Nat.ltb opset 13).
    - unfold indices. rewrite map_map. replace (size [c]) with c by (cbn; lia). apply map_ext_in. intros k K. apply in_seq in K. cbn [unravel app size fold_right]. rewrite Nat.div_1_r. apply G; auto. lia.
    - apply map_ext_in. intros k K. apply in_seq in K. cbn [set_dim]. apply G; auto. lia. }
  rewrite E, sequence_map_some. reflexivity.
Qed.
(** ** arithmetic *)
Lemma combine_rows c f g : combine (row_of c f) (row_of c g) = map (fun j => (f j, g j)) (seq 0 c).
Proof. unfold row_of. induction (seq 0 c) as [|j l IH]; cbn [map combine]; [reflexivity|]. now rewrite IH. Qed.
Lemma times_rows c l k f : times (row_of c l) (map k (row_of c f)) = row_of c (fun j => l j * k (f j)).
Proof. replace (map k (row_of c f)) with (row_of c (fun j => k (f j))) by (unfold row_of; now rewrite map_map). unfold times. rewrite combine_rows, map_map. reflexivity. Qed.
Lemma row_ext c f g : (forall j, (j < c)%nat -> f j = g j) -> row_of c f = row_of c g.
Proof. intro H. unfold row_of. apply map_ext_in. intros j J. apply in_seq in J. apply H. lia. Qed.
Lemma sum_one e l : forall n a, sum (map (fun j => (if Nat.eqb j l then 1 else 0) * e j) (seq a n)) = if (Nat.leb a l && Nat.ltb l (a + n))%bool then e l else 0.
Proof.
  unfold sum. induction n as [|n IH]; intro a.
  - cbn [seq map fold_right]. replace (Nat.leb a l && Nat.ltb l (a + 0))%bool with false; [reflexivity|]. symmetry. apply andb_false_iff. destruct (Nat.leb_spec a l); [right; apply Nat.ltb_ge; lia|auto].
  - cbn [seq map fold_right]. rewrite IH. destruct (Nat.eqb_spec a l) as [->|N].
    + rewrite (proj2 (Nat.leb_gt (S l) l)) by lia. cbn [andb]. rewrite (proj2 (Nat.leb_le l l)), (proj2 (Nat.ltb_lt l _)) by lia. cbn [andb]. lra.
    + replace (Nat.leb (S a) l && Nat.ltb l (S a + n))%bool with (Nat.leb a l && Nat.ltb l (a + S n))%bool; [destruct (_ && _)%bool; lra|].
      destruct (Nat.leb_spec (S a) l), (Nat.leb_spec a l); try lia; cbn [andb]; try reflexivity. destruct (Nat.ltb_spec l (a + S n)), (Nat.ltb_spec l (S a + n)); try lia; reflexivity.
Qed.
Lemma sum_row_one c e l : (l < c)%nat -> sum (row_of c (fun j => (if Nat.eqb j l then 1 else 0) * e j)) = e l.
Proof. intro H. unfold row_of. rewrite sum_one. rewrite (proj2 (Nat.leb_le 0 l)), (proj2 (Nat.ltb_lt l _)) by lia. reflexivity. Qed.
Lemma sum_scale l k : sum (map (fun v => v * k) l) = sum l * k.
Proof. unfold sum. induction l as [|v l IH]; cbn [map fold_right]; lra. Qed.
Lemma sum_exp_pos l : l <> [] -> 0 < sum (map exp l).
Proof.
  assert (P : forall m, 0 <= sum (map exp m)). { unfold sum. induction m as [|v m IH]; cbn [map fold_right]; [lra|]. assert (0 < exp v) by apply exp_pos. lra. }
  destruct l as [|v l]; [congruence|]. intros _. unfold sum in *. cbn [map fold_right]. specialize (P l). assert (0 < exp v) by apply exp_pos. lra.
Qed.
(** the largest value that is subtracted does not matter *)
Lemma shifted c f l m : (l < c)%nat -> ln (sum (row_of c (fun j => (if Nat.eqb j l then 1 else 0) * exp (f j - m))) / sum (row_of c (fun j => exp (f j - m)))) * -1 = - log_softmax_of (row_of c f) (f l).
Proof.
  intro H. rewrite (sum_row_one c (fun j => exp (f j - m)) l H).
  replace (sum (row_of c (fun j => exp (f j - m)))) with (sum (map exp (row_of c f)) * exp (- m)).
  2:{ rewrite <- sum_scale, map_map. unfold row_of. rewrite map_map. f_equal. apply map_ext. intro j. rewrite <- exp_plus. reflexivity. }
  assert (P : 0 < sum (map exp (row_of c f))). { apply sum_exp_pos. intro E. apply (f_equal (@length _)) in E. rewrite row_length in E. cbn in E. lia. }
  assert (0 < exp (- m)) by apply exp_pos. assert (0 < exp (f l - m)) by apply exp_pos.
  unfold log_softmax_of. unfold Rdiv. assert (0 < sum (map exp (row_of c f)) * exp (- m)) by now apply Rmult_lt_0_compat. rewrite ln_mult, ln_Rinv; [|assumption|assumption|now apply Rinv_0_lt_compat]. rewrite ln_mult by lra. rewrite !ln_exp. lra.
Qed.
Lemma bcast_comm2 a b c d l : bcast_dims [a; b] [c; d] = Some l -> bcast_dims [c; d] [a; b] = Some l.
Proof.
  cbn [bcast_dims]. destruct (Nat.eqb_spec b d), (Nat.eqb_spec d b), (Nat.eqb_spec b 1), (Nat.eqb_spec d 1), (Nat.eqb_spec a c), (Nat.eqb_spec c a), (Nat.eqb_spec a 1), (Nat.eqb_spec c 1); intro E; subst; try congruence; try lia.
Qed.
(** ** the graphs *)
(** negate and squeeze a column *)
Lemma negate_col b u h : M b 1 u (fun i _ => h i) -> exists m y, f_binary Rmult minus_one u = Some m /\ f_squeeze [1]%Z m = Some y /\ vec b y (fun i => - h i).
Proof.
  intro H. destruct (M_one_l Rmult b 1 u _ minus_one (-1) H eq_refl) as (m & E & Hm). destruct (squeeze_col b m (fun i => -1 * h i) Hm) as (y & E' & (W & Sh & G)). exists m, y. split; [exact E|]. split; [exact E'|]. split; [exact W|]. split; [exact Sh|].
  intros i Hi. rewrite G by exact Hi. f_equal. lra.
Qed.
Lemma dense_ok opset lb ln_ fb n b labels L features F : M lb ln_ labels L -> M fb n features F -> bcast_dims [fb; n] [lb; ln_] = Some [b; n] ->
  exists y, cross_entropy opset labels features = Some y /\ vec b y (fun i => - sum (row_of n (fun j => L (at_dim lb i) (at_dim ln_ j) * log_softmax_of (row_of n (F (at_dim fb i))) (F (at_dim fb i) j)))) /\
   (forall i j, (i < b)%nat -> (j < n)%nat -> (at_dim fb i < fb)%nat /\ (at_dim lb i < lb)%nat /\ (at_dim ln_ j < ln_)%nat).
Proof.
  intros HL HF B. apply bcast_comm2 in B. destruct (M_softmax opset log_softmax_of fb n features F HF) as (s & E1 & Hs).
  destruct (M_bcast Rmult lb ln_ fb n b n labels L s _ HL Hs B) as (p & E2 & Hp & Rg).
  destruct (reduce_row sum (-1) b n p _ sum_perm eq_refl Hp) as (u & E3 & _ & Hu & _). destruct (negate_col b u _ Hu) as (m & y & E4 & E5 & Hy).
  exists y. unfold cross_entropy. rewrite E1. cbn [obind]. rewrite E2. cbn [obind]. rewrite E3. cbn [obind]. rewrite E4. cbn [obind]. split; [exact E5|]. split.
  - destruct Hy as (W & Sh & G). split; [exact W|]. split; [exact Sh|]. intros i Hi. rewrite G by exact Hi. f_equal. f_equal. f_equal. apply row_ext. intros j Hj. now rewrite (at_dim_same n j).
  - intros i j Hi Hj. destruct (Rg i j Hi Hj) as (A1 & A2 & A3 & A4). auto.
Qed.
Lemma bcast_col b n : bcast_dims [b; n] [b; 1%nat] = Some [b; n].
Proof. cbn [bcast_dims]. destruct (Nat.eqb_spec n 1); subst; rewrite ?Nat.eqb_refl; reflexivity. Qed.
Definition one_at (l : nat -> nat) (i j : nat) : R := if Nat.eqb j (l i) then 1 else 0.
Lemma masked_ce_ok b n label logit F l : M b n logit F -> M b n label (one_at l) -> (forall i, (i < b)%nat -> (l i < n)%nat) ->
  exists y, masked_cross_entropy label logit = Some y /\ vec b y (fun i => - log_softmax_of (row_of n (F i)) (F i (l i))).
Proof.
  intros HF HL Hl. destruct (reduce_any largest (-1) b n logit F eq_refl HF) as (mx & m & E1 & _ & Hm & _).
  destruct (M_bcast Rminus b n b 1 b n logit F mx _ HF Hm (bcast_col b n)) as (d & E2 & Hd & _).
  assert (Hd' : M b n d (fun i j => F i j - m i)). { apply (M_ext b n d _ _ Hd). intros i j Hi Hj. rewrite !at_dim_same by assumption. reflexivity. }
  assert (He := M_unary exp b n d _ Hd').
  destruct (reduce_row sum (-1) b n _ _ sum_perm eq_refl He) as (u & _ & E3 & _ & Hu).
  destruct (M_both Rmult b n label _ _ _ HL He) as (p & E4 & Hp).
  destruct (reduce_row sum (-1) b n p _ sum_perm eq_refl Hp) as (v & _ & E5 & _ & Hv).
  destruct (vec_bin Rdiv b _ _ _ _ Hv Hu) as (q & E6 & Hq).
  destruct (vec_scalar Rmult b (f_unary ln q) _ (-1) (vec_unary ln b q _ Hq)) as (y & E7 & (W & Sh & G)).
  exists y. unfold masked_cross_entropy. rewrite E1. cbn [obind]. rewrite E2. cbn [obind]. rewrite E3. cbn [obind]. rewrite E4. cbn [obind]. rewrite E5. cbn [obind]. rewrite E6. cbn [obind]. split; [exact E7|].
  split; [exact W|]. split; [exact Sh|]. intros i Hi. rewrite G by exact Hi. f_equal. unfold one_at. apply (shifted n (F i) (l i) (m i)). now apply Hl.
Qed.
Lemma labels_of b n features labels : sparse_args b n features labels -> exists l, forall i, (i < b)%nat -> (l i < n)%nat /\ get labels [i] = Some (Z.of_nat (l i)).
Proof.
  intros (_ & _ & _ & _ & H). exists (fun i => match get labels [i] with Some z => Z.to_nat z | None => 0%nat end). intros i Hi. destruct (H i Hi) as (k & Hk & E). rewrite E, Nat2Z.id. auto.
Qed.
Lemma one_hot_ok b n labels (l : nat -> nat) : wf labels -> shape labels = [b] -> (forall i, (i < b)%nat -> (l i < n)%nat /\ get labels [i] = Some (Z.of_nat (l i))) ->
  exists t, f_one_hot false (-1) (Z.of_nat n) 0%Z 1%Z labels = Some t /\ M b n (f_unary IZR t) (one_at l).
Proof.
  intros W Sh H. unfold f_one_hot. cbv zeta. rewrite Sh. change (norm_axis (S (length [b])) (-1)) with (Some 1%nat). rewrite (proj2 (Z.leb_le 0 _)) by lia. rewrite Nat2Z.id.
  change (insert_at 1 n [b]) with [b; n]. cbn [andb].
  match goal with |- context [build _ ?F] => destruct (M_build b n (fun i j => if Nat.eqb j (l i) then 1%Z else 0%Z) F) as (t & E & Ht) end.
  { intros i j Hi Hj. cbn [firstn skipn app nth]. destruct (H i Hi) as [_ ->]. f_equal. destruct (Z.eqb_spec (Z.of_nat (l i)) (Z.of_nat j)), (Nat.eqb_spec j (l i)); try lia; reflexivity. }
  exists t. split; [exact E|]. apply (M_ext b n _ _ _ (M_unary IZR b n t _ Ht)). intros i j _ _. unfold one_at. destruct (Nat.eqb j (l i)); reflexivity.
Qed.
Lemma unsqueeze_last {T} (t : tensor T) b a : wf t -> shape t = [b] -> (a = -1 \/ a = 1)%Z -> f_unsqueeze [a] t = Some (Tensor [b; 1%nat] (data t)) /\ wf (Tensor [b; 1%nat] (data t)) /\ forall i, get (Tensor [b; 1%nat] (data t)) [i; 0%nat] = get t [i].
Proof.
  intros W Sh A. split; [unfold f_unsqueeze; rewrite Sh; destruct A as [-> | ->]; reflexivity|]. split; [unfold wf in *; cbn [data shape]; rewrite W, Sh; cbn; lia|]. intro i. apply reindex. rewrite Sh. cbn. lia.
Qed.
Lemma get_seq n j : (j < n)%nat -> get (zvec (map Z.of_nat (seq 0 n))) [j] = Some (Z.of_nat j).
Proof.
  intro H. unfold get, zvec. cbn [shape data ravel]. replace (j * size [] + 0)%nat with j by (cbn; lia). rewrite nth_error_map, (nth_error_nth' _ 0%nat) by (rewrite seq_length; lia). now rewrite seq_nth.
Qed.
Lemma equal_ok b n labels (l : nat -> nat) : wf labels -> shape labels = [b] -> (forall i, (i < b)%nat -> (l i < n)%nat /\ get labels [i] = Some (Z.of_nat (l i))) ->
  exists t, f_binary Z.eqb (Tensor [b; 1%nat] (data labels)) (zvec (map Z.of_nat (seq 0 n))) = Some t /\ M b n (f_unary (fun c : bool => if c then 1 else 0) t) (one_at l).
Proof.
  intros W Sh H. destruct (unsqueeze_last labels b 1 W Sh (or_intror eq_refl)) as (_ & Wu & Gu). unfold f_binary. cbv zeta. set (u := Tensor [b; 1%nat] (data labels)) in *. change (shape u) with [b; 1%nat].
  assert (Sz : shape (zvec (map Z.of_nat (seq 0 n))) = [n]) by (unfold zvec; cbn [shape]; now rewrite map_length, seq_length).
  rewrite Sz. change (Nat.max (length [b; 1%nat]) (length [n])) with 2%nat. unfold pad_ones. cbn [length Nat.sub repeat app].
  assert (B : bcast_dims [b; 1%nat] [1%nat; n] = Some [b; n]). { cbn [bcast_dims]. destruct b as [|[|b']], n as [|[|n']]; reflexivity. }
  rewrite B.
  match goal with |- context [build _ ?F] => destruct (M_build b n (fun i j => Z.eqb (Z.of_nat (l i)) (Z.of_nat j)) F) as (t & E & Ht) end.
  { intros i j Hi Hj. change (bcast_ix 2 [b; 1%nat] [i; j]) with [at_dim b i; 0%nat]. change (bcast_ix 2 [n] [i; j]) with [at_dim n j]. rewrite !at_dim_same by assumption.
    rewrite Gu. destruct (H i Hi) as [_ ->]. now rewrite get_seq. }
  exists t. split; [exact E|]. apply (M_ext b n _ _ _ (M_unary _ b n t _ Ht)). intros i j _ _. unfold one_at. destruct (Z.eqb_spec (Z.of_nat (l i)) (Z.of_nat j)), (Nat.eqb_spec j (l i)); try lia; reflexivity.
Qed.
Lemma eye_ok n i j : (i < n)%nat -> (j < n)%nat -> get (eye n) [i; j] = Some (if Nat.eqb j i then 1 else 0).
Proof.
  intros Hi Hj. unfold get, eye. cbn [shape data ravel]. replace (i * size [n] + (j * size [] + 0))%nat with (i * n + j)%nat by (cbn; lia).
  rewrite nth_error_map, (nth_error_nth' _ 0%nat) by (rewrite seq_length; nia). rewrite seq_nth by nia. cbn [option_map Nat.add]. f_equal.
  rewrite <- (Nat.div_unique (i * n + j) n i j) by lia. rewrite <- (Nat.mod_unique (i * n + j) n i j) by lia. rewrite Nat.eqb_sym. reflexivity.
Qed.
Lemma gather_eye b n labels (l : nat -> nat) : wf labels -> shape labels = [b] -> (forall i, (i < b)%nat -> (l i < n)%nat /\ get labels [i] = Some (Z.of_nat (l i))) ->
  exists t, f_gather 0 (eye n) labels = Some t /\ M b n t (one_at l).
Proof.
  intros W Sh H. unfold f_gather. change (norm_axis (length (shape (eye n))) 0) with (Some 0%nat). cbv beta iota zeta. rewrite Sh. change (firstn 0 (shape (eye n)) ++ [b] ++ skipn 1 (shape (eye n))) with [b; n].
  match goal with |- context [build _ ?F] => destruct (M_build b n (one_at l) F) as (t & E & Ht) end; [|eauto].
  intros i j Hi Hj. destruct (H i Hi) as [Hl G]. change (firstn (length [b]) (skipn 0 [i; j])) with [i]. rewrite G. change (nth 0 (shape (eye n)) 0%nat) with n.
  assert (A : norm_axis n (Z.of_nat (l i)) = Some (l i)). { unfold norm_axis. rewrite (proj2 (Z.leb_le 0 _)), (proj2 (Z.ltb_lt _ _)) by lia. now rewrite Nat2Z.id. }
  rewrite A. change (firstn 0 [i; j] ++ l i :: skipn (0 + length [b]) [i; j]) with [l i; j]. rewrite eye_ok by assumption. reflexivity.
Qed.
(** ** the handlers *)
Lemma softmax_any opset h x pre d : wf x -> shape x = pre ++ [d] ->
  exists y, softmax opset h (Some (length (shape x))) x = Some y /\ wf y /\ shape y = shape x /\
    forall p, inb p pre -> exists f, (forall j, (j < d)%nat -> get x (p ++ [j]) = Some (f j)) /\ forall j, (j < d)%nat -> get y (p ++ [j]) = Some (h (row_of d f) (f j)).
Proof.
  intros W Sh. assert (L : length (shape x) = S (length pre)) by (rewrite Sh, app_length; cbn; lia).
  set (g := fun p j => match get x (p ++ [j]) with Some v => v | None => 0 end).
  assert (Gx : forall p j, inb p pre -> (j < d)%nat -> get x (p ++ [j]) = Some (g p j)).
  { intros p j Ip Hj. unfold g. destruct (get_wf x (p ++ [j]) W) as [v E]; [rewrite Sh; apply inb_app; [now apply inb_length|cbn; auto]|]. now rewrite E. }
  assert (K : forall ax, norm_axis (length (shape x)) (match ax with Some a => a | None => if Nat.ltb opset 13 then 1 else -1 end) = Some (length pre) -> exists y, f_softmax opset h ax x = Some y /\ wf y /\ shape y = shape x /\
    forall p j, inb p pre -> (j < d)%nat -> get y (p ++ [j]) = Some (h (row_of d (g p)) (g p j))).
  { intros ax Ax. unfold f_softmax. rewrite Ax.
    match goal with |- context [build _ ?F] => set (G := F) end.
    assert (A : forall p j, inb p pre -> (j < d)%nat -> G (p ++ [j]) = Some (h (row_of d (g p)) (g p j))).
    { intros p j Ip Hj. unfold G. rewrite Gx by assumption. assert (Lp := inb_length _ _ Ip).
      assert (E : (if Nat.ltb opset 13 then map (fun r => get x (firstn (length pre) (p ++ [j]) ++ r)) (indices (skipn (length pre) (shape x))) else map (fun k => get x (set_dim (length pre) k (p ++ [j]))) (seq 0 (nth (length pre) (shape x) 0%nat))) = map Some (row_of d (g p))).
      { unfold row_of. rewrite map_map. destruct (Nat.ltb opset 13).
        - rewrite Sh, skipn_app, skipn_all, Nat.sub_diag. cbn [skipn app]. rewrite <- Lp, firstn_app, firstn_all, Nat.sub_diag. cbn [firstn]. rewrite app_nil_r. unfold indices. rewrite map_map. replace (size [d]) with d by (cbn; lia).
          apply map_ext_in. intros k K. apply in_seq in K. cbn [unravel size fold_right]. rewrite Nat.div_1_r. apply Gx; auto. lia.
        - rewrite Sh, app_nth2, Nat.sub_diag by lia. cbn [nth]. apply map_ext_in. intros k K. apply in_seq in K. rewrite <- Lp. rewrite set_dim_mid. apply Gx; auto. lia. }
      rewrite E, sequence_map_some. reflexivity. }
    destruct (build_ex (shape x) G) as (y & E & Sy & Wy & Gy).
    { intros ix I. rewrite Sh in I. destruct (CumProofs.inb_mid pre d [] ix I) as (p & j & q & -> & Ip & Iq & Hj). destruct q; [|destruct Iq]. rewrite A by assumption. discriminate. }
    exists y. split; [exact E|]. split; [exact Wy|]. split; [exact Sy|]. intros p j Ip Hj. rewrite Gy; [now apply A|]. rewrite Sh. apply inb_app; [now apply inb_length|cbn; auto]. }
  unfold softmax, softmax_axis. destruct (Nat.ltb opset 13) eqn:O.
  - cbn [obind]. destruct (K (Some (Z.of_nat (length (shape x)) - 1)%Z)) as (y & E & Wy & Sy & Gy).
    { rewrite L. unfold norm_axis. rewrite (proj2 (Z.leb_le 0 _)), (proj2 (Z.ltb_lt _ _)) by lia. f_equal. lia. }
    exists y. split; [exact E|]. split; [exact Wy|]. split; [exact Sy|]. intros p Ip. exists (g p). split; intros j Hj; [now apply Gx|now apply Gy].
  - cbn [obind]. destruct (K None) as (y & E & Wy & Sy & Gy).
    { rewrite L. unfold norm_axis. change (0 <=? -1)%Z with false. cbv iota. rewrite (proj2 (Z.leb_le _ (-1))) by lia. f_equal. lia. }
    exists y. split; [exact E|]. split; [exact Wy|]. split; [exact Sy|]. intros p Ip. exists (g p). split; intros j Hj; [now apply Gx|now apply Gy].
Qed.
Lemma bcast_same2 b n : bcast_dims [b; n] [b; n] = Some [b; n].
Proof. apply bcast_same. Qed.
Lemma sparse_ok opset classes features labels b n F l : sparse_args b n features labels -> M b n features F -> (forall i, (i < b)%nat -> (l i < n)%nat /\ get labels [i] = Some (Z.of_nat (l i))) ->
  (classes = None \/ classes = Some n) -> (9 <= opset)%nat \/ (classes = Some n /\ (Z.of_nat n <= 20000)%Z) -> (Z.of_nat n <= 2147483647)%Z ->
  exists y, sparse opset classes features labels = Some y /\ vec b y (fun i => - log_softmax_of (row_of n (F i)) (F i (l i))).
Proof.
  intros (Wf & Sf & Wl & Sl & _) HF Hl C O Big. unfold sparse. destruct (Nat.ltb_spec opset 9) as [O9|O9].
  - destruct O as [O|[-> N]]; [lia|]. rewrite (proj2 (Z.ltb_ge _ _)) by lia. unfold sparse7. rewrite (proj2 (Z.leb_le _ _)) by lia.
    destruct (gather_eye b n labels l Wl Sl Hl) as (t & E1 & Ht). destruct (M_softmax opset log_softmax_of b n features F HF) as (s & E2 & Hs).
    destruct (M_both Rmult b n t _ s _ Ht Hs) as (p & E3 & Hp). destruct (reduce_row sum 1 b n p _ sum_perm eq_refl Hp) as (u & E4 & _ & Hu & _). destruct (negate_col b u _ Hu) as (m & y & E5 & E6 & (Wy & Sy & Gy)).
    exists y. rewrite E1. cbn [obind]. rewrite E2. cbn [obind]. rewrite E3. cbn [obind]. rewrite E4. cbn [obind]. rewrite E5. cbn [obind]. split; [exact E6|]. split; [exact Wy|]. split; [exact Sy|].
    intros i Hi. rewrite Gy by exact Hi. f_equal. f_equal. unfold one_at. apply (sum_row_one n (fun j => log_softmax_of (row_of n (F i)) (F i j))). now apply Hl.
  - unfold sparse9.
    assert (D : exists k, match classes with Some n => Some (zvec [Z.of_nat n]) | None => f_slice [-1]%Z [2147483647]%Z None (zvec (map Z.of_nat (shape features))) end = Some (zvec [Z.of_nat k]) /\ k = n).
    { exists n. split; [|reflexivity]. destruct C as [-> | ->]; [|reflexivity]. rewrite Sf. change (zvec (map Z.of_nat [b; n])) with (tvec (map Z.of_nat [b; n])). rewrite slice_vec. reflexivity. }
    destruct D as (k & D & ->). rewrite D. cbn [obind].
    assert (T : exists label, (if Nat.ltb opset 11 then match data (zvec [Z.of_nat n]) with [depth] => obind (f_one_hot false (-1) depth 0%Z 1%Z labels) (fun t => Some (f_unary IZR t)) | _ => None end
         else obind (f_unsqueeze [-1]%Z labels) (fun index_unsq => obind (f_squeeze [0]%Z (zvec [Z.of_nat n])) (fun depth_sq => obind (f_range_to depth_sq) (fun dp_range =>
           obind (f_binary Z.eqb index_unsq dp_range) (fun t => Some (f_unary (fun b : bool => if b then 1 else 0) t)))))) = Some label /\ M b n label (one_at l)).
    { destruct (Nat.ltb opset 11).
      - cbn [data zvec]. destruct (one_hot_ok b n labels l Wl Sl Hl) as (t & E & Ht). rewrite E. cbn [obind]. eauto.
      - destruct (unsqueeze_last labels b (-1) Wl Sl (or_introl eq_refl)) as (E & _ & _). rewrite E. cbn [obind]. change (f_squeeze [0]%Z (zvec [Z.of_nat n])) with (Some (Tensor [] [Z.of_nat n])). cbn [obind f_range_to shape data]. rewrite Nat2Z.id. cbn [obind].
        destruct (equal_ok b n labels l Wl Sl Hl) as (t & E' & Ht). rewrite E'. cbn [obind]. eauto. }
    destruct T as (label & E & HL). rewrite E. cbn [obind]. apply masked_ce_ok; [exact HF|exact HL|]. intros i Hi. now apply Hl.
Qed.
Lemma gathernd_fails opset classes features labels b n : sparse_args b n features labels -> (opset < 9)%nat ->
  (classes = None \/ exists k, classes = Some k /\ (20000 < Z.of_nat k)%Z) -> sparse opset classes features labels = None.
Proof.
  intros (Wf & Sf & Wl & Sl & _) O C. unfold sparse. rewrite (proj2 (Nat.ltb_lt _ _)) by exact O.
  replace (match classes with Some n0 => Z.ltb 20000 (Z.of_nat n0) | None => true end) with true by (destruct C as [-> | (k & -> & K)]; [reflexivity|symmetry; now apply Z.ltb_lt]).
  unfold sparse7_by_gathernd. destruct (unsqueeze_last labels b 1 Wl Sl (or_intror eq_refl)) as (E & _ & _). rewrite E. cbn [obind].
  destruct (f_range_to _) as [ids|] eqn:Er; [|reflexivity]. cbn [obind]. destruct (f_unsqueeze [1]%Z ids) as [ui|] eqn:Eu; [|reflexivity]. cbn [obind]. destruct (f_concat 1 _) as [ix|] eqn:Ec; [|reflexivity]. cbn [obind].
  destruct (M_of b n features Wf Sf) as [F HF]. destruct (M_softmax opset log_softmax_of b n features F HF) as (s & Es & (Ws & Ss & _)). rewrite Es. cbn [obind].
  destruct (f_gather_nd 0 s ix) as [g|] eqn:Eg; [|reflexivity]. cbn [obind].
  assert (Sx : exists a, shape ix = [a; 2%nat]).
  { unfold f_range_to in Er. cbn [shape data] in Er. injection Er as <-. unfold f_unsqueeze in Eu. cbn in Eu. injection Eu as <-. unfold f_concat in Ec. cbn [shape] in Ec.
    change (norm_axis _ 1) with (Some 1%nat) in Ec. cbv beta iota zeta in Ec. destruct (forallb _ _); [|discriminate]. apply build_spec in Ec. destruct Ec as (S0 & _ & _). rewrite S0. cbn. eauto. }
  destruct Sx as (a & Sx). unfold f_gather_nd in Eg. cbv zeta in Eg. rewrite Sx, Ss in Eg.
  cbn [length last Nat.ltb Nat.leb andb Nat.add firstn list_eqb Nat.sub skipn app] in Eg. apply build_spec in Eg. destruct Eg as (Sg & _ & _).
  unfold f_binary. cbv zeta. rewrite Sg. cbn [minus_one shape length Nat.max]. unfold pad_ones. cbn [length Nat.sub repeat app].
  assert (B : bcast_dims [1%nat] [a] = Some [a]) by (cbn [bcast_dims]; rewrite (Nat.eqb_sym 1 a); destruct (Nat.eqb_spec a 1); subst; reflexivity). rewrite B.
  destruct (build [a] _) as [m|] eqn:Em; [|reflexivity]. cbn [obind]. apply build_spec in Em. destruct Em as (Sm & _ & _).
  unfold f_squeeze. rewrite Sm. reflexivity.
Qed.
