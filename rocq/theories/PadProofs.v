(** Pad: constant, reflect and symmetric. *)
From Coq Require Import List Arith ZArith Bool Lia.
From Verif Require Import Tensor FoldModel OnnxSpec TensorProofs TOps TOpsProofs TOpsProofs2 SpaceModel SpaceProofs2 PushProofs RollProofs IdxProofs PadModel PadSpec.
Import ListNotations.
Local Open Scope list_scope.

(** ** index lists position by position *)
Lemma addix_nth a b k : length a = length b -> k < length a -> nth k (addix a b) 0 = nth k a 0 + nth k b 0.
Proof. revert b k. induction a as [|x a IH]; intros [|y b] [|k] L H; cbn in *; try lia. apply IH; lia. Qed.
Lemma list_as_map l r : length l = r -> l = map (fun k => nth k l 0) (seq 0 r).
Proof. intros <-. symmetry. apply pick_seq. Qed.
Lemma nth_map_seq (f : nat -> nat) r k : k < r -> nth k (map f (seq 0 r)) 0 = f k.
Proof. intro H. rewrite (nth_indep _ 0 (f 0)) by (rewrite map_length, seq_length; lia). rewrite map_nth, seq_nth by lia. reflexivity. Qed.
Lemma inb_nth_iff ix sh : inb ix sh <-> length ix = length sh /\ forall k, k < length sh -> nth k ix 0 < nth k sh 0.
Proof.
  revert sh. induction ix as [|i ix IH]; intros [|d sh]; cbn [inb length]; split; try tauto; try (intros [H _]; discriminate).
  - intros _. split; auto. intros; lia.
  - intros [H1 H2]. apply IH in H2. destruct H2 as [H2 H3]. split; [lia|]. intros [|k] Hk; cbn; auto. apply H3. lia.
  - intros [L H]. split; [apply (H 0); lia|]. apply IH. split; [lia|]. intros k Hk. apply (H (S k)). lia.
Qed.
Lemma mirror_ix_len sh bs ix : length bs = length sh -> length ix = length sh -> length (mirror_ix sh bs ix) = length sh.
Proof. revert bs ix. induction sh as [|d sh IH]; intros [|b bs] [|i ix] L1 L2; cbn in *; try lia. f_equal. apply IH; lia. Qed.
Lemma mirror_ix_nth sh bs ix k : length bs = length sh -> length ix = length sh -> k < length sh ->
  nth k (mirror_ix sh bs ix) 0 = mirror (nth k sh 0) (nth k bs 0) (nth k ix 0).
Proof. revert bs ix k. induction sh as [|d sh IH]; intros [|b bs] [|i ix] [|k] L1 L2 H; cbn [length mirror_ix nth] in *; try lia; auto. apply IH; lia. Qed.
Lemma pad_src_at sh bs ix : length bs = length sh -> length ix = length sh ->
  (forall k, k < length sh -> nth k bs 0 <= nth k ix 0 /\ nth k ix 0 - nth k bs 0 < nth k sh 0) ->
  exists jx, pad_src sh bs ix = Some jx /\ length jx = length sh /\ forall k, k < length sh -> nth k jx 0 = nth k ix 0 - nth k bs 0.
Proof.
  revert bs ix. induction sh as [|d sh IH]; intros [|b bs] [|i ix] L1 L2 H; cbn [length] in *; try lia.
  - exists []. repeat split; auto. intros; lia.
  - destruct (H 0 ltac:(lia)) as [H1 H2]. cbn in H1, H2. destruct (IH bs ix) as (jx & E & L & N); try lia.
    + intros k Hk. apply (H (S k)). lia.
    + exists ((i - b) :: jx). cbn [pad_src]. rewrite (proj2 (Nat.leb_le b i) H1), (proj2 (Nat.ltb_lt _ _) H2), E. cbn [andb option_map length]. repeat split; try lia.
      intros [|k] Hk; cbn; auto. apply N. lia.
Qed.
Lemma pad_sources_at mode sh rows ix g : length rows = length sh -> length ix = length sh ->
  (forall k, k < length sh -> pad_source mode (nth k sh 0) (nth k (map fst rows) 0) (nth k ix 0) = Some (nth k g 0)) -> length g = length sh ->
  pad_sources mode sh rows ix = Some g.
Proof.
  revert rows ix g. induction sh as [|d sh IH]; intros [|[b a] rows] [|i ix] [|g0 g] L1 L2 H L3; cbn [length] in *; try lia; auto.
  assert (H0 := H 0 ltac:(lia)). cbn in H0. cbn [pad_sources]. rewrite H0. rewrite (IH rows ix g); auto. intros k Hk. apply (H (S k)). lia.
Qed.
Lemma padded_shape_is sh rows : length rows = length sh -> padded_shape sh rows = addix (map fst rows) (addix sh (map snd rows)).
Proof. revert rows. induction sh as [|d sh IH]; intros [|[b a] rows] L; cbn in *; try lia; auto. f_equal; [lia|]. apply IH. lia. Qed.
Lemma constant_sources sh rows ix : length rows = length sh -> pad_sources Constant sh rows ix = pad_src sh (map fst rows) ix.
Proof.
  revert rows ix. induction sh as [|d sh IH]; intros [|[b a] rows] [|i ix] L; cbn in L; try lia; auto; try discriminate.
  cbn [pad_sources pad_src map fst]. unfold pad_source. destruct (Nat.leb b i && Nat.ltb (i - b) d); auto. rewrite IH by lia. destruct (pad_src sh (map fst rows) ix); reflexivity.
Qed.

(** ** the reflect mode of ONNX *)
Lemma mirror_lt d b a i : (b = 0 \/ b < d) -> (a = 0 \/ a < d) -> i < b + (d + a) -> mirror d b i < d.
Proof. intros H1 H2 H. unfold mirror. cbv zeta. destruct (Z.ltb_spec (Z.of_nat i - Z.of_nat b) 0); [lia|]. destruct (Z.ltb_spec (Z.of_nat i - Z.of_nat b) (Z.of_nat d)); lia. Qed.
Lemma combine_app' {X Y} (a a' : list X) (b b' : list Y) : length a = length b -> combine (a ++ a') (b ++ b') = combine a b ++ combine a' b'.
Proof. apply combine_app. Qed.
Lemma forallb_combine (f : nat * nat -> bool) a b : length a = length b -> (forall k, k < length a -> f (nth k a 0, nth k b 0) = true) -> forallb f (combine a b) = true.
Proof.
  revert b. induction a as [|x a IH]; intros [|y b] L H; cbn [length] in *; try lia; auto. cbn [combine forallb]. assert (H0 := H 0 ltac:(lia)). cbn [nth] in H0. rewrite H0. cbn [andb]. apply IH; [lia|]. intros k Hk. apply (H (S k)). lia.
Qed.
Lemma reflect_spec {T} bs as_ (t : tensor T) : wf t -> length bs = length (shape t) -> length as_ = length (shape t) ->
  (forall k, k < length (shape t) -> (nth k bs 0 = 0 \/ nth k bs 0 < nth k (shape t) 0) /\ (nth k as_ 0 = 0 \/ nth k as_ 0 < nth k (shape t) 0)) ->
  exists y, f_pad_reflect (map Z.of_nat (bs ++ as_)) t = Some y /\ wf y /\ shape y = addix bs (addix (shape t) as_) /\
    forall ix, inb ix (shape y) -> get y ix = get t (mirror_ix (shape t) bs ix).
Proof.
  intros W Lb La H. unfold f_pad_reflect. rewrite map_length, app_length, Lb, La, Nat.eqb_refl.
  replace (forallb (fun p => (0 <=? p)%Z) (map Z.of_nat (bs ++ as_))) with true.
  2:{ symmetry. apply forallb_forall. intros z Hz. apply in_map_iff in Hz. destruct Hz as (k & <- & _). apply Z.leb_le. lia. }
  cbn [andb]. cbv zeta. rewrite !map_app. destruct (app_cut (map Z.of_nat bs) (map Z.of_nat as_) (length (shape t))) as [-> ->]; [now rewrite map_length|].
  assert (M : forall l, map Z.to_nat (map Z.of_nat l) = l) by (intro l; rewrite map_map; transitivity (map (fun x : nat => x) l); [apply map_ext; intro; apply Nat2Z.id|apply map_id]).
  rewrite !M. rewrite combine_app', forallb_app by auto.
  rewrite !forallb_combine; auto.
  2:{ intros k Hk. rewrite La in Hk. destruct (H k Hk) as [_ [-> | H2]]; auto. apply Nat.ltb_lt in H2. rewrite H2. apply orb_true_r. }
  2:{ intros k Hk. rewrite Lb in Hk. destruct (H k Hk) as [[-> | H2] _]; auto. apply Nat.ltb_lt in H2. rewrite H2. apply orb_true_r. }
  cbn [andb]. destruct (build_ex (addix bs (addix (shape t) as_)) (fun ix => get t (mirror_ix (shape t) bs ix))) as (y & B & S1 & W1 & G1).
  - intros ix Hi. assert (Li := inb_length _ _ Hi). rewrite addix_length in Li by (rewrite addix_length; lia). apply get_some; auto. apply inb_nth_iff.
    rewrite mirror_ix_len by lia. split; auto. intros k Hk. rewrite mirror_ix_nth by lia. apply inb_nth_iff in Hi. destruct Hi as [_ Hi]. destruct (H k Hk) as [H1 H2].
    apply (mirror_lt _ _ (nth k as_ 0)); auto. specialize (Hi k). rewrite !addix_length in Hi by (rewrite ?addix_length; lia). rewrite !addix_nth in Hi by (rewrite ?addix_length; lia). apply Hi. lia.
  - exists y. split; auto. split; auto. split; auto. intros ix Hi. apply G1. congruence.
Qed.

(** ** the mask *)
Fixpoint positions (o : nat) (c : list bool) : list nat :=
  match c with [] => [] | x :: c' => if x then o :: positions (S o) c' else positions (S o) c' end.
Lemma positions_is c : forall o, filter (fun k => nth (k - o) c false) (seq o (length c)) = positions o c.
Proof.
  induction c as [|x c IH]; intro o; auto.
  assert (E : filter (fun k => nth (k - o) (x :: c) false) (seq (S o) (length c)) = positions (S o) c).
  { rewrite <- IH. apply filter_ext_in. intros k Hk. apply in_seq in Hk. replace (k - o) with (S (k - S o)) by lia. reflexivity. }
  cbn [length seq positions]. simpl filter. rewrite Nat.sub_diag. simpl filter in E. rewrite E. destruct x; reflexivity.
Qed.
Lemma true_at_is c : true_at c = positions 0 c.
Proof. unfold true_at. rewrite <- positions_is. apply filter_ext. intro k. now rewrite Nat.sub_0_r. Qed.
Lemma positions_app a b : forall o, positions o (a ++ b) = positions o a ++ positions (o + length a) b.
Proof.
  induction a as [|x a IH]; intro o; cbn [app positions length]; [now rewrite Nat.add_0_r|]. rewrite IH. replace (S o + length a) with (o + S (length a)) by lia.
  destruct x; reflexivity.
Qed.
Lemma positions_true n : forall o, positions o (repeat true n) = seq o n.
Proof. induction n as [|n IH]; intro o; cbn [repeat positions seq]; auto. now rewrite IH. Qed.
Definition mask (b d a : nat) : list bool := repeat true b ++ false :: repeat true d ++ false :: repeat true a.
Definition keepf (b d j : nat) : nat := if Nat.ltb j b then j else if Nat.ltb j (b + d) then j + 1 else j + 2.
Lemma mask_keep b d a : true_at (mask b d a) = map (keepf b d) (seq 0 (b + d + a)).
Proof.
  rewrite true_at_is. unfold mask. rewrite positions_app, positions_true. cbn [positions]. rewrite positions_app, positions_true. cbn [positions]. rewrite positions_true, !repeat_length.
  rewrite !seq_app, !map_app. cbn [Nat.add]. rewrite <- app_assoc.
  assert (Q : forall o n c, (forall j, o <= j < o + n -> keepf b d j = j + c) -> seq (o + c) n = map (keepf b d) (seq o n)).
  { intros o n. revert o. induction n as [|n IH]; intros o c H; auto. cbn [seq map]. rewrite H by lia. f_equal. rewrite <- (IH (S o) c) by (intros; apply H; lia). f_equal. }
  f_equal; [|f_equal].
  - rewrite <- (Q 0 b 0); auto. intros j Hj. unfold keepf. rewrite (proj2 (Nat.ltb_lt j b)) by lia. lia.
  - rewrite <- (Q b d 1); [f_equal; lia|]. intros j Hj. unfold keepf. rewrite (proj2 (Nat.ltb_ge j b)), (proj2 (Nat.ltb_lt j (b + d))) by lia. lia.
  - rewrite <- (Q (b + d) a 2); [f_equal; lia|]. intros j Hj. unfold keepf. rewrite (proj2 (Nat.ltb_ge j b)), (proj2 (Nat.ltb_ge j (b + d))) by lia. lia.
Qed.
Lemma mask_scatter b d a : scatter (repeat true (b + (d + 2) + a)) [Z.of_nat b; (-1 - Z.of_nat a)%Z] [false; false] = Some (mask b d a).
Proof.
  cbn [scatter]. rewrite repeat_length. rewrite seq_axis by lia.
  assert (E : repeat true (b + (d + 2) + a) = repeat true b ++ true :: repeat true d ++ true :: repeat true a).
  { replace (b + (d + 2) + a) with (b + (1 + (d + (1 + a)))) by lia. rewrite !repeat_app. reflexivity. }
  rewrite E. destruct (app_cut (repeat true b) (true :: repeat true d ++ true :: repeat true a) b) as [-> _]; [apply repeat_length|].
  replace (repeat true b ++ true :: repeat true d ++ true :: repeat true a) with ((repeat true b ++ [true]) ++ repeat true d ++ true :: repeat true a) by (now rewrite <- app_assoc).
  destruct (app_cut (repeat true b ++ [true]) (repeat true d ++ true :: repeat true a) (S b)) as [_ ->]; [rewrite app_length, repeat_length; cbn; lia|].
  replace (length (repeat true b ++ false :: repeat true d ++ true :: repeat true a)) with (b + d + 2 + a) by (rewrite app_length; cbn [length]; rewrite app_length; cbn [length]; rewrite !repeat_length; lia).
  replace (norm_axis (b + d + 2 + a) (-1 - Z.of_nat a)) with (Some (b + 1 + d)).
  2:{ unfold norm_axis. rewrite (proj2 (Z.leb_gt 0 _)) by lia. rewrite (proj2 (Z.leb_le _ _)) by lia. f_equal. lia. }
  replace (repeat true b ++ false :: repeat true d ++ true :: repeat true a) with ((repeat true b ++ false :: repeat true d) ++ true :: repeat true a) by (now rewrite <- app_assoc).
  destruct (app_cut (repeat true b ++ false :: repeat true d) (true :: repeat true a) (b + 1 + d)) as [-> _]; [rewrite app_length; cbn [length]; rewrite !repeat_length; lia|].
  replace ((repeat true b ++ false :: repeat true d) ++ true :: repeat true a) with (((repeat true b ++ false :: repeat true d) ++ [true]) ++ repeat true a) by (now rewrite <- app_assoc).
  destruct (app_cut ((repeat true b ++ false :: repeat true d) ++ [true]) (repeat true a) (S (b + 1 + d))) as [_ ->]; [rewrite !app_length; cbn [length]; rewrite !repeat_length; lia|].
  unfold mask. now rewrite <- app_assoc.
Qed.
