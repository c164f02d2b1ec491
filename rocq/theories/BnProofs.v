(** What the graphs of BnModel compute. *)
From Coq Require Import Reals List Arith ZArith Bool Permutation Lia Lra.
From Verif Require SegProofs PushProofs.
From Verif Require Import Tensor FoldModel OnnxSpec FoldProofs TensorProofs TOps TOpsProofs TOpsProofs2 RewValues MatProofs CumProofs ReduceSpec ReduceProofs BnSpec BnModel.
Import ListNotations.
Local Open Scope R_scope.
Local Open Scope list_scope.

(** ** channels last, channels first *)
Lemma place_inb last n c s N C sp : (n < N)%nat -> (c < C)%nat -> inb s sp -> inb (place last n c s) (place last N C sp).
Proof.
  intros Hn Hc Hs. unfold place. destruct last; cbn [inb]; (split; [exact Hn|]); [|split; assumption]. revert sp Hs. induction s as [|i s IH]; intros [|d sp]; cbn [inb app]; try tauto. intros [H1 H2]. split; auto.
Qed.
Lemma place_all last N C sp ix : inb ix (place last N C sp) -> exists n c s, ix = place last n c s /\ (n < N)%nat /\ (c < C)%nat /\ inb s sp.
Proof.
  unfold place. destruct last.
  - destruct ix as [|n ix]; [intros []|]. intros [Hn I]. destruct (CumProofs.inb_mid sp C [] ix I) as (s & c & q & -> & Hs & Hq & Hc). destruct q; [|destruct Hq]. exists n, c, s. auto.
  - destruct ix as [|n [|c s]]; cbn; try tauto. intros (Hn & Hc & Hs). exists n, c, s. auto.
Qed.
Lemma pick_first a (sp : list nat) b : pick (channels_first (length sp)) (a :: sp ++ [b]) = a :: b :: sp.
Proof.
  unfold pick, channels_first. cbn [map nth]. f_equal. rewrite app_nth2, Nat.sub_diag by lia. cbn [nth]. f_equal.
  rewrite <- seq_shift, map_map. apply nth_ext with (d := 0%nat) (d' := 0%nat); [now rewrite map_length, seq_length|].
  intros k K. rewrite map_length, seq_length in K. rewrite (nth_indep _ 0%nat ((fun x => nth (S x) (a :: sp ++ [b]) 0%nat) 0%nat)) by now rewrite map_length, seq_length.
  rewrite (map_nth (fun x => nth (S x) (a :: sp ++ [b]) 0%nat)). rewrite seq_nth by exact K. cbn [nth Nat.add]. now rewrite app_nth1.
Qed.
Lemma pick_last a (sp : list nat) b : pick (channels_last (length sp)) (a :: b :: sp) = a :: sp ++ [b].
Proof.
  unfold pick, channels_last. cbn [map nth]. f_equal. rewrite map_app. cbn [map nth]. f_equal.
  replace (seq 2 (length sp)) with (map (fun k => S (S k)) (seq 0 (length sp))) by (rewrite <- seq_shift, <- seq_shift, map_map; reflexivity). rewrite map_map.
  cbn [nth]. apply nth_ext with (d := 0%nat) (d' := 0%nat); [now rewrite map_length, seq_length|].
  intros k K. rewrite map_length, seq_length in K. rewrite (nth_indep _ 0%nat (nth 0 sp 0%nat)) by now rewrite map_length, seq_length.
  rewrite (map_nth (fun x => nth x sp 0%nat)). rewrite seq_nth by exact K. reflexivity.
Qed.
Lemma perm_first k : is_perm (channels_first k) (S (S k)).
Proof. unfold is_perm, channels_first. cbn [seq]. apply perm_skip. replace (1%nat :: seq 2 k) with (seq 1 k ++ [S k]) by (rewrite <- seq_S; reflexivity). apply Permutation_cons_append. Qed.
Lemma perm_last k : is_perm (channels_last k) (S (S k)).
Proof. unfold is_perm, channels_last. cbn [seq]. apply perm_skip. symmetry. apply Permutation_cons_append. Qed.

(** t holds X n c s for picture n, channel c and place s *)
Definition Holds (last : bool) (N C : nat) (sp : list nat) (t : tensor R) (X : nat -> nat -> list nat -> R) : Prop :=
  wf t /\ shape t = place last N C sp /\ forall n c s, (n < N)%nat -> (c < C)%nat -> inb s sp -> get t (place last n c s) = Some (X n c s).
Lemma to_first N C sp t X : Holds true N C sp t X -> exists u, f_transpose (Some (channels_first (length sp))) t = Some u /\ Holds false N C sp u X.
Proof.
  intros (W & Sh & G). destruct (transpose_spec (channels_first (length sp)) t W) as (u & E & Su & Wu & Gu).
  { rewrite Sh. cbn [place length]. rewrite app_length. cbn [length]. rewrite Nat.add_1_r. apply perm_first. }
  exists u. split; [exact E|]. split; [exact Wu|]. split; [rewrite Su, Sh; apply pick_first|].
  intros n c s Hn Hc Hs. assert (L := inb_length _ _ Hs). cbn [place]. rewrite <- (pick_first n s c), L, Gu; [apply (G n c s); auto|].
  rewrite Sh. apply (place_inb true); auto.
Qed.
Lemma to_last N C sp t X : Holds false N C sp t X -> exists u, f_transpose (Some (channels_last (length sp))) t = Some u /\ Holds true N C sp u X.
Proof.
  intros (W & Sh & G). destruct (transpose_spec (channels_last (length sp)) t W) as (u & E & Su & Wu & Gu).
  { rewrite Sh. cbn [place length]. apply perm_last. }
  exists u. split; [exact E|]. split; [exact Wu|]. split; [rewrite Su, Sh; apply pick_last|].
  intros n c s Hn Hc Hs. assert (L := inb_length _ _ Hs). cbn [place]. rewrite <- (pick_last n s c), L, Gu; [apply (G n c s); auto|].
  rewrite Sh. apply (place_inb false); auto.
Qed.
Lemma holds_of last N C sp t : wf t -> shape t = place last N C sp -> exists X, Holds last N C sp t X.
Proof.
  intros W Sh. exists (fun n c s => match get t (place last n c s) with Some v => v | None => 0 end). split; [exact W|]. split; [exact Sh|].
  intros n c s Hn Hc Hs. destruct (get_wf t (place last n c s) W) as [v E]; [rewrite Sh; now apply place_inb|]. now rewrite E.
Qed.

(** ** sums do not depend on the order *)
Lemma sum_perm l l' : Permutation l l' -> sum l = sum l'.
Proof. induction 1; unfold sum in *; cbn [fold_right]; lra. Qed.
Lemma average_perm l l' : Permutation l l' -> average l = average l'.
Proof. intro P. unfold average. now rewrite (sum_perm _ _ P), (Permutation_length P). Qed.
Lemma sum_square_perm l l' : Permutation l l' -> sum_square l = sum_square l'.
Proof. intro P. apply sum_perm. now apply Permutation_map. Qed.

(** ** the values of a channel *)
Lemma prod_NoDup {X Y} (l : list X) (m : list Y) : NoDup l -> NoDup m -> NoDup (list_prod l m).
Proof.
  intros Nl Nm. induction Nl as [|x l Hx Nl IH]; cbn [list_prod]; [constructor|].
  assert (Nx : NoDup (map (fun y => (x, y)) m)) by (apply FinFun.Injective_map_NoDup; [intros a b H; congruence|exact Nm]).
  revert Nx. assert (D : forall p, In p (map (fun y => (x, y)) m) -> ~ In p (list_prod l m)).
  { intros p I J. apply in_map_iff in I. destruct I as (y & <- & _). apply in_prod_iff in J. tauto. }
  revert D. generalize (map (fun y => (x, y)) m). intros k D. induction k as [|p k IHk]; intro Nk; cbn [app]; [exact IH|]. inversion Nk; subst.
  constructor; [|apply IHk; auto; intros q Q; apply D; now right]. intro J. apply in_app_iff in J. destruct J as [J|J]; [contradiction|]. now apply (D p (or_introl eq_refl)).
Qed.
Section Channel.
Variables (N C : nat) (sp : list nat).
Notation dims := (0%nat :: seq 2 (length sp)).
Definition values (X : nat -> nat -> list nat -> R) (c : nat) : list R := map (fun ns => X (fst ns) c (snd ns)) (places N sp).
Lemma in_dims k : In k dims <-> k = 0%nat \/ (2 <= k < 2 + length sp)%nat.
Proof. cbn [In]. rewrite in_seq. intuition. Qed.
Lemma existsb_dims k : existsb (Nat.eqb k) dims = (Nat.eqb k 0 || (Nat.leb 2 k && Nat.ltb k (2 + length sp)))%bool.
Proof.
  destruct (existsb (Nat.eqb k) dims) eqn:E.
  - apply existsb_exists in E. destruct E as (j & I & E). apply Nat.eqb_eq in E. subst j. apply in_dims in I. symmetry. apply orb_true_iff. rewrite Nat.eqb_eq, andb_true_iff, Nat.leb_le, Nat.ltb_lt. tauto.
  - symmetry. apply not_true_is_false. intro K. apply orb_true_iff in K. rewrite Nat.eqb_eq, andb_true_iff, Nat.leb_le, Nat.ltb_lt in K.
    assert (I : In k dims) by (apply in_dims; tauto). assert (X : existsb (Nat.eqb k) dims = true) by (apply existsb_exists; exists k; split; [exact I|apply Nat.eqb_refl]). congruence.
Qed.
Lemma drop_tail : forall (l : list nat) k, (2 <= k)%nat -> (k + length l <= 2 + length sp)%nat -> drop_from k dims l = [].
Proof.
  induction l as [|d l IH]; intros k K L; [reflexivity|]. cbn [drop_from length] in *. rewrite existsb_dims.
  rewrite (proj2 (Nat.leb_le 2 k)) by lia. rewrite (proj2 (Nat.ltb_lt k _)) by lia. cbn [andb]. rewrite orb_true_r. apply IH; lia.
Qed.
Lemma drop_dims a b l : length l = length sp -> drop_axes dims (a :: b :: l) = [b].
Proof.
  intro L. unfold drop_axes. cbn [drop_from]. rewrite (existsb_dims 0), (existsb_dims 1). cbn [Nat.eqb orb Nat.leb andb]. f_equal. apply drop_tail; lia.
Qed.
Lemma kept_dims : kept dims (N :: C :: sp) = 1%nat :: C :: repeat 1%nat (length sp).
Proof.
  unfold kept. cbn [length seq map]. rewrite (existsb_dims 0), (existsb_dims 1). cbn [Nat.eqb orb Nat.leb andb nth]. do 2 f_equal.
  assert (G : forall m k, (2 <= k)%nat -> (k + m <= 2 + length sp)%nat -> map (fun k0 => if existsb (Nat.eqb k0) dims then 1%nat else nth k0 (N :: C :: sp) 0%nat) (seq k m) = repeat 1%nat m).
  { induction m as [|m IH]; intros k K L; [reflexivity|]. cbn [seq map repeat]. rewrite existsb_dims.
    rewrite (proj2 (Nat.leb_le 2 k)) by lia. rewrite (proj2 (Nat.ltb_lt k _)) by lia. cbn [andb]. rewrite orb_true_r. f_equal. apply IH; lia. }
  apply G; lia.
Qed.
Lemma inb_ones : forall k ix, inb ix (repeat 1%nat k) <-> ix = repeat 0%nat k.
Proof.
  induction k as [|k IH]; intros [|i ix]; cbn [repeat inb]; try (split; [tauto|discriminate]); [tauto|]. rewrite IH. split; [intros [H ->]; f_equal; lia|intro E; injection E as -> ->; split; auto].
Qed.
Lemma inb_kept ix : inb ix (1%nat :: C :: repeat 1%nat (length sp)) <-> exists c, (c < C)%nat /\ ix = 0%nat :: c :: repeat 0%nat (length sp).
Proof.
  destruct ix as [|i [|c ix]]; cbn [inb]; [split; [tauto|intros (? & _ & ?); discriminate]|split; [tauto|intros (? & _ & ?); discriminate]|].
  rewrite inb_ones. split; [intros (Hi & Hc & ->); exists c; split; auto; f_equal; lia|intros (c' & Hc & E); injection E as -> -> ->; auto].
Qed.
(** the lane of a channel holds its values, in some order *)
Lemma lane_channel t X c : Holds false N C sp t X -> (c < C)%nat ->
  exists vs, lane t dims (0%nat :: c :: repeat 0%nat (length sp)) = map Some vs /\ Permutation vs (values X c).
Proof.
  intros (W & Sh & G) Hc. set (F := fun ix => match ix with n :: c' :: s => X n c' s | _ => 0 end).
  assert (GF : forall ix, inb ix (N :: C :: sp) -> get t ix = Some (F ix)).
  { intros [|n [|c' s]]; cbn [inb]; try tauto. intros (Hn & Hc' & Hs). apply (G n c' s); auto. }
  unfold lane. rewrite Sh. cbn [place]. set (L1 := filter _ _).
  exists (map F L1). split.
  { rewrite map_map. apply map_ext_in. intros ix I. apply filter_In in I. destruct I as [I _]. apply in_indices in I. now apply GF. }
  assert (E : values X c = map F (map (fun ns => fst ns :: c :: snd ns) (places N sp))) by (unfold values; rewrite map_map; reflexivity). rewrite E. apply Permutation_map.
  apply NoDup_Permutation.
  - unfold L1. apply NoDup_filter. apply indices_NoDup.
  - apply FinFun.Injective_map_NoDup.
    + intros [n s] [n' s'] H. cbn in H. congruence.
    + unfold places. apply prod_NoDup; [apply seq_NoDup|apply indices_NoDup].
  - intro ix. unfold L1. rewrite filter_In, in_indices, in_map_iff. split.
    + intros [I M]. destruct ix as [|n [|c' s]]; cbn [inb] in I; try tauto. destruct I as (Hn & Hc' & Hs).
      unfold matches in M. assert (M1 := proj1 (forallb_forall _ _) M 1%nat). cbv beta in M1. rewrite existsb_dims in M1. cbn [Nat.eqb orb Nat.leb andb nth] in M1.
      assert (E1 : c = c') by (apply Nat.eqb_eq; apply M1; apply in_seq; cbn; lia). subst c'. exists (n, s). split; [reflexivity|]. unfold places. apply in_prod; [apply in_seq; lia|now apply in_indices].
    + intros ([n s] & <- & I). unfold places in I. apply in_prod_iff in I. destruct I as [Hn Hs]. apply in_seq in Hn. apply in_indices in Hs. cbn [fst snd]. split; [cbn; auto with arith; split; [lia|auto]|].
      unfold matches. apply forallb_forall. intros k K. apply in_seq in K. cbn [length] in K. rewrite existsb_dims. rewrite (inb_length _ _ Hs) in K.
      destruct (Nat.eqb_spec k 0); [reflexivity|]. destruct (Nat.eq_dec k 1) as [->|N1]; [cbn [nth]; rewrite Nat.eqb_refl; apply orb_true_r|].
      rewrite (proj2 (Nat.leb_le 2 k)) by lia. rewrite (proj2 (Nat.ltb_lt k _)) by lia. reflexivity.
Qed.
End Channel.
Lemma size_nil : size [] = 1%nat.
Proof. reflexivity. Qed.
Lemma size_repeat_ones : forall k, size (repeat 1%nat k) = 1%nat.
Proof. induction k as [|k IH]; [reflexivity|]. cbn [repeat]. rewrite size_cons, IH. reflexivity. Qed.
Lemma ravel_zeros : forall k, ravel (repeat 1%nat k) (repeat 0%nat k) = 0%nat.
Proof. induction k as [|k IH]; [reflexivity|]. cbn [repeat ravel]. now rewrite IH. Qed.
Lemma flat_kept C k c : ravel [C] [c] = ravel (1%nat :: C :: repeat 1%nat k) (0%nat :: c :: repeat 0%nat k).
Proof. cbn [ravel]. rewrite size_repeat_ones, ravel_zeros, size_nil. lia. Qed.
Lemma dims_axes k m : m = S (S k) -> norm_axes m (map Z.of_nat (0%nat :: seq 2 k)) = Some (0%nat :: seq 2 k).
Proof. intros ->. apply PushProofs.norm_axes_of_nat. intros j [<-|J]; [lia|]. apply in_seq in J. lia. Qed.
Notation zdims sp := (map Z.of_nat (0%nat :: seq 2 (length sp))).
Notation zeros sp := (repeat 0%nat (length sp)).
Notation ones sp := (repeat 1%nat (length sp)).
Lemma flatten_kept {T} C k (u : tensor T) : wf u -> shape u = 1%nat :: C :: repeat 1%nat k ->
  wf (Tensor [C] (data u)) /\ forall c, get (Tensor [C] (data u)) [c] = get u (0%nat :: c :: repeat 0%nat k).
Proof.
  intros W Sh. split.
  - unfold wf in *. cbn [data shape]. rewrite W, Sh, !size_cons, size_repeat_ones, size_nil. lia.
  - intro c. apply reindex. rewrite Sh. apply flat_kept.
Qed.
Lemma reduce_channel g N C sp t X : (forall l l', Permutation l l' -> g l = g l') -> Holds false N C sp t X ->
  exists u, f_reduce g (zdims sp) true t = Some u /\ f_reduce g (zdims sp) false t = Some (Tensor [C] (data u)) /\ wf u /\ shape u = 1%nat :: C :: ones sp /\
    forall c, (c < C)%nat -> get u (0%nat :: c :: zeros sp) = Some (g (values N sp X c)).
Proof.
  intros P H. destruct (H) as (W & Sh & G). unfold f_reduce. rewrite dims_axes by (rewrite Sh; reflexivity). rewrite Sh. cbn [place]. rewrite kept_dims.
  destruct (build_ex (1%nat :: C :: ones sp) (fun ix => option_map g (sequence (lane t (0%nat :: seq 2 (length sp)) ix)))) as (u & E & Su & Wu & Gu).
  { intros ix I. apply inb_kept in I. destruct I as (c & Hc & ->). destruct (lane_channel N C sp t X c H Hc) as (vs & -> & _). rewrite sequence_map_some. discriminate. }
  exists u. rewrite E, drop_dims by reflexivity. split; [reflexivity|]. split; [reflexivity|]. split; [exact Wu|]. split; [exact Su|].
  intros c Hc. rewrite Gu by (apply inb_kept; eauto). destruct (lane_channel N C sp t X c H Hc) as (vs & -> & Pv). rewrite sequence_map_some. cbn [option_map]. f_equal. now apply P.
Qed.
Lemma bcast_kept N C (sp : list nat) : bcast_dims (N :: C :: sp) (1%nat :: C :: ones sp) = Some (N :: C :: sp).
Proof.
  assert (B : forall l, bcast_dims l (repeat 1%nat (length l)) = Some l).
  { induction l as [|d l IH]; [reflexivity|]. cbn [length repeat bcast_dims]. rewrite IH. destruct (Nat.eqb_spec d 1) as [->|]; reflexivity. }
  cbn [bcast_dims]. rewrite B, Nat.eqb_refl. destruct (Nat.eqb_spec N 1) as [->|]; reflexivity.
Qed.
Lemma bcast_ix_kept C (sp : list nat) n c (s : list nat) : (c < C)%nat -> length s = length sp -> bcast_ix (S (S (length sp))) (1%nat :: C :: ones sp) (n :: c :: s) = 0%nat :: c :: zeros sp.
Proof.
  intros Hc L. unfold bcast_ix. cbn [length]. rewrite repeat_length, Nat.sub_diag. cbn [skipn combine map Nat.eqb]. f_equal. f_equal; [destruct (Nat.eqb_spec C 1); lia|].
  rewrite <- L. clear. induction s as [|i s IH]; [reflexivity|]. cbn [length repeat combine map Nat.eqb]. now rewrite IH.
Qed.
Lemma minus_channel N C sp t X u m : Holds false N C sp t X -> wf u -> shape u = 1%nat :: C :: ones sp -> (forall c, (c < C)%nat -> get u (0%nat :: c :: zeros sp) = Some (m c)) ->
  exists y, f_binary Rminus t u = Some y /\ Holds false N C sp y (fun n c s => X n c s - m c).
Proof.
  intros (W & Sh & G) Wu Su Gu. unfold f_binary. cbv zeta. rewrite Sh, Su. cbn [place length]. rewrite repeat_length, Nat.max_id. unfold pad_ones. cbn [length]. rewrite repeat_length, Nat.sub_diag. cbn [repeat app].
  rewrite bcast_kept.
  assert (A : forall n c s, (n < N)%nat -> (c < C)%nat -> inb s sp -> match get t (bcast_ix (S (S (length sp))) (N :: C :: sp) (n :: c :: s)), get u (bcast_ix (S (S (length sp))) (1%nat :: C :: ones sp) (n :: c :: s)) with Some a, Some b => Some (a - b) | _, _ => None end = Some (X n c s - m c)).
  { intros n c s Hn Hc Hs. rewrite bcast_ix_kept by (auto; apply (inb_length _ _ Hs)).
    change (S (S (length sp))) with (length (N :: C :: sp)). rewrite bcast_self by (cbn; auto). rewrite Gu by auto. specialize (G n c s Hn Hc Hs). cbn [place] in G. now rewrite G. }
  destruct (build_ex (N :: C :: sp) (fun ix => match get t (bcast_ix (S (S (length sp))) (N :: C :: sp) ix), get u (bcast_ix (S (S (length sp))) (1%nat :: C :: ones sp) ix) with Some a, Some b => Some (a - b) | _, _ => None end)) as (y & E & Sy & Wy & Gy).
  { intros [|n [|c s]]; cbn [inb]; try tauto. intros (Hn & Hc & Hs). rewrite A by auto. discriminate. }
  exists y. split; [exact E|]. split; [exact Wy|]. split; [exact Sy|]. intros n c s Hn Hc Hs. cbn [place]. rewrite Gy by (cbn; auto). now apply A.
Qed.
Definition vec_of (C : nat) (f : nat -> R) (t : tensor R) : Prop := wf t /\ shape t = [C] /\ forall c, (c < C)%nat -> get t [c] = Some (f c).
Lemma vec_div C f t r : vec_of C f t -> exists y, f_binary Rdiv t (Tensor [] [r]) = Some y /\ vec_of C (fun c => f c / r) y.
Proof.
  intros (W & Sh & G). unfold f_binary. cbv zeta. rewrite Sh. cbn [shape length Nat.max]. unfold pad_ones. cbn [length Nat.sub repeat app bcast_dims].
  assert (B : (if Nat.eqb C 1 then Some [C] else if Nat.eqb C 1 then Some [1%nat] else if Nat.eqb 1 1 then Some [C] else None) = Some [C]) by (destruct (Nat.eqb C 1); reflexivity).
  rewrite B.
  assert (A : forall c, (c < C)%nat -> match get t (bcast_ix 1 [C] [c]), get (Tensor [] [r]) (bcast_ix 1 [] [c]) with Some a, Some b => Some (a / b) | _, _ => None end = Some (f c / r)).
  { intros c Hc. change 1%nat with (length [C]) at 1. rewrite bcast_self by (cbn; auto). rewrite G by auto. reflexivity. }
  destruct (build_ex [C] (fun ix => match get t (bcast_ix 1 [C] ix), get (Tensor [] [r]) (bcast_ix 1 [] ix) with Some a, Some b => Some (a / b) | _, _ => None end)) as (y & E & Sy & Wy & Gy).
  { intros [|c [|]]; cbn [inb]; try tauto. intros [Hc _]. rewrite A by auto. discriminate. }
  exists y. split; [exact E|]. split; [exact Wy|]. split; [exact Sy|]. intros c Hc. rewrite Gy by (cbn; auto). now apply A.
Qed.
Lemma values_length N sp X c : length (values N sp X c) = (N * size sp)%nat.
Proof. unfold values, places. rewrite map_length, prod_length, seq_length. unfold indices. now rewrite map_length, seq_length. Qed.
Lemma count_product N C sp : fold_right Z.mul 1%Z (map (fun i => nth i (map Z.of_nat (N :: C :: sp)) 0%Z) (0%nat :: seq 2 (length sp))) = Z.of_nat (N * size sp).
Proof.
  assert (E : map (fun i => nth i (map Z.of_nat (N :: C :: sp)) 0%Z) (seq 2 (length sp)) = map Z.of_nat sp).
  { replace (seq 2 (length sp)) with (map (fun k => S (S k)) (seq 0 (length sp))) by (rewrite <- seq_shift, <- seq_shift, map_map; reflexivity). rewrite map_map.
    apply nth_ext with (d := 0%Z) (d' := 0%Z); [now rewrite !map_length, seq_length|]. intros k K. rewrite map_length, seq_length in K.
    set (F := fun x : nat => nth (S (S x)) (map Z.of_nat (N :: C :: sp)) 0%Z).
    rewrite (nth_indep (map F (seq 0 (length sp))) 0%Z (F 0%nat)) by now rewrite map_length, seq_length.
    rewrite (map_nth F), seq_nth by exact K. reflexivity. }
  cbn [map]. cbn [map] in E. rewrite E. cbn [nth fold_right].
  rewrite Nat2Z.inj_mul. f_equal. clear. induction sp as [|d sp IH]; [reflexivity|]. cbn [map fold_right]. rewrite IH, size_cons, Nat2Z.inj_mul. reflexivity.
Qed.
Definition mean_of N sp X c := average (values N sp X c).
Definition var_of N sp X c := average (map (fun v => (v - mean_of N sp X c) * (v - mean_of N sp X c)) (values N sp X c)).
Lemma own_ok N C sp t X : Holds false N C sp t X -> exists m v, own_moments t = Some (m, v) /\ vec_of C (mean_of N sp X) m /\ vec_of C (var_of N sp X) v.
Proof.
  intro H. destruct (H) as (W & Sh & G).
  destruct (reduce_channel average N C sp t X average_perm H) as (u & E1 & _ & Wu & Su & Gu).
  destruct (minus_channel N C sp t X u (mean_of N sp X) H Wu Su Gu) as (d & E2 & Hd).
  destruct (reduce_channel sum_square N C sp d _ sum_square_perm Hd) as (w & _ & E3 & Ww & Sw & Gw).
  destruct (flatten_kept C (length sp) u Wu Su) as [Wm Gm]. destruct (flatten_kept C (length sp) w Ww Sw) as [Wv Gv].
  assert (E4 : f_squeeze (zdims sp) u = Some (Tensor [C] (data u))).
  { unfold f_squeeze. rewrite Su. rewrite dims_axes by (cbn [length]; now rewrite repeat_length). rewrite drop_dims by apply repeat_length.
    assert (Nd : nodupb (0%nat :: seq 2 (length sp)) = true).
    { apply nodupb_spec. constructor; [rewrite in_seq; lia|apply seq_NoDup]. }
    rewrite Nd. cbn [andb]. replace (forallb _ _) with true; [reflexivity|]. symmetry. apply forallb_forall. intros k [<-|K]; [reflexivity|]. apply in_seq in K. apply Nat.eqb_eq.
    destruct k as [|[|k]]; try lia. cbn [nth]. apply SegProofs.nth_repeat_lt. lia. }
  destruct (vec_div C (fun c => sum_square (values N sp (fun n c s => X n c s - mean_of N sp X c) c)) (Tensor [C] (data w)) (IZR (Z.of_nat (N * size sp)))) as (v & E5 & Hv).
  { split; [exact Wv|]. split; [reflexivity|]. intros c Hc. rewrite Gv. now apply Gw. }
  exists (Tensor [C] (data u)), v. split; [|split].
  - unfold own_moments. rewrite Sh. cbn [place length]. cbn [Nat.sub]. rewrite Nat.sub_0_r. rewrite E1. cbn [obind]. rewrite E4. cbn [obind]. rewrite E2. cbn [obind]. rewrite E3. cbn [obind].
    change (zvec (map Z.of_nat (N :: C :: sp))) with (tvec (map Z.of_nat (N :: C :: sp))). rewrite (gather_vec 0%Z).
    2:{ apply Forall_forall. intros k K. rewrite map_length. cbn [length]. destruct K as [<-|K]; [lia|]. apply in_seq in K. lia. }
    cbn [obind tvec data]. rewrite count_product, E5. reflexivity.
  - split; [exact Wm|]. split; [reflexivity|]. intros c Hc. rewrite Gm. now apply Gu.
  - destruct Hv as (A & B & D). split; [exact A|]. split; [exact B|]. intros c Hc. rewrite D by exact Hc. f_equal. unfold var_of, average at 1. rewrite map_length, values_length, INR_IZR_INZ.
    f_equal. unfold sum_square. f_equal. unfold values. rewrite !map_map. reflexivity.
Qed.
Lemma vec_data C (t : tensor R) : wf t -> shape t = [C] -> vec_of C (fun c => nth c (data t) 0) t /\ length (data t) = C.
Proof.
  intros W Sh. assert (L : length (data t) = C) by (rewrite W, Sh, size_cons, size_nil; lia). split; [|exact L]. split; [exact W|]. split; [exact Sh|].
  intros c Hc. unfold get. rewrite Sh. cbn [ravel]. rewrite size_nil, Nat.mul_1_r, Nat.add_0_r. apply nth_error_nth'. lia.
Qed.
Lemma norm_ok eps N C sp t X sc b m v fs fb fm fv : Holds false N C sp t X -> vec_of C fs sc -> vec_of C fb b -> vec_of C fm m -> vec_of C fv v ->
  exists y, f_batch_norm eps t sc b m v = Some y /\ Holds false N C sp y (fun n c s => (X n c s - fm c) / sqrt (fv c + eps) * fs c + fb c).
Proof.
  intros (W & Sh & G) (Ws & Ss & Gs) (Wb & Sb & Gb) (Wm & Sm & Gm) (Wv & Sv & Gv). unfold f_batch_norm. rewrite Sh. cbn [place forallb]. rewrite Ss, Sb, Sm, Sv.
  assert (L : list_eqb [C] [C] = true) by (apply list_eqb_spec; reflexivity). rewrite L. cbn [andb].
  match goal with |- context [build ?sh ?f] => set (F := f); destruct (build_ex sh F) as (y & E & Sy & Wy & Gy) end.
  { intros [|n [|c s]]; cbn [inb]; try tauto. intros (Hn & Hc & Hs). unfold F. cbn [nth]. specialize (G n c s Hn Hc Hs). cbn [place] in G. rewrite G, Gs, Gb, Gm, Gv by auto. discriminate. }
  exists y. split; [exact E|]. split; [exact Wy|]. split; [exact Sy|]. intros n c s Hn Hc Hs. cbn [place]. rewrite Gy by (cbn; auto). unfold F. cbn [nth].
  specialize (G n c s Hn Hc Hs). cbn [place] in G. now rewrite G, Gs, Gb, Gm, Gv by auto.
Qed.
Lemma norm_some eps t sc b m v y : f_batch_norm eps t sc b m v = Some y -> exists N C sp, shape t = N :: C :: sp /\ shape sc = [C] /\ shape b = [C] /\ shape m = [C] /\ shape v = [C].
Proof.
  unfold f_batch_norm. destruct (shape t) as [|N [|C sp]]; try discriminate. destruct (forallb _ _) eqn:F; [|discriminate]. intros _. exists N, C, sp. split; [reflexivity|].
  cbn [forallb] in F. rewrite !andb_true_iff in F. destruct F as (A & B & D & E & _). repeat split; apply list_eqb_spec; assumption.
Qed.
Lemma resize_same l : np_resize (length l) l = l.
Proof.
  unfold np_resize. destruct l as [|a l]; [reflexivity|]. set (L := a :: l). apply nth_ext with (d := 0) (d' := 0); [now rewrite map_length, seq_length|].
  intros k K. rewrite map_length, seq_length in K. set (F := fun i => nth (i mod length L) L 0).
  rewrite (nth_indep (map F (seq 0 (length L))) 0 (F 0%nat)) by now rewrite map_length, seq_length. rewrite (map_nth F), seq_nth by exact K. unfold F. cbn [Nat.add]. now rewrite Nat.mod_small.
Qed.
Definition agrees (known : option (list Z)) (t : tensor R) : Prop := match known with None => True | Some l => Forall2 (fun d n => (d < 0)%Z \/ d = Z.of_nat n) l (shape t) end.
Lemma resized_same C s own const (t u : tensor R) sc : wf t -> shape t = [C] -> shape sc = [C] -> agrees s sc -> resized s own const t = Some u -> u = t.
Proof.
  intros W Sh Ss A. unfold resized. destruct (shape_eqb own s); [congruence|]. destruct s as [sh|]; [|discriminate]. destruct (forallb _ sh) eqn:F; [|congruence].
  destruct const; [|discriminate]. unfold agrees in A. rewrite Ss in A. inversion A as [|d n l l' H0 T E1 E2]; subst. inversion T; subst. cbn [forallb] in F. rewrite andb_true_r in F. apply Z.leb_le in F.
  destruct H0 as [H0|H0]; [lia|]. subst d. rewrite Nat2Z.id. intro E. injection E as <-. assert (L : C = length (data t)) by (rewrite W, Sh, size_cons, size_nil; lia).
  rewrite L at 2. rewrite resize_same. rewrite <- Sh. now destruct t.
Qed.
(** the specification, for a tensor that Holds its values *)
Lemma spec_of last training eps N C sp x X y sc b m v : Holds last N C sp x X -> length sc = C -> length b = C -> (training = false -> length m = C /\ length v = C) ->
  Holds last N C sp y (fun n c s => (X n c s - (if training then mean_of N sp X c else nth c m 0)) / sqrt ((if training then var_of N sp X c else nth c v 0) + eps) * nth c sc 0 + nth c b 0) ->
  tf_batch_norm last training eps x sc b m v y.
Proof.
  intros (W & Sh & G) Ls Lb Lm (Wy & Sy & Gy). exists N, C, sp. split; [exact W|]. split; [exact Wy|]. split; [exact Sh|]. split; [congruence|]. split; [exact Ls|]. split; [exact Lb|]. split; [exact Lm|].
  intros c Hc. exists (values N sp X c). split.
  { unfold values. assert (A : forall ns, In ns (places N sp) -> get x (place last (fst ns) c (snd ns)) = Some (X (fst ns) c (snd ns))).
    { intros [n s] I. unfold places in I. apply in_prod_iff in I. destruct I as [Hn Hs]. apply in_seq in Hn. apply in_indices in Hs. apply G; auto. cbn. lia. }
    induction (places N sp) as [|p l IH]; [constructor|]. cbn [map]. constructor; [apply A; now left|]. apply IH. intros q Q. apply A. now right. }
  cbv zeta. intros n s Hn Hs. exists (X n c s). split; [now apply G|]. rewrite Gy by auto. destruct training; reflexivity.
Qed.
Lemma as_place last (sh : list nat) k : length sh = S (S k) -> exists N C sp, sh = place last N C sp /\ length sp = k.
Proof.
  destruct sh as [|N [|C l]]; cbn [length]; try discriminate. intro L. destruct last; [|exists N, C, l; split; [reflexivity|lia]].
  destruct (@exists_last _ (C :: l)) as (sp & c & E); [discriminate|]. exists N, c, sp. split; [unfold place; now rewrite E|]. assert (H := f_equal (@length nat) E). rewrite app_length in H. cbn [length] in H. lia.
Qed.
(** the whole graph, for a tensor of known layout *)
Lemma graph_ok last training factor_one eps st N C sp x X sc b m v : (training = true -> factor_one = true) -> (length sp = 2 \/ length sp = 3)%nat -> Holds last N C sp x X ->
  wf sc -> wf b -> shape sc = [C] -> shape b = [C] -> 
  (training = false -> wf m /\ wf v /\ shape m = [C] /\ shape v = [C] /\ resized (scale_shape st) (mean_shape st) (mean_const st) m = Some m /\ resized (scale_shape st) (var_shape st) (var_const st) v = Some v) ->
  exists y, batch_norm last training factor_one eps st x sc b m v = Some y /\ tf_batch_norm last training eps x (data sc) (data b) (data m) (data v) y.
Proof.
  intros Tf Lsp H Ws Wb Ss Sb M. destruct (H) as (Wx & Sh & _).
  assert (Rk : length (shape x) = S (S (length sp))) by (rewrite Sh; unfold place; destruct last; cbn [length]; rewrite ?app_length; cbn [length]; lia).
  assert (T1 : exists xt, (if last then f_transpose (Some (channels_first (length sp))) x else Some x) = Some xt /\ Holds false N C sp xt X).
  { destruct last; [now apply to_first|eauto]. }
  destruct T1 as (xt & E1 & H1).
  destruct (vec_data C sc Ws Ss) as [Vs Ls]. destruct (vec_data C b Wb Sb) as [Vb Lb].
  assert (T2 : exists mm vv, (if training && factor_one then own_moments xt
         else obind (resized (scale_shape st) (mean_shape st) (mean_const st) m) (fun m0 =>
              obind (resized (scale_shape st) (var_shape st) (var_const st) v) (fun v0 => Some (m0, v0)))) = Some (mm, vv) /\
     vec_of C (fun c => if training then mean_of N sp X c else nth c (data m) 0) mm /\ vec_of C (fun c => if training then var_of N sp X c else nth c (data v) 0) vv).
  { destruct training; cbn [andb].
    - rewrite (Tf eq_refl). apply own_ok with (1 := H1).
    - destruct (M eq_refl) as (Wm & Wv & Sm & Sv & Em & Ev). rewrite Em. cbn [obind]. rewrite Ev. cbn [obind]. exists m, v. split; [reflexivity|]. split; [now apply vec_data|now apply vec_data]. }
  destruct T2 as (mm & vv & E2 & Vm & Vv).
  destruct (norm_ok eps N C sp xt X sc b mm vv _ _ _ _ H1 Vs Vb Vm Vv) as (y0 & E3 & H3).
  assert (T4 : exists y, (if last then f_transpose (Some (channels_last (length sp))) y0 else Some y0) = Some y /\
    Holds last N C sp y (fun n c s => (X n c s - (if training then mean_of N sp X c else nth c (data m) 0)) / sqrt ((if training then var_of N sp X c else nth c (data v) 0) + eps) * nth c (data sc) 0 + nth c (data b) 0)).
  { destruct last; [now apply to_last|eauto]. }
  destruct T4 as (y & E4 & H4). exists y. split.
  - unfold batch_norm. cbv zeta. rewrite Rk. replace (if Nat.eqb (S (S (length sp))) 4 then 2%nat else 3%nat) with (length sp) by (destruct Lsp as [-> | ->]; reflexivity).
    replace (negb (Nat.eqb (S (S (length sp))) 4 || Nat.eqb (S (S (length sp))) 5)) with false by (destruct Lsp as [-> | ->]; reflexivity). rewrite E1. cbn [obind]. rewrite E2. cbn [obind fst snd]. rewrite E3. cbn [obind]. exact E4.
  - apply (spec_of last training eps N C sp x X y (data sc) (data b) (data m) (data v) H Ls Lb); [|exact H4].
    intro T. destruct (M T) as (Wm & Wv & Sm & Sv & _). split; [now apply vec_data|now apply vec_data].
Qed.
