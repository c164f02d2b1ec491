(** Proofs about AdjustContrastv2. *)
From Coq Require Import Reals List Arith ZArith Lia Bool Permutation Lra.
From Verif Require Import Tensor TensorProofs FoldModel OnnxSpec ReduceSpec ReduceProofs RewValues TOps TOpsProofs TOpsProofs2 BnSpec BnProofs ConSpec ConModel.
Import ListNotations.
Local Open Scope nat_scope.
Local Open Scope list_scope.

Section Contrast.
Variables (lead : list nat) (h w c : nat).
Notation sh := (lead ++ [h; w; c]).
Notation n := (length lead).
Lemma split3 ix a b d : inb ix (lead ++ [a; b; d]) -> exists p i j k, ix = p ++ [i; j; k] /\ inb p lead /\ i < a /\ j < b /\ k < d.
Proof.
  intro H. destruct (split_ix _ _ _ _ H) as (p & i & q & -> & Hp & Hi & Hq). destruct q as [|j [|k [|? ?]]]; cbn [inb] in Hq; try tauto.
  exists p, i, j, k. tauto.
Qed.
Lemma inb3 p i j k a b d : inb p lead -> i < a -> j < b -> k < d -> inb (p ++ [i; j; k]) (lead ++ [a; b; d]).
Proof. intros. apply inb_app; [now apply inb_length|]. cbn. auto. Qed.
Definition Is3 (t : tensor R) (f : list nat -> nat -> nat -> nat -> R) : Prop :=
  wf t /\ shape t = sh /\ forall p i j k, inb p lead -> i < h -> j < w -> k < c -> get t (p ++ [i; j; k]) = Some (f p i j k).
Lemma bin3 (op : R -> R -> R) t f (u : tensor R) g : Is3 t f -> length (shape u) <= n + 3 -> bcast_dims sh (pad_ones (n + 3) (shape u)) = Some sh ->
  (forall p i j k, inb p lead -> i < h -> j < w -> k < c -> get u (bcast_ix (n + 3) (shape u) (p ++ [i; j; k])) = Some (g p i j k)) ->
  exists y, f_binary op t u = Some y /\ Is3 y (fun p i j k => op (f p i j k) (g p i j k)).
Proof.
  intros (W & Sh & G) L B Gu. unfold f_binary. cbv zeta. assert (Ln : length sh = n + 3) by (rewrite app_length; reflexivity). rewrite Sh, Ln. rewrite Nat.max_l by exact L.
  assert (Pd : pad_ones (n + 3) sh = sh) by (unfold pad_ones; now rewrite Ln, Nat.sub_diag). rewrite Pd, B.
  assert (Self : forall ix, inb ix sh -> bcast_ix (n + 3) sh ix = ix) by (intros ix H; rewrite <- Ln; now apply bcast_self).
  match goal with |- context [build ?s ?F] => destruct (build_ex s F) as (y & E & Sy & Wy & Gy) end.
  - intros ix Hix. destruct (split3 _ _ _ _ Hix) as (p & i & j & k & -> & Hp & Hi & Hj & Hk). rewrite Self, G, Gu by auto. discriminate.
  - exists y. split; [exact E|]. split; [exact Wy|]. split; [exact Sy|]. intros p i j k Hp Hi Hj Hk. rewrite Gy by (apply inb3; auto). rewrite Self, G, Gu by (auto; apply inb3; auto). reflexivity.
Qed.
Lemma bcast_same l : bcast_dims l l = Some l.
Proof. induction l as [|d l IH]; cbn [bcast_dims]; [reflexivity|]. now rewrite IH, Nat.eqb_refl. Qed.
Lemma bcast_mean : bcast_dims sh (lead ++ [1; 1; c]) = Some sh.
Proof.
  induction lead as [|d l IH]; cbn [app bcast_dims].
  - rewrite Nat.eqb_refl. destruct (Nat.eqb_spec w 1) as [->|]; destruct (Nat.eqb_spec h 1) as [->|]; reflexivity.
  - rewrite IH, Nat.eqb_refl. reflexivity.
Qed.
Lemma bcast_scalar l : bcast_dims l (repeat 1 (length l)) = Some l.
Proof. induction l as [|d l IH]; cbn [length repeat bcast_dims]; [reflexivity|]. rewrite IH. destruct (Nat.eqb_spec d 1) as [->|]; reflexivity. Qed.
Lemma ix_mean p i j k : inb p lead -> k < c -> bcast_ix (n + 3) (lead ++ [1; 1; c]) (p ++ [i; j; k]) = p ++ [0; 0; k].
Proof.
  intros Hp Hk. unfold bcast_ix. rewrite app_length. cbn [length]. rewrite Nat.sub_diag. cbn [skipn]. revert p Hp. induction lead as [|d l IH]; intros [|q p] Hp; cbn [inb] in Hp; try tauto.
  - cbn [app combine map Nat.eqb]. destruct (Nat.eqb_spec c 1) as [->|]; [|reflexivity]. replace k with 0 by lia. reflexivity.
  - destruct Hp as [Hq Hp]. cbn [app combine map]. rewrite (IH p Hp). f_equal. destruct (Nat.eqb_spec d 1); lia.
Qed.
Lemma bin3_mean (op : R -> R -> R) t f (u : tensor R) g : Is3 t f -> shape u = lead ++ [1; 1; c] -> (forall p k, inb p lead -> k < c -> get u (p ++ [0; 0; k]) = Some (g p k)) ->
  exists y, f_binary op t u = Some y /\ Is3 y (fun p i j k => op (f p i j k) (g p k)).
Proof.
  intros H Su G. apply (bin3 op t f u (fun p _ _ k => g p k) H); rewrite Su.
  - rewrite app_length. cbn. lia.
  - unfold pad_ones. rewrite app_length. cbn [length]. rewrite Nat.sub_diag. exact bcast_mean.
  - intros p i j k Hp _ _ Hk. rewrite ix_mean by auto. now apply G.
Qed.
Lemma bin3_scalar (op : R -> R -> R) t f (v : R) : Is3 t f -> exists y, f_binary op t (Tensor [] [v]) = Some y /\ Is3 y (fun p i j k => op (f p i j k) v).
Proof.
  intros H. apply (bin3 op t f (Tensor [] [v]) (fun _ _ _ _ => v) H); cbn [shape length].
  - lia.
  - unfold pad_ones. cbn [length]. rewrite Nat.sub_0_r, app_nil_r. replace (n + 3) with (length sh) by (rewrite app_length; reflexivity). apply bcast_scalar.
  - intros. reflexivity.
Qed.

(** ** the mean *)
Notation ax := [n; S n].
Lemma axes_ok : axes_to_reduce (length sh) = map Z.of_nat ax.
Proof.
  unfold axes_to_reduce. f_equal. rewrite app_length. cbn [length]. replace (n + 3 - 3) with n by lia. replace (n + 3 - 1) with (n + 2) by lia.
  replace (n + 3) with ((n + 2) + 1) by lia. rewrite seq_app, firstn_app. rewrite firstn_all2 by (now rewrite seq_length). rewrite seq_length, Nat.sub_diag. cbn [firstn]. rewrite app_nil_r, seq_app.
  rewrite skipn_app. rewrite skipn_all2 by (now rewrite seq_length). rewrite seq_length, Nat.sub_diag. reflexivity.
Qed.
Lemma kept_mid : forall l k, kept_from k [k + length l; S (k + length l)] (l ++ [h; w; c]) = l ++ [1; 1; c].
Proof.
  induction l as [|d l IH]; intro k.
  - cbn [length app kept_from existsb]. rewrite Nat.add_0_r, !Nat.eqb_refl. cbn [orb]. rewrite orb_true_r.
    rewrite (proj2 (Nat.eqb_neq (S (S k)) k)), (proj2 (Nat.eqb_neq (S (S k)) (S k))) by lia. reflexivity.
  - cbn [length app kept_from existsb]. rewrite (proj2 (Nat.eqb_neq k _)) by lia. rewrite (proj2 (Nat.eqb_neq k _)) by lia. cbn [orb]. f_equal.
    replace (k + S (length l)) with (S k + length l) by lia. apply IH.
Qed.
Lemma kept_ok : kept ax sh = lead ++ [1; 1; c].
Proof. rewrite kept_rec. exact (kept_mid lead 0). Qed.
Lemma matches_ok p k q i j l : length p = n -> length q = n -> (matches ax (p ++ [0; 0; k]) (q ++ [i; j; l]) = true <-> q = p /\ l = k).
Proof.
  intros Lp Lq. unfold matches. rewrite forallb_forall. split.
  - intro M. assert (N1 : forall e, e < n -> nth e p 0 = nth e q 0).
    { intros e He. assert (X := M e). rewrite app_length in X. cbn [length existsb] in X. specialize (X ltac:(apply in_seq; lia)).
      rewrite (proj2 (Nat.eqb_neq e n)) in X by lia. rewrite (proj2 (Nat.eqb_neq e (S n))) in X by lia. cbn [orb] in X. rewrite !app_nth1 in X by lia. now apply Nat.eqb_eq. }
    split; [symmetry; apply (nth_ext _ _ 0 0); [lia|rewrite Lp; exact N1]|]. assert (X := M (S (S n))). rewrite app_length in X. cbn [length existsb] in X. specialize (X ltac:(apply in_seq; lia)).
    rewrite (proj2 (Nat.eqb_neq (S (S n)) n)) in X by lia. rewrite (proj2 (Nat.eqb_neq (S (S n)) (S n))) in X by lia. cbn [orb] in X. rewrite !app_nth2 in X by lia. rewrite Lp, Lq in X. replace (S (S n) - n) with 2 in X by lia. cbn [nth] in X. symmetry. now apply Nat.eqb_eq.
  - intros [-> ->] e He. apply in_seq in He. rewrite app_length in He. cbn [length] in He. cbn [existsb]. destruct (Nat.eqb_spec e n) as [|N1]; [reflexivity|]. destruct (Nat.eqb_spec e (S n)) as [|N2]; [reflexivity|]. cbn [orb].
    destruct (Nat.ltb_spec e n); [rewrite !app_nth1 by lia; apply Nat.eqb_refl|]. assert (e = S (S n)) as -> by lia. rewrite !app_nth2 by lia. rewrite Lp. replace (S (S n) - n) with 2 by lia. apply Nat.eqb_refl.
Qed.
Definition pixels (f : list nat -> nat -> nat -> nat -> R) p k : list R := map (fun ij => f p (fst ij) (snd ij) k) (list_prod (seq 0 h) (seq 0 w)).
Lemma lane_pixels t f p k : Is3 t f -> inb p lead -> k < c -> exists vs, lane t ax (p ++ [0; 0; k]) = map Some vs /\ Permutation vs (pixels f p k).
Proof.
  intros (W & Sh & G) Hp Hk. set (F := fun ix => match get t ix with Some v => v | None => 0%R end).
  unfold lane. rewrite Sh. set (L1 := filter _ _). exists (map F L1). split.
  { rewrite map_map. apply map_ext_in. intros ix I. apply filter_In in I. destruct I as [I _]. apply in_indices in I. unfold F. destruct (split3 _ _ _ _ I) as (q & i & j & l & -> & Hq & Hi & Hj & Hl). now rewrite G by auto. }
  assert (E : pixels f p k = map F (map (fun ij => p ++ [fst ij; snd ij; k]) (list_prod (seq 0 h) (seq 0 w)))).
  { unfold pixels. rewrite map_map. apply map_ext_in. intros [i j] I. apply in_prod_iff in I. destruct I as [Hi Hj]. apply in_seq in Hi, Hj. cbn [fst snd]. unfold F. now rewrite G by (auto; lia). }
  rewrite E. apply Permutation_map. apply NoDup_Permutation.
  - unfold L1. apply NoDup_filter. apply indices_NoDup.
  - apply FinFun.Injective_map_NoDup.
    + intros [i j] [i' j'] H. apply app_inv_head in H. cbn in H. congruence.
    + apply prod_NoDup; apply seq_NoDup.
  - intro ix. unfold L1. rewrite filter_In, in_indices, in_map_iff. split.
    + intros [I M]. destruct (split3 _ _ _ _ I) as (q & i & j & l & -> & Hq & Hi & Hj & Hl). apply matches_ok in M; [|now apply inb_length|now apply inb_length]. destruct M as [-> ->].
      exists (i, j). split; [reflexivity|]. apply in_prod; apply in_seq; lia.
    + intros ([i j] & <- & I). apply in_prod_iff in I. destruct I as [Hi Hj]. apply in_seq in Hi, Hj. cbn [fst snd]. split; [apply inb3; auto; lia|]. apply matches_ok; [now apply inb_length|now apply inb_length|auto].
Qed.
Lemma mean_ok t f : Is3 t f -> exists u, f_reduce average (axes_to_reduce (length sh)) true t = Some u /\ shape u = lead ++ [1; 1; c] /\
  forall p k, inb p lead -> k < c -> get u (p ++ [0; 0; k]) = Some (average (pixels f p k)).
Proof.
  intros H. destruct (H) as (W & Sh & G). unfold f_reduce. rewrite axes_ok, Sh. rewrite nat_axes.
  2:{ constructor; [rewrite app_length; cbn; lia|]. constructor; [rewrite app_length; cbn; lia|constructor]. }
  rewrite kept_ok. match goal with |- context [build ?s ?F] => destruct (build_ex s F) as (u & E & Su & Wu & Gu) end.
  { intros ix I. destruct (split3 _ _ _ _ I) as (p & i & j & k & -> & Hp & Hi & Hj & Hk). replace i with 0 by lia. replace j with 0 by lia.
    destruct (lane_pixels t f p k H Hp Hk) as (vs & -> & _). rewrite sequence_map_some. discriminate. }
  exists u. rewrite E. split; [reflexivity|]. split; [exact Su|]. intros p k Hp Hk. rewrite Gu by (apply inb3; auto).
  destruct (lane_pixels t f p k H Hp Hk) as (vs & -> & Pv). rewrite sequence_map_some. cbn [option_map]. f_equal. now apply average_perm.
Qed.
End Contrast.
