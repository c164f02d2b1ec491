From Coq Require Import List Arith ZArith Bool Lia Permutation Reals Lra.
From Verif Require Import Tensor OnnxSpec FoldModel TensorProofs FoldProofs FoldFunProofs B2BModel ConvSpec.
Import ListNotations.
Local Open Scope list_scope.

Lemma index_all_spec l idx r : index_all l idx = Some r -> r = pick idx l /\ forall i, In i idx -> (i < length l)%nat.
Proof.
  revert r. induction idx as [|i idx IH]; cbn [index_all]; intros r E; [injection E as <-; split; [reflexivity|intros i []]|].
  destruct (nth_error l i) as [x|] eqn:Ex; [|discriminate]. destruct (index_all l idx) as [xs|]; [|discriminate]. injection E as <-.
  destruct (IH xs eq_refl) as [-> H]. split.
  - cbn. f_equal. symmetry. apply nth_error_nth. exact Ex.
  - intros j [<-|Hj]; auto. apply nth_error_Some. congruence.
Qed.
Lemma fuse_transpose_spec {A} t1 t2 r (x y z : tensor A) : fuse_transpose t1 t2 = Some r ->
  transpose_rel t1 x y -> transpose_rel t2 y z ->
  match r with None => z = x | Some p => transpose_rel p x z end.
Proof.
  unfold fuse_transpose. destruct (index_all t1 t2) as [p|] eqn:E; [|discriminate]. intros H T1 T2. injection H as <-.
  destruct (index_all_spec _ _ _ E) as [-> _]. assert (T := transpose_comp _ _ _ _ _ T1 T2).
  destruct (list_eq_dec Nat.eq_dec (pick t2 t1) (seq 0 (length t2))) as [K|K]; [|exact T].
  rewrite K in T. apply transpose_id. replace (length (shape x)) with (length t2); [exact T|].
  destruct T1 as (P1 & _ & _ & S1 & _). destruct T2 as (P2 & _). rewrite S1, pick_length, (is_perm_length _ _ P1) in P2. now apply is_perm_length.
Qed.
Lemma fuse_transpose_total {A} t1 t2 (x y z : tensor A) : transpose_rel t1 x y -> transpose_rel t2 y z -> fuse_transpose t1 t2 <> None.
Proof.
  intros (P1 & _ & _ & S1 & _) (P2 & _). rewrite S1, pick_length in P2.
  assert (B : forall i, In i t2 -> (i < length t1)%nat) by (intros i Hi; apply (is_perm_in _ _ P2); exact Hi).
  unfold fuse_transpose. replace (index_all t1 t2) with (Some (pick t2 t1)); [discriminate|].
  clear -B. induction t2 as [|i t2 IH]; cbn [index_all]; auto. rewrite <- IH by (intros; apply B; cbn; auto).
  rewrite (nth_error_nth' t1 0%nat) by (apply B; cbn; auto). reflexivity.
Qed.
Lemma transpose_shape_len {A} p (x y : tensor A) : transpose_rel p x y -> length (shape y) = length (shape x).
Proof. intros (P & _ & _ & E & _). rewrite E, pick_length. now apply is_perm_length. Qed.
(** and back: what the fused node computes is what the pair computed *)
Lemma transpose_exists {A} p (x : tensor A) : wf x -> is_perm p (length (shape x)) -> exists y, transpose_rel p x y.
Proof.
  intros W P. destruct (np_transpose x (Some p)) as [y|] eqn:E; [exists y; exact (np_transpose_spec x (Some p) y W E)|].
  exfalso. unfold np_transpose in E. rewrite (is_perm_length _ _ P), Nat.eqb_refl in E.
  replace (forallb (fun k => existsb (Nat.eqb k) p) (seq 0 (length (shape x)))) with true in E.
  - cbn [andb] in E. match type of E with build ?sh ?f = None => destruct (build_total sh f) as (t & Et); [|congruence] end.
    intros jx J. change (map (fun p0 => nth p0 (shape x) 0) p) with (pick p (shape x)) in J.
    assert (I := pick_inb_inv p _ jx (shape x) P eq_refl J).
    replace (map (fun p0 => nth (index_of p0 p) jx 0) (seq 0 (length (shape x)))) with (pick (inv_perm p) jx).
    + destruct (get_wf x _ W I) as (v & ->). discriminate.
    + unfold pick, inv_perm. rewrite map_map, (is_perm_length _ _ P). reflexivity.
  - symmetry. apply forallb_forall. intros k Hk. apply in_seq in Hk. apply existsb_exists. exists k. split; [apply (is_perm_in _ _ P); lia|apply Nat.eqb_refl].
Qed.

Lemma drop_axes_length ax : forall l k, NoDup ax -> (forall a, In a ax -> k <= a < k + length l) ->
  length (drop_from k ax l) + length ax = length l.
Proof.
  intros l k N B. assert (H := drop_length ax l k).
  assert (E : length (filter (fun j => existsb (Nat.eqb j) ax) (seq k (length l))) = length ax); [|lia].
  apply Permutation_length, NoDup_Permutation; auto.
  - apply NoDup_filter, seq_NoDup.
  - intro a. rewrite filter_In, in_seq, existsb_exists. split.
    + intros [_ (b & Hb & Eb)]. apply Nat.eqb_eq in Eb. subst. exact Hb.
    + intro Ha. split; [apply B; exact Ha|]. exists a. split; auto. apply Nat.eqb_refl.
Qed.
Lemma squeeze_unsqueeze {A} axes (x y z : tensor A) : squeeze_rel axes x y -> unsqueeze_rel axes y z -> z = x.
Proof.
  intros (Wx & Wy & ax & Na & Nd & One & Sy & G) (_ & Wz & Lz & ax' & Na' & Nd' & One' & Sy' & G').
  assert (La := norm_axes_lt _ _ _ Na). assert (Ll : length axes = length ax).
  { apply norm_axes_spec in Na. clear -Na. induction Na; cbn; auto. }
  assert (D := drop_axes_length ax (shape x) 0 Nd ltac:(intros a Ha; split; [lia|apply La; exact Ha])). fold (drop_axes ax (shape x)) in D.
  assert (L : length (shape z) = length (shape x)) by (rewrite Lz, Sy; lia). rewrite L in Na'. assert (ax' = ax) by congruence. subst ax'.
  assert (E : shape z = shape x).
  { apply (drop_fun ax _ _ 0); auto; [unfold drop_axes in *; congruence|]. intros a Ha _ _. rewrite Nat.sub_0_r, One, One'; auto. }
  apply tensor_ext; auto. intros ix I. rewrite G' by auto. apply G. congruence.
Qed.

Lemma reshape_reshape {A} az1 az2 t1 t2 (x y z : tensor A) : reshape_rel az1 t1 x y -> reshape_rel az2 t2 y z ->
  (az2 = false -> forall k, nth_error t2 k = Some 0%Z -> nth_error (shape x) k = nth_error (shape y) k) ->
  reshape_rel az2 t2 x z.
Proof.
  intros (Wx & Wy & _ & _ & _ & S1 & G1) (_ & Wz & C & L & D & S2 & G2) H.
  split; auto. split; auto. split; auto. split; auto. split; [|split; [congruence|]].
  - intros k t d Ht Hd. destruct (D k t d Ht Hd) as [K|[[K1 K2]|K]]; [left; exact K|right; left|right; right; exact K].
    split; auto. destruct az2; auto. rewrite H; auto. subst. exact Ht.
  - intros ix jx I J R. set (mx := unravel (shape y) (ravel (shape x) ix)).
    assert (Lt := ravel_lt _ _ I). assert (M : inb mx (shape y)) by (apply unravel_inb; congruence).
    assert (Rm : ravel (shape y) mx = ravel (shape x) ix) by (apply ravel_unravel; congruence).
    rewrite (G2 mx jx); auto; try congruence.
Qed.

Local Open Scope R_scope.
Lemma rsum_scale n f k : rsum n (fun i => f i * k) = rsum n f * k.
Proof. unfold rsum. induction (seq 0 n) as [|a l IH]; cbn; [lra|]. rewrite IH. lra. Qed.
Lemma rsum_ext n f g : (forall i, f i = g i) -> rsum n f = rsum n g.
Proof. intro H. unfold rsum. induction (seq 0 n) as [|a l IH]; cbn; auto. now rewrite H, IH. Qed.
