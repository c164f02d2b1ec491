(** C85: Softmax, LogSoftmax and the softmax cross entropies, tf2onnx/onnx_opset/math.py:202-222 and nn.py:1804-1998 (model: CeModel,
    specification: CeSpec). *)
From Coq Require Import Reals List Arith ZArith Bool Lia Lra.
From Verif Require Import Tensor FoldModel OnnxSpec FoldProofs TensorProofs TOps TOpsProofs TOpsProofs2 RewValues CumProofs BandProofs ReduceSpec ReduceProofs BnSpec BnProofs CeSpec CeModel CeProofs.
Import ListNotations.
Local Open Scope R_scope.
Local Open Scope list_scope.

(** Softmax and LogSoftmax of a tensor of any rank, at every opset *)
Theorem C85_softmax_is_rowwise opset h x : wf x -> shape x <> [] ->
  exists y, softmax opset h (Some (length (shape x))) x = Some y /\ tf_rowwise h x y.
Proof.
  intros W Ne. destruct (exists_last Ne) as (pre & d & Sh). 
  destruct (softmax_any opset h x pre d W Sh) as (y & E & Wy & Sy & Gy). exists y. split; [exact E|]. exists pre, d. split; [exact Sh|]. split; [exact W|]. split; [exact Wy|]. split; [exact Sy|].
  intros p Ip. destruct (Gy p Ip) as (f & Gx & Gv). exists (row_of d f). split; [now apply row_entries|]. intros j v Hj Ev.
  rewrite Gv by exact Hj. rewrite (nth_error_nth' _ 0) in Ev by (rewrite row_length; exact Hj). rewrite row_nth in Ev by exact Hj. congruence.
Qed.
Print Assumptions C85_softmax_is_rowwise.

(** Cross entropy of matrices whose batches are broadcast, if the features have all the classes *)
Theorem C85_cross_entropy_partial opset features labels fb lb ln b n : wf features -> wf labels -> shape features = [fb; n] -> shape labels = [lb; ln] ->
  bcast_dims [fb; n] [lb; ln] = Some [b; n] ->
  exists y, cross_entropy opset labels features = Some y /\ tf_cross_entropy features labels y.
Proof.
  intros Wf Wl Sf Sl B. destruct (M_of _ _ features Wf Sf) as [F HF]. destruct (M_of _ _ labels Wl Sl) as [L HL].
  destruct (dense_ok opset lb ln fb n b labels L features F HL HF B) as (y & E & (Wy & Sy & Gy) & Rg). exists y. split; [exact E|]. exists b, n. rewrite Sf, Sl. split; [exact B|]. split; [exact Wy|]. split; [exact Sy|].
  intros i Hi. exists (row_of n (F (at_dim fb i))), (row_of n (fun j => L (at_dim lb i) (at_dim ln j))). destruct HF as (_ & _ & GF). destruct HL as (_ & _ & GL). split; [|split].
  - apply row_entries. intros j Hj. destruct (Rg i j Hi Hj) as (A & _). unfold entry. rewrite Sf. change (bcast_ix 2 [fb; n] [i; j]) with [at_dim fb i; at_dim n j]. rewrite (at_dim_same n j) by exact Hj. now apply GF.
  - apply row_entries. intros j Hj. destruct (Rg i j Hi Hj) as (_ & A & A'). unfold entry. rewrite Sl. change (bcast_ix 2 [lb; ln] [i; j]) with [at_dim lb i; at_dim ln j]. now apply GL.
  - rewrite times_rows. now apply Gy.
Qed.
Print Assumptions C85_cross_entropy_partial.
Example dense_case : exists y, cross_entropy 12 (Tensor [1; 3]%nat [0; 1; 0]) (Tensor [2; 3]%nat [1; 2; 3; 4; 5; 6]) = Some y /\ tf_cross_entropy (Tensor [2; 3]%nat [1; 2; 3; 4; 5; 6]) (Tensor [1; 3]%nat [0; 1; 0]) y.
Proof. apply (C85_cross_entropy_partial 12 _ _ 2 1 3 2 3); reflexivity. Qed.

(** Features with a single class are broadcast by TensorFlow before the softmax, but after it by the graph: one zero against two classes gives
    a loss of ln 2, the graph gives 0 *)
Theorem C85_broadcast_classes_refuted : exists opset features labels y, wf features /\ wf labels /\ bcast_dims (shape features) (shape labels) = Some [1; 2]%nat /\
  cross_entropy opset labels features = Some y /\ ~ tf_cross_entropy features labels y.
Proof.
  exists 13%nat, (Tensor [1; 1]%nat [0]), (Tensor [1; 2]%nat [1; 0]).
  assert (HF : M 1 1 (Tensor [1; 1]%nat [0]) (fun _ _ => 0)). { split; [reflexivity|]. split; [reflexivity|]. intros [|i] [|j] Hi Hj; try lia. reflexivity. }
  assert (HL : M 1 2 (Tensor [1; 2]%nat [1; 0]) (fun _ j => if Nat.eqb j 0 then 1 else 0)). { split; [reflexivity|]. split; [reflexivity|]. intros [|i] [|[|j]] Hi Hj; try lia; reflexivity. }
  destruct (M_softmax 13 log_softmax_of 1 1 _ _ HF) as (t & E1 & Ht). destruct (M_bcast Rmult 1 2 1 1 1 2 _ _ t _ HL Ht eq_refl) as (p & E2 & Hp & _).
  destruct (reduce_row sum (-1) 1 2 p _ sum_perm eq_refl Hp) as (u & E3 & _ & Hu & _). destruct (negate_col 1 u _ Hu) as (m & y & E4 & E5 & (Wy & Sy & Gy)).
  exists y. split; [reflexivity|]. split; [reflexivity|]. split; [reflexivity|]. split.
  { unfold cross_entropy. rewrite E1. cbn [obind]. rewrite E2. cbn [obind]. rewrite E3. cbn [obind]. rewrite E4. cbn [obind]. exact E5. }
  intros (b & n & B & _ & _ & H). injection B as <- <-. destruct (H 0%nat ltac:(lia)) as (fs & ls & Hfs & Hls & G).
  rewrite Gy in G by lia. cbn [seq] in Hfs, Hls.
  inversion Hfs as [|? v1 ? l1 A1 B1]; subst. inversion B1 as [|? v2 ? l2 A2 B2]; subst. inversion B2; subst. inversion A1; subst. inversion A2; subst.
  inversion Hls as [|? w1 ? m1 C1 D1]; subst. inversion D1 as [|? w2 ? m2 C2 D2]; subst. inversion D2; subst. inversion C1; subst. inversion C2; subst.
  injection G as G. unfold log_softmax_of, times, sum, row_of in G. cbn -[exp ln] in G. rewrite exp_0 in G.
  replace (1 + 0) with 1 in G by lra. rewrite ln_1 in G. replace (1 + 1) with 2 in G by lra. assert (L := ln_lt_2). lra.
Qed.
Print Assumptions C85_broadcast_classes_refuted.

(** Sparse cross entropy for any number of pictures and classes, whether the conversion knows the number of classes or not; at opsets 7 and 8
    for up to 20000 classes that are known *)
Theorem C85_sparse_cross_entropy_partial opset classes features labels b n : sparse_args b n features labels ->
  (classes = None \/ classes = Some n) -> (9 <= opset)%nat \/ (classes = Some n /\ (Z.of_nat n <= 20000)%Z) -> (Z.of_nat n <= 2147483647)%Z ->
  exists y, sparse opset classes features labels = Some y /\ tf_sparse_cross_entropy features labels y.
Proof.
  intros A C O Big. destruct (labels_of b n features labels A) as [l Hl]. destruct (A) as (Wf & Sf & Wl & Sl & _). destruct (M_of _ _ features Wf Sf) as [F HF].
  assert (G : exists y, sparse opset classes features labels = Some y /\ vec b y (fun i => - log_softmax_of (row_of n (F i)) (F i (l i)))) by (apply sparse_ok; assumption).
  destruct G as (y & E & (Wy & Sy & Gy)). exists y. split; [exact E|]. exists b, n. split; [exact A|]. split; [exact Wy|]. split; [exact Sy|].
  intros i Hi. destruct (Hl i Hi) as [Li Gl]. destruct HF as (_ & _ & GF). exists (row_of n (F i)), (l i). split; [apply row_entries; intros j Hj; now apply GF|]. split; [exact Gl|]. rewrite row_nth by exact Li. now apply Gy.
Qed.
Print Assumptions C85_sparse_cross_entropy_partial.
Example sparse_case : exists y, sparse 11 None (Tensor [2; 3]%nat [1; 2; 3; 4; 5; 6]) (Tensor [2]%nat [2; 0]%Z) = Some y /\ tf_sparse_cross_entropy (Tensor [2; 3]%nat [1; 2; 3; 4; 5; 6]) (Tensor [2]%nat [2; 0]%Z) y.
Proof.
  apply (C85_sparse_cross_entropy_partial 11 None _ _ 2 3); auto; try lia. repeat split; auto. intros [|[|i]] H; [exists 2%nat|exists 0%nat|lia]; (split; [lia|reflexivity]).
Qed.

(** ... and with more classes, or an unknown number of them, those opsets squeeze an axis that the vector does not have: ONNX gives the graph no
    meaning *)
Theorem C85_gathernd_refuted opset classes features labels b n : sparse_args b n features labels -> (opset < 9)%nat ->
  (classes = None \/ exists k, classes = Some k /\ (20000 < Z.of_nat k)%Z) -> sparse opset classes features labels = None.
Proof. intros A O C. now apply (gathernd_fails opset classes features labels b n A O C). Qed.
Print Assumptions C85_gathernd_refuted.
