(** C88: positions of maxima, tf2onnx/onnx_opset/nn.py:742-781 (model: MpaModel, specification: MpaSpec). *)
From Coq Require Import List Arith ZArith Lia Bool.
From Verif Require Import Tensor MpaSpec MpaModel MpaProofs.
Import ListNotations.

(** the channels are known, or Range is there; and batches, unless left out or known to be one, need Range too *)
Definition convertible (opset : nat) (guess : option (list Z)) (include_batch : bool) : Prop :=
  (11 <= opset \/ exists c, dim guess 3 = Some c /\ (0 < c)%Z) /\ (11 <= opset \/ include_batch = false \/ dim guess 0 = Some 1%Z).
(** the attribute, true if left out as by TensorFlow 1.13 *)
Definition with_batch (include : option bool) : bool := match include with Some b => b | None => true end.

(** For all sizes, all opsets and everything that may be known of the input's shape: if MaxPool says where the maximum of each window is within
    (N, C, H, W), the graph says where it is within (N, H, W, C), or within (H, W, C) without include_batch_in_index *)
Theorem C88_positions opset guess include N H W C OH OW at_ ind :
  (forall n i j c, n < N -> i < OH -> j < OW -> c < C -> fst (at_ n i j c) < H /\ snd (at_ n i j c) < W) ->
  tensor_of N OH OW C ind (fun n i j c => onnx_index H W C n c (fst (at_ n i j c)) (snd (at_ n i j c))) ->
  agrees guess [N; H; W; C] -> convertible opset guess (with_batch include) ->
  exists y, convert_indices opset guess include [N; H; W; C] ind = Some y /\
    tensor_of N OH OW C y (fun n i j c => tf_index H W C (with_batch include) n c (fst (at_ n i j c)) (snd (at_ n i j c))).
Proof.
  intros Win Ho Kn [S1 S2]. destruct (convert_ok opset guess include N H W C OH OW at_ ind Win Ho Kn) as (y & E & Y); [|exists y; split; [exact E|exact Y]].
  unfold supported. apply andb_true_intro. fold (with_batch include). split.
  - destruct S1 as [L | (c & -> & P)]; [rewrite (proj2 (Nat.leb_le _ _) L); apply orb_true_r|]. now rewrite (proj2 (Z.ltb_lt _ _) P).
  - destruct S2 as [L | [-> | ->]]; [rewrite (proj2 (Nat.leb_le _ _) L); apply orb_true_r|reflexivity|]. cbn [Z.eqb Pos.eqb]. now rewrite orb_true_r.
Qed.
Print Assumptions C88_positions.
(** otherwise the conversion stops with an error, rather than going wrong *)
Theorem C88_otherwise_rejected opset guess include N H W C ind : ~ convertible opset guess (with_batch include) -> convert_indices opset guess include [N; H; W; C] ind = None.
Proof.
  intro Nc. apply unsupported_fails. unfold supported. fold (with_batch include). destruct (Nat.leb_spec 11 opset) as [L|L]; [exfalso; apply Nc; split; now left|].
  rewrite !orb_false_r. destruct (dim guess 3) as [d|] eqn:E3; [|reflexivity]. destruct (Z.ltb_spec 0 d); [|reflexivity]. destruct (with_batch include) eqn:B; [|exfalso; apply Nc; split; eauto].
  destruct (dim guess 0) as [e|] eqn:E0; [|reflexivity]. destruct (Z.eqb_spec e 1) as [->|]; [|reflexivity]. exfalso. apply Nc. split; eauto.
Qed.
Print Assumptions C88_otherwise_rejected.
(** both numberings are the row-major ones of their layouts *)
Theorem C88_row_major N H W C n c h w : onnx_index H W C n c h w = ravel [N; C; H; W] [n; c; h; w] /\ tf_index H W C true n c h w = ravel [N; H; W; C] [n; h; w; c] /\
  tf_index H W C false n c h w = ravel [H; W; C] [h; w; c].
Proof. unfold onnx_index, tf_index. cbn [ravel size fold_right]. repeat split; nia. Qed.
Print Assumptions C88_row_major.

(** two pictures of 2 x 3 with 2 channels, one window each: the maxima are at (1, 2) and (0, 1), and at (1, 0) and (0, 0) *)
Definition where_ (n _ _ c : nat) : nat * nat := match n, c with 0, 0 => (1, 2) | 0, _ => (0, 1) | _, 0 => (1, 0) | _, _ => (0, 0) end.
Definition ind : tensor Z := Tensor [2; 1; 1; 2] [5; 7; 15; 18]%Z.
Example ind_holds : tensor_of 2 1 1 2 ind (fun n i j c => onnx_index 2 3 2 n c (fst (where_ n i j c)) (snd (where_ n i j c))).
Proof.
  split; [reflexivity|]. split; [reflexivity|]. intros n i j c Hn Hi Hj Hc. assert (i = 0) as -> by lia. assert (j = 0) as -> by lia.
  destruct n as [|[|n]]; try lia; destruct c as [|[|c]]; try lia; reflexivity.
Qed.
Example positions_case : exists y, convert_indices 13 (Some [-1; 2; 3; 2]%Z) (Some true) [2; 2; 3; 2] ind = Some y /\ data y = [10; 3; 18; 13]%Z /\
  tensor_of 2 1 1 2 y (fun n i j c => tf_index 2 3 2 true n c (fst (where_ n i j c)) (snd (where_ n i j c))).
Proof.
  destruct (C88_positions 13 (Some [-1; 2; 3; 2]%Z) (Some true) 2 2 3 2 1 1 where_ ind) as (y & E & Y).
  - intros n i j c _ _ _ _. unfold where_. destruct n, c; cbn; lia.
  - exact ind_holds.
  - cbn. repeat (constructor; [solve [now left | now right]|]). constructor.
  - split; left; lia.
  - exists y. split; [exact E|]. split; [|exact Y]. assert (K : convert_indices 13 (Some [-1; 2; 3; 2]%Z) (Some true) [2; 2; 3; 2] ind = Some (Tensor [2; 1; 1; 2] [10; 3; 18; 13]%Z)) by reflexivity.
    rewrite K in E. injection E as <-. reflexivity.
Qed.
Example without_batch : convert_indices 8 (Some [2; 2; 3; 2]%Z) (Some false) [2; 2; 3; 2] ind = Some (Tensor [2; 1; 1; 2] [10; 3; 6; 1]%Z).
Proof. reflexivity. Qed.
