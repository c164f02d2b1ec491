(** C64: Slice and C65: Gather / GatherV2 become ONNX expressions with the values of tf.slice and tf.gather. *)
From Coq Require Import List Arith ZArith Bool Lia.
From Verif Require Import Tensor FoldModel OnnxSpec TensorProofs TOps TOpsProofs IdxModel IdxSpec IdxProofs.
Import ListNotations.
Local Open Scope list_scope.

(** ** C64 *)
Definition int_vec (l : list Z) : tensor Z := Tensor [length l] l.
(** Constant begin and size: every tensor (with dimensions that fit ONNX's int64), rank, begin and size. *)
Theorem C64_slice_const :
  forall (A : Type) (zero : A) opset bits begin size (x y : tensor A) others,
    wf x -> Forall (fun d => Z.of_nat d < 2 ^ 63)%Z (shape x) ->
    tf_slice begin size x = Some y ->
    exists e, slice opset bits (Some (begin, size)) = Some e /\ eval zero opset (D x :: others) e = Some (D y).
Proof.
  intros A zero opset bits bs ss x y others W F TF. eexists. split; [reflexivity|]. apply (slice_const_ok zero opset bits bs ss x y _ others W); auto.
  eapply Forall_impl; [|exact F]. cbv beta. unfold int64_max. intros; lia.
Qed.
(** begin or size computed at run time, as integers of any width.  Partial: where size is -1 begin is at most 1
    (refuted below); the dimensions are below the largest integer of that width; opset 10 or later. *)
Theorem C64_slice_runtime_partial :
  forall (A : Type) (zero : A) opset bits begin size (x y : tensor A) others,
    wf x -> 10 <= opset -> (2 <= bits)%Z -> Forall (fun d => Z.of_nat d < 2 ^ (bits - 1) - 1)%Z (shape x) ->
    Forall2 (fun b s => s = (-1)%Z -> (b <= 1)%Z) begin size ->
    tf_slice begin size x = Some y ->
    exists e, slice opset bits None = Some e /\
      eval zero opset (D x :: I (int_vec begin) :: I (int_vec size) :: others) e = Some (D y).
Proof.
  intros A zero opset bits bs ss x y others W O Hb F G TF. assert (E : slice (A := A) opset bits None <> None).
  { unfold slice. rewrite (proj2 (Nat.ltb_ge opset 10)) by lia. discriminate. }
  destruct (slice opset bits None) as [e|] eqn:P; [|congruence]. exists e. split; auto. eapply slice_dyn_ok; eauto.
Qed.
(** Before opset 10 the handler refuses begin or size computed at run time. *)
Theorem C64_refuses : forall (A : Type) opset bits, opset < 10 -> slice (A := A) opset bits None = None.
Proof. intros A opset bits H. unfold slice. apply Nat.ltb_lt in H. now rewrite H. Qed.
(** tf.slice(x, [2], [-1]) with computed begin: begin + (max - 1) overflows and nothing is left. *)
Theorem C64_runtime_rest_refuted :
  exists (x y : tensor nat) e, wf x /\ tf_slice [2%Z] [(-1)%Z] x = Some y /\ shape y = [2] /\
    slice 13 64 None = Some e /\ eval 0 13 [D x; I (int_vec [2%Z]); I (int_vec [(-1)%Z])] e = Some (D (Tensor [0] [])).
Proof. exists (Tensor [4] [1; 2; 3; 4]). do 2 eexists. repeat split; reflexivity. Qed.

Definition x23 : tensor nat := Tensor [2; 3] [1; 2; 3; 4; 5; 6].
Example slice_const_case : tf_slice [0; 1]%Z [-1; 2]%Z x23 = Some (Tensor [2; 2] [2; 3; 5; 6]) /\ Forall (fun d => Z.of_nat d < 2 ^ 63)%Z (shape x23).
Proof. split; [reflexivity|]. cbn. repeat constructor. Qed.
Example slice_runtime_case : exists e, tf_slice [1; 1]%Z [-1; 2]%Z x23 = Some (Tensor [1; 2] [5; 6]) /\
  Forall2 (fun b s => s = (-1)%Z -> (b <= 1)%Z) [1; 1]%Z [-1; 2]%Z /\ slice 11 32 None = Some e /\
  eval 0 11 [D x23; I (int_vec [1; 1]%Z); I (int_vec [-1; 2]%Z)] e = Some (D (Tensor [1; 2] [5; 6])).
Proof.
  eexists. split; [reflexivity|]. split; [repeat constructor; lia|]. split; [reflexivity|]. vm_compute. reflexivity.
Qed.

(** ** C65 *)
(** tf.gather for every axis, batch_dims, data and indices of any rank; the ranks recorded in the graph may be unknown.
    Partial: batch_dims is not negative, and the axis is not negative when batch_dims is not 0 (both refuted below). *)
Theorem C65_gather_partial :
  forall (A : Type) (zero : A) opset axis (batch_dims : nat) (data_rank indices_rank : option nat) (x y : tensor A) idx e others,
    wf x -> batch_dims = 0 \/ (0 <= axis)%Z ->
    (data_rank = Some (length (shape x)) \/ data_rank = None) ->
    (indices_rank = Some (length (shape idx)) \/ indices_rank = None) ->
    tf_gather axis (Z.of_nat batch_dims) x idx = Some y ->
    gather_v2 opset (Some axis) (Z.of_nat batch_dims) data_rank indices_rank = Some e ->
    eval zero opset (D x :: I idx :: others) e = Some (D y).
Proof. intros. eapply gather_v2_ok; eauto. Qed.
(** The handler accepts every node with a constant axis and batch_dims 0, and from opset 12 on with known ranks any. *)
Theorem C65_accepted :
  forall (A : Type) opset axis batch_dims (data_rank indices_rank : option nat),
    batch_dims = 0%Z \/ (12 <= opset /\ data_rank <> None /\ indices_rank <> None) ->
    exists e : expr A, gather_v2 opset (Some axis) batch_dims data_rank indices_rank = Some e.
Proof.
  intros A opset axis b dr ir H. unfold gather_v2. destruct (Z.eqb_spec b 0); [eauto|]. destruct H as [H|(H & H1 & H2)]; [congruence|].
  rewrite (proj2 (Nat.ltb_ge opset 12)) by lia. destruct (Z.eqb axis b); [eauto|]. destruct dr, ir; try congruence. eauto.
Qed.
(** It refuses an axis computed at run time, and batch_dims before opset 12. *)
Theorem C65_refuses :
  forall (A : Type) opset axis batch_dims (data_rank indices_rank : option nat),
    axis = None \/ (opset < 12 /\ batch_dims <> 0%Z) -> gather_v2 (A := A) opset axis batch_dims data_rank indices_rank = None.
Proof.
  intros A opset [axis|] b dr ir H; auto. destruct H as [H|[H1 H2]]; [discriminate|]. unfold gather_v2. rewrite (proj2 (Z.eqb_neq b 0)) by auto.
  apply Nat.ltb_lt in H1. now rewrite H1.
Qed.
Theorem C65_negative_axis_refuted :
  exists (x y : tensor nat) idx e, wf x /\ tf_gather (-1) 1 x idx = Some y /\
    gather_v2 12 (Some (-1)%Z) 1 (Some 3) (Some 2) = Some e /\ length (shape x) = 3 /\ length (shape idx) = 2 /\ eval 0 12 [D x; I idx] e = None.
Proof. exists (Tensor [1; 1; 2] [1; 2]). eexists. exists (Tensor [1; 1] [1%Z]). eexists. repeat split; reflexivity. Qed.
Theorem C65_negative_batch_dims_refuted :
  exists (x y : tensor nat) idx e, wf x /\ tf_gather 1 (-1) x idx = Some y /\
    gather_v2 12 (Some 1%Z) (-1) (Some 2) (Some 2) = Some e /\ length (shape x) = 2 /\ length (shape idx) = 2 /\ eval 0 12 [D x; I idx] e = None.
Proof. exists (Tensor [1; 2] [1; 2]). eexists. exists (Tensor [1; 1] [1%Z]). eexists. repeat split; reflexivity. Qed.

Example gather_case : exists e, tf_gather (-1) 0 x23 (Tensor [2] [2; 0]%Z) = Some (Tensor [2; 2] [3; 1; 6; 4]) /\
  gather_v2 7 (Some (-1)%Z) 0 None None = Some e /\ eval 0 7 [D x23; I (Tensor [2] [2; 0]%Z)] e = Some (D (Tensor [2; 2] [3; 1; 6; 4])).
Proof. eexists. repeat split; reflexivity. Qed.
Definition x222 : tensor nat := Tensor [2; 2; 2] [1; 2; 3; 4; 5; 6; 7; 8].
Example gather_batch_case : exists e, tf_gather 2 1 x222 (Tensor [2; 1] [1; 0]%Z) = Some (Tensor [2; 2; 1] [2; 4; 5; 7]) /\
  gather_v2 13 (Some 2%Z) 1 (Some 3) (Some 2) = Some e /\ eval 0 13 [D x222; I (Tensor [2; 1] [1; 0]%Z)] e = Some (D (Tensor [2; 2; 1] [2; 4; 5; 7])).
Proof. eexists. split; [reflexivity|]. split; [reflexivity|]. vm_compute. reflexivity. Qed.

Print Assumptions C64_slice_const.
Print Assumptions C64_slice_runtime_partial.
Print Assumptions C64_refuses.
Print Assumptions C64_runtime_rest_refuted.
Print Assumptions C65_gather_partial.
Print Assumptions C65_accepted.
Print Assumptions C65_refuses.
Print Assumptions C65_negative_axis_refuted.
Print Assumptions C65_negative_batch_dims_refuted.
