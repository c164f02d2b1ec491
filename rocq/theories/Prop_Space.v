(** C60: BatchToSpaceND and SpaceToBatchND become ONNX expressions with the same value. *)
From Coq Require Import List Arith ZArith Bool Lia.
From Verif Require Import Tensor FoldModel TOps SpaceModel SpaceSpec SpaceProofs3 SpaceProofs4 SpaceProofs6.
Import ListNotations.
Local Open Scope list_scope.

(** For every element type, opset, block shape, crops (constant or computed) and tensor for which TensorFlow's
    batch_to_space is defined: if the handler accepts the node, the expression it leaves has TensorFlow's value.
    Partial: no spatial or remaining dimension is 0 (see the refutation below), and the rank and the uncropped spatial
    dimensions are within the constants the handler uses for "to the end". *)
Theorem C60_batch_to_space_partial :
  forall (A : Type) (zero : A) opset block crops (const : bool) (x y : tensor A) (other : value A) e,
    wf x -> block <> [] ->
    Forall (fun d => 0 < d) (tl (shape x)) ->
    (Z.of_nat (length (shape x)) <= int64_max)%Z ->
    Forall (fun d => (Z.of_nat d <= int32_max)%Z) (map2 Nat.mul (tl (shape x)) block) ->
    tf_batch_to_space block crops x = Some y ->
    batch_to_space opset block (length (shape x))
      (if const then Some (map (fun '(c, d) => (Z.of_nat c, Z.of_nat d)) crops) else None) = Some e ->
    eval zero opset [D x; other; I (matrix crops)] e = Some (D y).
Proof.
  intros A zero opset block crops const x y other e Wx Nb Pos Rank Small TF. unfold batch_to_space.
  destruct (square_2d block (length (shape x))) eqn:Sq.
  - intro E. eapply b2s_square_ok; eauto.
  - intro E. unfold b2s_general in E. destruct (Nat.ltb opset 11) eqn:O; [discriminate|]. apply Nat.ltb_ge in O.
    destruct (b2s_general_ok zero opset block x y crops other O) as (e' & E1 & E2); auto; [destruct block; [congruence|cbn; lia]|].
    unfold b2s_general in E1. rewrite (proj2 (Nat.ltb_ge opset 11) O) in E1. congruence.
Qed.

(** The same for space_to_batch_nd.  Partial: no dimension of the result except the batch is 0. *)
Theorem C60_space_to_batch_partial :
  forall (A : Type) (zero : A) opset block paddings (const : bool) (x y : tensor A) (other : value A) e,
    wf x -> block <> [] ->
    Forall (fun d => 0 < d) (tl (shape y)) ->
    (Z.of_nat (length (shape x)) <= int64_max)%Z ->
    tf_space_to_batch zero block paddings x = Some y ->
    space_to_batch opset block (length (shape x))
      (if const then Some (map (fun '(c, d) => (Z.of_nat c, Z.of_nat d)) paddings) else None) = Some e ->
    eval zero opset [D x; other; I (matrix paddings)] e = Some (D y).
Proof.
  intros A zero opset block pads const x y other e Wx Nb Pos Rank TF. unfold space_to_batch.
  destruct (square_2d block (length (shape x)) && _) eqn:Sq.
  - apply andb_true_iff in Sq. destruct Sq as [Sq C2]. intro E.
    assert (Hc : const = true \/ 11 <= opset) by (destruct const; [auto|right; now apply Nat.leb_le]).
    eapply s2b_square_ok; eauto.
  - intro E. unfold s2b_general in E. destruct (Nat.ltb opset 11) eqn:O; [discriminate|]. apply Nat.ltb_ge in O.
    destruct (s2b_general_ok zero opset block x y pads other O) as (e' & E1 & E2); auto; [destruct block; [congruence|cbn; lia]|].
    unfold s2b_general in E1. rewrite (proj2 (Nat.ltb_ge opset 11) O) in E1. congruence.
Qed.

(** From opset 11 on the handlers accept every node for which the operation is defined. *)
Theorem C60_accepted : forall (A : Type) (zero : A) opset block rows (const : bool) (x y : tensor A),
  11 <= opset ->
  let known := if const then Some (map (fun '(c, d) => (Z.of_nat c, Z.of_nat d)) rows) else None in
  (tf_batch_to_space block rows x = Some y -> @batch_to_space A opset block (length (shape x)) known <> None) /\
  (tf_space_to_batch zero block rows x = Some y -> @space_to_batch A opset block (length (shape x)) known <> None).
Proof.
  intros A zero opset block rows const x y O known.
  assert (O10 : Nat.ltb opset 10 = false) by (apply Nat.ltb_ge; lia). assert (O11 : Nat.ltb opset 11 = false) by (apply Nat.ltb_ge; lia).
  split; intro TF.
  - destruct (tf_b2s_inv _ _ _ _ TF) as (_ & _ & _ & _ & _ & L & _). unfold batch_to_space, known. destruct (square_2d block (length (shape x))) eqn:Sq.
    + unfold square_2d in Sq. rewrite !andb_true_iff in Sq. destruct Sq as ((_ & Hb) & _). apply Nat.eqb_eq in Hb. unfold blocklen in Hb. rewrite Hb in L.
      destruct rows as [|[a b] [|[c d] [|]]]; try discriminate. unfold b2s_square. destruct const; cbn [map]; [discriminate|]. unfold make_slice_dyn. rewrite O10. discriminate.
    + unfold b2s_general. rewrite O11. discriminate.
  - destruct (tf_s2b_inv _ _ _ _ _ TF) as (_ & _ & _ & _ & _ & _ & L & _). unfold space_to_batch, known. destruct (square_2d block (length (shape x)) && _) eqn:Sq.
    + apply andb_true_iff in Sq. destruct Sq as [Sq _]. unfold square_2d in Sq. rewrite !andb_true_iff in Sq. destruct Sq as ((_ & Hb) & _). apply Nat.eqb_eq in Hb. unfold blocklen in Hb. rewrite Hb in L.
      destruct rows as [|[a b] [|[c d] [|]]]; try discriminate. unfold s2b_square, s2b_pad. destruct const; cbn [map option_map]; discriminate.
    + unfold s2b_general. rewrite O11. discriminate.
Qed.

(** The full statement fails for tensors with an empty dimension: the general path reshapes with 0 and -1 *)
Theorem C60_empty_refuted : exists (block : list nat) paddings (x y : tensor nat) e z,
  wf x /\ tf_space_to_batch 0 block paddings x = Some y /\
  space_to_batch 11 block (length (shape x)) None = Some e /\
  eval 0 11 [D x; I (zvec (znat block)); I (matrix paddings)] e = Some z /\ z <> D y.
Proof.
  exists [2], [(0, 0)], (Tensor [1; 4; 0; 2] []), (Tensor [2; 2; 0; 2] []).
  eexists. eexists. split; [reflexivity|]. split; [reflexivity|]. split; [reflexivity|]. split; [vm_compute; reflexivity|]. discriminate.
Qed.

Print Assumptions C60_batch_to_space_partial.
Print Assumptions C60_space_to_batch_partial.
Print Assumptions C60_accepted.
Print Assumptions C60_empty_refuted.

(** ** the hypotheses are met *)
Definition counting (sh : list nat) : tensor nat := from_fun sh (fun ix => S (ravel sh ix)).
(** the general path: a 2 x 3 block, computed crops, opset 13 *)
Example C60_general_case : exists y e, wf (counting [12; 2; 1; 2]) /\
  tf_batch_to_space [2; 3] [(1, 1); (0, 1)] (counting [12; 2; 1; 2]) = Some y /\ shape y = [2; 2; 2; 2] /\
  batch_to_space 13 [2; 3] 4 None = Some e /\
  eval 0 13 [D (counting [12; 2; 1; 2]); I (zvec [2; 3]%Z); I (matrix [(1, 1); (0, 1)])] e = Some (D y).
Proof. eexists. eexists. split; [reflexivity|]. split; [vm_compute; reflexivity|]. split; [reflexivity|]. split; [reflexivity|]. vm_compute. reflexivity. Qed.
(** the path through DepthToSpace, rank 3, constant crops, opset 9 *)
Example C60_square_case : exists y e, wf (counting [8; 2; 2]) /\
  tf_batch_to_space [2; 2] [(1, 0); (0, 1)] (counting [8; 2; 2]) = Some y /\ shape y = [2; 3; 3] /\
  batch_to_space 9 [2; 2] 3 (Some [(1, 0); (0, 1)]%Z) = Some e /\
  eval 0 9 [D (counting [8; 2; 2]); I (zvec [2; 2]%Z); I (matrix [(1, 0); (0, 1)])] e = Some (D y).
Proof. eexists. eexists. split; [reflexivity|]. split; [vm_compute; reflexivity|]. split; [reflexivity|]. split; [reflexivity|]. vm_compute. reflexivity. Qed.
(** space_to_batch with three spatial axes of a rank 4 tensor, computed paddings *)
Example C60_pad_case : exists y e, wf (counting [2; 3; 2; 1]) /\
  tf_space_to_batch 0 [2; 1; 3] [(1, 0); (0, 1); (1, 1)] (counting [2; 3; 2; 1]) = Some y /\ shape y = [12; 2; 3; 1] /\
  space_to_batch 12 [2; 1; 3] 4 None = Some e /\
  eval 0 12 [D (counting [2; 3; 2; 1]); I (zvec [2; 1; 3]%Z); I (matrix [(1, 0); (0, 1); (1, 1)])] e = Some (D y).
Proof. eexists. eexists. split; [reflexivity|]. split; [vm_compute; reflexivity|]. split; [reflexivity|]. split; [reflexivity|]. vm_compute. reflexivity. Qed.
