(** C61: Roll becomes an ONNX expression with the value of tf.roll. *)
From Coq Require Import List Arith ZArith Bool Lia.
From Verif Require Import Tensor FoldModel OnnxSpec TensorProofs TOps TOpsProofs RollModel RollSpec RollProofs.
Import ListNotations.
Local Open Scope list_scope.

(** the tensor and the entries of a scalar or vector operand *)
Definition operand (v : const_value) : tensor Z := match v with Scalar a => Tensor [] [a] | Vector l => Tensor [length l] l end.
Definition entries (v : const_value) : list Z := match v with Scalar a => [a] | Vector l => l end.
(** TensorFlow requires shift and axis to be both scalars or both vectors of the same length *)
Definition same_form (v w : const_value) : Prop := shape (operand v) = shape (operand w).

(** For every element type, tensor, shifts and axes for which tf.roll is defined: if the handler accepts the node, the
    expression it leaves has the value of tf.roll.  Partial: the rolled dimensions are not 0 and shift is not a vector
    of one entry (both refuted below). *)
Theorem C61_roll_partial :
  forall (A : Type) (zero : A) opset (x y : tensor A) shift axis (rank : option nat) (is_int64 : bool) e other,
    wf x -> same_form shift axis ->
    (forall s, shift <> Vector [s]) ->
    (forall a n, In a (entries axis) -> norm_axis (length (shape x)) a = Some n -> 0 < nth n (shape x) 0) ->
    (rank = Some (length (shape x)) \/ rank = None) ->
    tf_roll (entries shift) (entries axis) x = Some y ->
    roll opset rank is_int64 axis = Some e ->
    eval zero opset [D x; I (operand shift); other] e = Some (D y).
Proof.
  intros A zero opset x y shift axis rank is64 e other Wx SF NV Pos Hr TF R. unfold roll in R.
  destruct (Nat.ltb opset 10) eqn:O; [discriminate|]. apply Nat.ltb_ge in O. unfold tf_roll in TF.
  change (axes_list axis) with (entries axis) in R.
  destruct (norm_axes (length (shape x)) (entries axis)) as [ns|] eqn:En; [|discriminate].
  destruct (FoldModel.sequence _) as [ms|] eqn:Em; [|discriminate]. injection R as <-.
  destruct (norm_with_list _ _ Hr _ _ _ En Em) as [-> Fn].
  destruct (Nat.leb 1 (length (shape x)) && Nat.eqb (length (entries shift)) (length ns)) eqn:C; [|discriminate].
  apply andb_true_iff in C. destruct C as [_ C]. apply Nat.eqb_eq in C. destruct (build_spec _ _ _ TF) as (Sy & Wy & Gy).
  assert (NV' : match shift with Vector [_] => False | _ => True end) by (destruct shift as [|[|s [|]]]; auto; apply (NV s); reflexivity).
  assert (Fe := shifts_ok zero opset x [other] is64 shift NV'). cbv zeta in Fe.
  assert (Fa : Forall (fun a => a < length (shape x) /\ 0 < nth a (shape x) 0) ns).
  { clear -En Fn Pos. revert ns En Fn. induction (entries axis) as [|a l IH]; intros ns En Fn; cbn [norm_axes] in En.
    - injection En as <-. constructor.
    - destruct (norm_axis (length (shape x)) a) as [n|] eqn:E; [|discriminate]. destruct (norm_axes _ l) as [ns'|] eqn:E'; [|discriminate]. injection En as <-.
      inversion Fn; subst. constructor; [split; auto; eapply Pos; [left; reflexivity|auto]|]. apply IH; auto. intros; eapply Pos; eauto. now right. }
  destruct (loop_ok zero opset x [I (operand shift); other] O ns (entries shift) _ (Inp 0) x C Fe Fa Wx eq_refl eq_refl) as (z & Ez & Wz & Sz & Gz).
  rewrite map_length. change (axes_list shift) with (entries shift) in Ez. rewrite C in Ez. change (const_tensor shift) with (operand shift) in Ez.
  rewrite Ez. do 2 f_equal. apply tensor_ext; auto; [congruence|]. rewrite Sz. intros ix Hi. rewrite Gz, Gy; auto.
Qed.

(** From opset 10 on every node with valid axes is accepted when the rank is known. *)
Theorem C61_accepted : forall (A : Type) opset (x y : tensor A) shift axis is_int64,
  10 <= opset -> tf_roll (entries shift) (entries axis) x = Some y ->
  @roll A opset (Some (length (shape x))) is_int64 axis <> None.
Proof.
  intros A opset x y shift axis is64 O TF. unfold roll. rewrite (proj2 (Nat.ltb_ge opset 10) O). change (axes_list axis) with (entries axis).
  assert (Q : FoldModel.sequence (map (norm_with (Some (length (shape x)))) (entries axis)) <> None); [|destruct (FoldModel.sequence _); congruence].
  induction (entries axis) as [|a l IH]; [discriminate|]. cbn [map FoldModel.sequence]. unfold norm_with at 1.
  assert (Z : FoldModel.sequence (map (norm_with (Some (length (shape x)))) l) <> None).
  { clear. induction l as [|a l IH]; [discriminate|]. cbn [map FoldModel.sequence]. unfold norm_with at 1. destruct (FoldModel.sequence _); [|congruence]. destruct (0 <=? a)%Z; discriminate. }
  destruct (FoldModel.sequence _); [|congruence]. destruct (0 <=? a)%Z; discriminate.
Qed.

(** A vector of one shift: the handler unsqueezes it to a matrix and Slice rejects it. *)
Theorem C61_vector_refuted : exists (x y : tensor nat) e,
  wf x /\ tf_roll [1%Z] [0%Z] x = Some y /\ roll 13 (Some 1) true (Vector [0%Z]) = Some e /\
  eval 0 13 [D x; I (operand (Vector [1%Z])); I (operand (Vector [0%Z]))] e = None.
Proof.
  exists (Tensor [3] [1; 2; 3]), (Tensor [3] [3; 1; 2]). eexists. repeat split.
Qed.
(** An empty dimension: tf.roll returns the tensor, the expression takes a remainder modulo 0. *)
Theorem C61_empty_refuted : exists (x y : tensor nat) e,
  wf x /\ tf_roll [1%Z] [0%Z] x = Some y /\ roll 13 (Some 2) true (Scalar 0%Z) = Some e /\
  eval 0 13 [D x; I (operand (Scalar 1%Z)); I (operand (Scalar 0%Z))] e = None.
Proof.
  exists (Tensor [0; 2] []), (Tensor [0; 2] []). eexists. repeat split.
Qed.

(** the hypotheses are met: shifts over several axes, one of them given twice and one negative *)
Example roll_witness : exists e, let x := Tensor [2; 3] [0; 1; 2; 3; 4; 5] in
  wf x /\ same_form (Vector [1; 4; -2]%Z) (Vector [0; -1; 1]%Z) /\
  tf_roll [1; 4; -2]%Z [0; -1; 1]%Z x = Some (Tensor [2; 3] [4; 5; 3; 1; 2; 0]) /\
  roll 11 (Some 2) false (Vector [0; -1; 1]%Z) = Some e /\
  eval 0 11 [D x; I (operand (Vector [1; 4; -2]%Z)); I (operand (Vector [0; -1; 1]%Z))] e = Some (D (Tensor [2; 3] [4; 5; 3; 1; 2; 0])).
Proof. eexists. repeat split. Qed.
Print Assumptions C61_roll_partial.
Print Assumptions C61_accepted.
Print Assumptions C61_vector_refuted.
Print Assumptions C61_empty_refuted.
