(** C63: Pack, Unpack, Split and SplitV become ONNX expressions with the values of tf.stack, tf.unstack and tf.split. *)
From Coq Require Import List Arith ZArith Bool Lia.
From Verif Require Import Tensor FoldModel OnnxSpec TensorProofs TOps TOpsProofs PackModel PackSpec PackProofs.
Import ListNotations.
Local Open Scope list_scope.

(** tf.stack of any number of tensors of any shape, along any axis; the rank of the first tensor may be unknown. *)
Theorem C63_stack :
  forall (A : Type) (zero : A) opset (rank : option nat) axis (xs : list (tensor A)) y e others,
    Forall wf xs ->
    (rank = option_map (fun x => length (shape x)) (nth_error xs 0) \/ rank = None) ->
    tf_stack axis xs = Some y ->
    pack opset rank axis (length xs) = Some e ->
    eval zero opset (map D xs ++ others) e = Some (D y).
Proof. intros. eapply pack_ok; eauto. Qed.

(** Every output of tf.unstack. *)
Theorem C63_unstack :
  forall (A : Type) (zero : A) opset (rank : option nat) axis num i (x y : tensor A) e others,
    wf x ->
    (rank = Some (length (shape x)) \/ rank = None) ->
    tf_unstack axis num i x = Some y ->
    unpack opset rank axis num i = Some e ->
    eval zero opset (D x :: others) e = Some (D y).
Proof. intros. eapply unpack_ok; eauto. Qed.

(** Both handlers accept every node whose axis is not negative, or whose rank is known. *)
Theorem C63_accepted :
  forall (A : Type) opset (rank : option nat) axis num i,
    (0 <= axis)%Z \/ rank <> None ->
    (exists e : expr A, pack opset rank axis num = Some e) /\ (exists e : expr A, unpack opset rank axis num i = Some e).
Proof.
  intros A opset rank axis num i H. unfold pack, unpack, pack_axis. destruct (Z.ltb_spec axis 0); [destruct rank as [r|]|]; split; eauto;
    exfalso; destruct H; auto; lia.
Qed.

(** Every output of tf.split with a number of parts.  Partial: a negative axis needs opset 11 (refuted below). *)
Theorem C63_split_partial :
  forall (A : Type) (zero : A) opset axis num i (x y : tensor A) others,
    wf x -> (0 <= axis)%Z \/ 11 <= opset ->
    tf_split axis num i x = Some y ->
    eval zero opset (D x :: others) (PackModel.split axis num i) = Some (D y).
Proof. intros. apply split_ok; auto. Qed.

(** Every output of tf.split with constant sizes; the static shape of the input may be unknown or partly unknown.
    Partial: a negative axis needs opset 11, a size -1 needs the dimension to be known (both refuted below). *)
Theorem C63_split_sizes_partial :
  forall (A : Type) (zero : A) opset (static : option (list Z)) sizes axis i (x y : tensor A) e others,
    wf x -> (0 <= axis)%Z \/ 11 <= opset ->
    (forall sh, static = Some sh -> static_of sh x) ->
    (In (-1)%Z sizes -> forall sh k, static = Some sh -> norm_axis (length (shape x)) axis = Some k -> nth_error sh k <> Some (-1)%Z) ->
    tf_split_sizes axis sizes i x = Some y ->
    split_v opset static (Some sizes) axis i = Some e ->
    eval zero opset (D x :: others) e = Some (D y).
Proof. intros. eapply split_v_ok; eauto. destruct static as [sh|]; auto. Qed.

(** Every output of tf.split with sizes computed at run time.  Partial: no size is -1 (refuted below). *)
Theorem C63_split_runtime_partial :
  forall (A : Type) (zero : A) opset (static : option (list Z)) sizes axis i (x y : tensor A) e others,
    wf x -> ~ In (-1)%Z sizes ->
    tf_split_sizes axis sizes i x = Some y ->
    split_v opset static None axis i = Some e ->
    eval zero opset (D x :: I (Tensor [length sizes] sizes) :: others) e = Some (D y).
Proof. intros. eapply split_v_dynamic_ok; eauto. Qed.

(** Before opset 13 sizes computed at run time are refused; a constant -1 is refused without a static shape. *)
Theorem C63_refuses :
  (forall (A : Type) opset static axis i, opset < 13 -> split_v (A := A) opset static None axis i = None) /\
  (forall (A : Type) opset sizes axis i, In (-1)%Z sizes -> split_v (A := A) opset None (Some sizes) axis i = None).
Proof.
  split.
  - intros A opset static axis i H. unfold split_v. apply Nat.ltb_lt in H. now rewrite H.
  - intros A opset sizes axis i H. unfold split_v, split_sizes.
    assert (E : existsb (Z.eqb (-1)) sizes = true) by (apply existsb_exists; exists (-1)%Z; auto). now rewrite E.
Qed.

(** The parts that are false. *)
Theorem C63_negative_axis_refuted :
  exists (x y : tensor nat), wf x /\ tf_split (-1) 2 0 x = Some y /\ eval 0 10 [D x] (PackModel.split (-1) 2 0) = None.
Proof. exists (Tensor [2; 2] [1; 2; 3; 4]). eexists. repeat split; reflexivity. Qed.
Theorem C63_unknown_dim_refuted :
  exists (x y : tensor nat) e, wf x /\ static_of [(-1)%Z] x /\ tf_split_sizes 0 [1; -1]%Z 0 x = Some y /\
    split_v 13 (Some [(-1)%Z]) (Some [1; -1]%Z) 0 0 = Some e /\ eval 0 13 [D x] e = None.
Proof.
  exists (Tensor [4] [1; 2; 3; 4]). do 2 eexists. split; [reflexivity|]. split; [repeat constructor|]. split; [reflexivity|]. split; [reflexivity|]. reflexivity.
Qed.
Theorem C63_runtime_rest_refuted :
  exists (x y : tensor nat) e, wf x /\ tf_split_sizes 0 [1; -1]%Z 0 x = Some y /\
    split_v 13 (Some [4%Z]) None 0 0 = Some e /\ eval 0 13 [D x; I (Tensor [2] [1; -1]%Z)] e = None.
Proof. exists (Tensor [4] [1; 2; 3; 4]). do 2 eexists. repeat split; reflexivity. Qed.

(** ** Non-vacuity *)
Definition x23 : tensor nat := Tensor [2; 3] [1; 2; 3; 4; 5; 6].
Example stack_case : exists y e, tf_stack (-1) [x23; Tensor [2; 3] [7; 8; 9; 10; 11; 12]] = Some y /\
  data y = [1; 7; 2; 8; 3; 9; 4; 10; 5; 11; 6; 12] /\ pack 13 (Some 2) (-1) 2 = Some e /\
  eval 0 13 [D x23; D (Tensor [2; 3] [7; 8; 9; 10; 11; 12])] e = Some (D y).
Proof. do 2 eexists. repeat split; reflexivity. Qed.
Example unstack_case : exists y e, tf_unstack 1 3 1 x23 = Some y /\ y = Tensor [2] [2; 5] /\ unpack 9 None 1 3 1 = Some e /\ eval 0 9 [D x23] e = Some (D y).
Proof. do 2 eexists. repeat split; reflexivity. Qed.
Example split_case : exists y, tf_split (-1) 3 2 x23 = Some y /\ y = Tensor [2; 1] [3; 6] /\ eval 0 11 [D x23] (PackModel.split (-1) 3 2) = Some (D y).
Proof. eexists. repeat split; reflexivity. Qed.
Example split_sizes_case : exists y e, tf_split_sizes 1 [1; -1]%Z 1 x23 = Some y /\ y = Tensor [2; 2] [2; 3; 5; 6] /\ static_of [-1; 3]%Z x23 /\
  split_v 13 (Some [-1; 3]%Z) (Some [1; -1]%Z) 1 1 = Some e /\ eval 0 13 [D x23] e = Some (D y).
Proof.
  do 2 eexists. split; [reflexivity|]. split; [reflexivity|]. split; [|split; reflexivity]. constructor; [now left|]. constructor; [now right|]. constructor.
Qed.
Example split_runtime_case : exists y e, tf_split_sizes 1 [1; 0; 2]%Z 2 x23 = Some y /\ y = Tensor [2; 2] [2; 3; 5; 6] /\
  split_v 13 None None 1 2 = Some e /\ eval 0 13 [D x23; I (Tensor [3] [1; 0; 2]%Z)] e = Some (D y).
Proof. do 2 eexists. repeat split; reflexivity. Qed.

Print Assumptions C63_stack.
Print Assumptions C63_unstack.
Print Assumptions C63_accepted.
Print Assumptions C63_split_partial.
Print Assumptions C63_split_sizes_partial.
Print Assumptions C63_split_runtime_partial.
Print Assumptions C63_refuses.
Print Assumptions C63_negative_axis_refuted.
Print Assumptions C63_unknown_dim_refuted.
Print Assumptions C63_runtime_rest_refuted.
