(** C67: OneHot becomes an ONNX expression with the value of tf.one_hot. *)
From Coq Require Import List Arith ZArith Bool Lia.
From Verif Require Import Tensor FoldModel OnnxSpec TensorProofs TOps TOpsProofs HotModel HotSpec HotProofs.
Import ListNotations.
Local Open Scope list_scope.

(** The indices for which the conversion is right: all of them inside the range for the conversion by Gather, no index
    in -depth .. -1 for the operator OneHot from opset 11 on. *)
Definition good_indices (opset : nat) (is_float : bool) (depth : nat) (idx : tensor Z) : Prop :=
  forall v, In v (data idx) ->
    if is_float && Nat.leb 9 opset then 11 <= opset -> (0 <= v \/ v < - Z.of_nat depth)%Z
    else (0 <= v < Z.of_nat depth)%Z.
(** Every element type (0, 1 and == of it), axis, depth, opset, tensor of indices; depth and values constant or computed;
    without the pair on = 0, off = 1 in the conversion by Gather. *)
Theorem C67_one_hot_partial :
  forall (A : Type) (zero one : A) (eqb : A -> A -> bool) opset is_float axis depth (rank : option nat) (depth' : option Z) (on' off' : option A)
         (on off : A) (idx : tensor Z) (y : tensor A) e others,
    (forall x y, eqb x y = true <-> x = y) -> zero <> one ->
    wf idx ->
    (rank = Some (length (shape idx)) \/ rank = None /\ shape idx <> []) ->
    (depth' = Some (Z.of_nat depth) \/ depth' = None) -> (on' = Some on \/ on' = None) -> (off' = Some off \/ off' = None) ->
    good_indices opset is_float depth idx ->
    (is_float && Nat.leb 9 opset = false -> ~ (on = zero /\ off = one)) ->
    tf_one_hot axis depth on off idx = Some y ->
    one_hot zero one eqb opset is_float rank axis depth' on' off' = Some e ->
    eval zero opset (I idx :: I (Tensor [] [Z.of_nat depth]) :: D (Tensor [] [on]) :: D (Tensor [] [off]) :: others) e = Some (D y).
Proof.
  intros A zero one eqb opset fl axis depth rank d' on' off' on off idx y e others Eq Z1 W Hr Hd Hon Hoff Good Ok TF H. unfold one_hot in H. unfold good_indices in Good.
  assert (C : Nat.ltb opset 9 || negb fl = negb (fl && Nat.leb 9 opset)).
  { destruct fl; cbn [andb negb]; rewrite ?orb_true_r, ?orb_false_r; auto; destruct (Nat.ltb_spec opset 9), (Nat.leb_spec 9 opset); auto; lia. }
  rewrite C in H. destruct (fl && Nat.leb 9 opset) eqn:F; cbn [negb] in H.
  - injection H as <-. apply andb_true_iff in F. destruct F as [_ F]. apply Nat.leb_le in F. apply (native_ok zero opset idx depth on off others rank axis y); auto.
  - destruct rank as [[|[|r]]|]; cbn [one_hot_1] in H; try discriminate. destruct Hd as [-> | ->]; [|discriminate]. destruct Hon as [-> | ->]; [|discriminate]. destruct Hoff as [-> | ->]; [|discriminate].
    destruct Hr as [E|[E _]]; [|discriminate]. injection E as E. destruct idx as [[|n [|]] l]; try discriminate. unfold wf in W. cbn [shape data] in *. rewrite size_cons in W. change (size []) with 1 in W. rewrite Nat.mul_1_r in W.
    subst n. change (Tensor [length l] l) with (tvec l) in *. apply (gather_ok zero one eqb Eq Z1 opset l depth on off _ axis y e); auto.
Qed.
(** Accepted: always for float values from opset 9 on; otherwise for a vector of indices with constant depth and values. *)
Theorem C67_accepted :
  forall (A : Type) (zero one : A) eqb opset is_float axis rank depth' on' off',
    (is_float = true /\ 9 <= opset) \/ (rank = Some 1 /\ (exists d, depth' = Some (Z.of_nat d)) /\ on' <> None /\ off' <> None) ->
    exists e : expr A, one_hot zero one eqb opset is_float rank axis depth' on' off' = Some e.
Proof.
  intros A zero one eqb opset fl axis rank d' on' off' H. unfold one_hot. destruct (Nat.ltb opset 9 || negb fl) eqn:C; [|eauto].
  destruct H as [[-> O]|(-> & (d & ->) & N1 & N2)].
  - cbn [negb] in C. rewrite orb_false_r in C. apply Nat.ltb_lt in C. lia.
  - destruct on', off'; try congruence. cbn [one_hot_1]. destruct (Z.ltb_spec (Z.of_nat d) 0); [lia|]. eauto.
Qed.
(** Refused: anything else. *)
Theorem C67_refuses :
  forall (A : Type) (zero one : A) eqb opset is_float axis rank depth' on' off',
    is_float = false \/ opset < 9 ->
    rank <> Some 1 \/ depth' = None \/ on' = None \/ off' = None ->
    one_hot zero one eqb opset is_float rank axis depth' on' off' = None.
Proof.
  intros A zero one eqb opset fl axis rank d' on' off' H1 H2. unfold one_hot.
  replace (Nat.ltb opset 9 || negb fl) with true.
  2:{ destruct H1 as [-> |O]; [now rewrite orb_true_r|]. apply Nat.ltb_lt in O. now rewrite O. }
  destruct rank as [[|[|r]]|]; auto. destruct H2 as [H2|[-> |[-> | ->]]]; [congruence| | |]; auto; cbn [one_hot_1]; destruct d'; auto; destruct on'; auto.
Qed.
(** tf.one_hot([-1], 2): all off in TensorFlow; from opset 11 on the expression has the on value at the last position. *)
Theorem C67_negative_refuted :
  exists e y, tf_one_hot (-1) 2 7 3 (tvec [(-1)%Z]) = Some y /\ data y = [3; 3] /\
    one_hot 0 1 Nat.eqb 11 true (Some 1) (-1) None None None = Some e /\
    eval 0 11 [I (tvec [(-1)%Z]); I (Tensor [] [2%Z]); D (Tensor [] [7]); D (Tensor [] [3])] e = Some (D (Tensor [1; 2] [3; 7])).
Proof. do 2 eexists. split; [reflexivity|]. split; [reflexivity|]. split; [reflexivity|]. vm_compute. reflexivity. Qed.
(** The same index -1 in the conversion by Gather, for every opset. *)
Theorem C67_negative_gather_refuted :
  forall opset, exists e y, tf_one_hot (-1) 2 7 3 (tvec [(-1)%Z]) = Some y /\ data y = [3; 3] /\
    one_hot 0 1 Nat.eqb opset false (Some 1) (-1) (Some 2%Z) (Some 7) (Some 3) = Some e /\
    eval 0 opset [I (tvec [(-1)%Z])] e = Some (D (Tensor [1; 2] [3; 7])).
Proof.
  intro opset. do 2 eexists. split; [reflexivity|]. split; [reflexivity|]. split; [unfold one_hot; rewrite orb_true_r; reflexivity|]. vm_compute. reflexivity.
Qed.
(** An index beyond depth in the conversion by Gather: all off in TensorFlow, an error in ONNX. *)
Theorem C67_out_of_range_refuted :
  forall opset, exists e y, tf_one_hot (-1) 2 7 3 (tvec [2%Z]) = Some y /\ data y = [3; 3] /\
    one_hot 0 1 Nat.eqb opset false (Some 1) (-1) (Some 2%Z) (Some 7) (Some 3) = Some e /\
    eval 0 opset [I (tvec [2%Z])] e = None.
Proof.
  intro opset. do 2 eexists. split; [reflexivity|]. split; [reflexivity|]. split; [unfold one_hot; rewrite orb_true_r; reflexivity|]. vm_compute. reflexivity.
Qed.
(** on = 0 and off = 1 (a "one-cold" encoding) in the conversion by Gather: the table is all zero. *)
Theorem C67_on_zero_off_one_refuted :
  forall opset, exists e y, tf_one_hot (-1) 2 0 1 (tvec [1%Z]) = Some y /\ data y = [1; 0] /\
    one_hot 0 1 Nat.eqb opset false (Some 1) (-1) (Some 2%Z) (Some 0) (Some 1) = Some e /\
    eval 0 opset [I (tvec [1%Z])] e = Some (D (Tensor [1; 2] [0; 0])).
Proof.
  intro opset. do 2 eexists. split; [reflexivity|]. split; [reflexivity|]. split; [unfold one_hot; rewrite orb_true_r; reflexivity|]. vm_compute. reflexivity.
Qed.

(** ** Non-vacuity *)
Example native_case : exists y e, tf_one_hot 1 3 7 0 (Tensor [2; 2] [0; 2; 1; 5]%Z) = Some y /\ shape y = [2; 3; 2] /\ data y = [7; 0; 0; 0; 0; 7; 0; 0; 7; 0; 0; 0] /\
  one_hot 0 1 Nat.eqb 9 true None 1 None None None = Some e /\ good_indices 9 true 3 (Tensor [2; 2] [0; 2; 1; 5]%Z) /\
  eval 0 9 [I (Tensor [2; 2] [0; 2; 1; 5]%Z); I (Tensor [] [3%Z]); D (Tensor [] [7]); D (Tensor [] [0])] e = Some (D y).
Proof. do 2 eexists. split; [reflexivity|]. split; [reflexivity|]. split; [reflexivity|]. split; [reflexivity|]. split; [intros v _; cbn; lia|]. vm_compute. reflexivity. Qed.
Example scalar_case : exists y e, tf_one_hot 0 3 7 0 (Tensor [] [2%Z]) = Some y /\ data y = [0; 0; 7] /\
  one_hot 0 1 Nat.eqb 13 true (Some 0) 0 None None None = Some e /\
  eval 0 13 [I (Tensor [] [2%Z]); I (Tensor [] [3%Z]); D (Tensor [] [7]); D (Tensor [] [0])] e = Some (D y).
Proof. do 2 eexists. split; [reflexivity|]. split; [reflexivity|]. split; [reflexivity|]. vm_compute. reflexivity. Qed.
Example gather_case : exists y e, tf_one_hot 0 3 7 5 (tvec [2; 0]%Z) = Some y /\ data y = [5; 7; 5; 5; 7; 5] /\
  one_hot 0 1 Nat.eqb 11 false (Some 1) 0 (Some 3%Z) (Some 7) (Some 5) = Some e /\
  eval 0 11 [I (tvec [2; 0]%Z)] e = Some (D y).
Proof. do 2 eexists. split; [reflexivity|]. split; [reflexivity|]. split; [reflexivity|]. vm_compute. reflexivity. Qed.

Print Assumptions C67_one_hot_partial.
Print Assumptions C67_accepted.
Print Assumptions C67_refuses.
Print Assumptions C67_negative_refuted.
Print Assumptions C67_negative_gather_refuted.
Print Assumptions C67_out_of_range_refuted.
Print Assumptions C67_on_zero_off_one_refuted.
