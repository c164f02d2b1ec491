(** C69: ReverseSequence becomes an ONNX graph with the value of tf.reverse_sequence. *)
From Coq Require Import List Arith ZArith Bool Lia.
From Verif Require Import Tensor FoldModel OnnxSpec TensorProofs TOps TOpsProofs DepthModel DepthSpec RevSeqProofs.
Import ListNotations.
Local Open Scope list_scope.

(** From opset 10 on, for the first two axes in either role (a missing batch_dim is 0). *)
Theorem C69_reverse_sequence_partial :
  forall (A : Type) (zero : A) opset rank s b (batch_dim : option nat) lens (x y : tensor A) r others,
    10 <= opset -> s < 2 -> b < 2 -> (batch_dim = Some b \/ batch_dim = None /\ b = 0) ->
    tf_reverse_sequence s b lens x = Some y -> reverse_sequence opset rank s batch_dim = Some r ->
    exists e, r = Direct e /\ eval zero opset (D x :: I (zvec lens) :: others) e = Some (D y).
Proof.
  intros A zero opset rank s b bd lens x y r others O Hs Hb Hbd TF H. unfold reverse_sequence in H.
  rewrite (proj2 (Nat.ltb_ge opset 8)), (proj2 (Nat.ltb_ge opset 9)), (proj2 (Nat.ltb_ge opset 10)) in H by lia. injection H as <-. eexists. split; [reflexivity|].
  unfold reverse_sequence_10. replace (match bd with Some b => b | None => 0 end) with b by (destruct Hbd as [-> |[-> ->]]; auto).
  cbn [eval map sequence nth_error obind apply lift]. rewrite (proj2 (Nat.ltb_ge opset 10)) by lia. cbn [ints as_vec zvec shape data obind]. cbn [lift]. now rewrite (direct_ok s b lens x y Hs Hb TF).
Qed.
(** Opset 8, for the first two axes in either role: right inside the sequences, for every result that the documentation of
    Scan allows; so everywhere if all the sequences are full. *)
Theorem C69_scan_partial :
  forall (A : Type) s b perm lens (x y z : tensor A),
    wf x -> (s = 0 /\ b = 1) \/ (s = 1 /\ b = 0) ->
    tf_reverse_sequence s b lens x = Some y ->
    reverse_sequence (A := A) 8 (Some (length (shape x))) s (Some b) = Some (ByScan perm) -> by_scan perm lens x z ->
    shape z = shape y /\
    (forall ix, inb ix (shape y) -> nth s ix 0 < Z.to_nat (nth (nth b ix 0) lens 0%Z) -> get z ix = get y ix) /\
    ((forall l, In l lens -> l = Z.of_nat (nth s (shape x) 0)) -> z = y).
Proof.
  intros A s b perm lens x y z W Hsb TF H Hz.
  assert (Inf : wf y /\ shape y = shape x /\ s < length (shape x) /\ b < length (shape x) /\ length lens = nth b (shape x) 0).
  { unfold tf_reverse_sequence in TF. cbv zeta in TF. destruct (_ && _) eqn:C in TF; [|discriminate]. destruct (build_spec _ _ _ TF) as (Sy & Wy & _).
    rewrite !andb_true_iff in C. destruct C as [[[[C1 C2] _] C4] _]. apply Nat.ltb_lt in C1, C2. apply Nat.eqb_eq in C4. auto. }
  destruct Inf as (Wy & Sy & Ls & Lb & Ll).
  assert (G : agree_inside lens y s b z).
  { destruct Hsb as [[-> ->]|[-> ->]].
    - assert (R : reverse_sequence (A := A) 8 (Some (length (shape x))) 0 (Some 1) = Some (ByScan (Some ([1; 0] ++ seq 2 (length (shape x) - 2))))).
      { unfold reverse_sequence, reverse_sequence_8. destruct (shape x) as [|? [|]]; cbn [length] in Ls, Lb; try lia. reflexivity. }
      rewrite R in H. injection H as <-. now apply (scan_time_major lens x y W).
    - injection H as <-. now apply (scan_batch_major lens x y). }
  split; [apply G|]. split; [apply G|]. intro F. apply (inside_all lens y s b z); auto; rewrite ?Sy; auto. intros l Hl. rewrite (F l Hl). apply Nat2Z.id.
Qed.
(** The result that TensorFlow computes is one that Scan allows (the hypothesis about z can be met for every such node). *)
Theorem C69_scan_possible :
  forall (A : Type) s b (lens : list Z) (x y : tensor A),
    wf x -> (s = 0 /\ b = 1) \/ (s = 1 /\ b = 0) -> tf_reverse_sequence s b lens x = Some y ->
    exists perm, reverse_sequence (A := A) 8 (Some (length (shape x))) s (Some b) = Some (ByScan perm) /\ by_scan perm lens x y.
Proof.
  intros A s b lens x y W Hsb TF. unfold tf_reverse_sequence in TF. cbv zeta in TF. destruct (_ && _) eqn:C in TF; [|discriminate]. destruct (build_spec _ _ _ TF) as (Sy & Wy & Gy).
  rewrite !andb_true_iff in C. destruct C as [[[[C1 C2] _] C4] C5]. apply Nat.ltb_lt in C1, C2. apply Nat.eqb_eq in C4.
  destruct (shape x) as [|a [|c rest]] eqn:Sx; cbn [length] in *; [lia|destruct Hsb as [[-> ->]|[-> ->]]; lia|].
  destruct Hsb as [[-> ->]|[-> ->]].
  - exists (Some ([1; 0] ++ seq 2 (length rest))). split; [unfold reverse_sequence, reverse_sequence_8; cbn [Nat.ltb Nat.leb Nat.eqb andb negb option_map]; replace (S (S (length rest)) - 2) with (length rest) by lia; reflexivity|].
    destruct (swap_spec x a c rest W Sx) as (u & Eu & Su & Wu & Gu). destruct (swap_spec y a c rest Wy Sy) as (v & Ev & Sv & Wv & Gv). destruct (swap_spec v c a rest Wv Sv) as (y' & Ey & Sy' & Wy' & Gy').
    assert (y' = y). { apply tensor_ext; auto; [congruence|]. rewrite Sy'. intros [|i [|j ix]] Hi; cbn [inb] in Hi; try tauto. destruct Hi as (H1 & H2 & H3). rewrite Gy' by (cbn [inb]; auto). apply Gv. cbn [inb]; auto. }
    subst y'. exists u, v. split; auto. split; auto. split; [now rewrite Su|]. split; [congruence|]. split; auto. rewrite Su. intros k i ix Hi. cbn [inb] in Hi. destruct Hi as (H1 & H2 & H3). cbv zeta. intro Hn.
    rewrite Gv by (cbn [inb]; auto). rewrite Gy by (cbn [inb]; auto). cbn [nth]. rewrite (proj2 (Nat.ltb_lt _ _) Hn).
    assert (Z.to_nat (nth k lens 0%Z) <= a).
    { rewrite forallb_forall in C5. assert (In (nth k lens 0%Z) lens) by (apply nth_In; cbn [nth] in C4; lia). specialize (C5 _ H). apply andb_true_iff in C5. destruct C5 as [D1 D2]. apply Z.leb_le in D1, D2. cbn [nth] in D2. lia. }
    rewrite Gu by (cbn [inb]; repeat split; auto; lia). reflexivity.
  - exists None. split; [reflexivity|]. split; [now rewrite Sx|]. split; [congruence|]. split; auto. rewrite Sx. intros k i ix Hi. cbv zeta. intro Hn.
    rewrite Gy by auto. cbn [nth]. rewrite (proj2 (Nat.ltb_lt _ _) Hn). reflexivity.
Qed.
(** Refused: opset 9, opsets before 8, and at opset 8 nodes with seq_dim <> 1 and batch_dim <> 1. *)
Theorem C69_refuses :
  forall (A : Type) opset rank s b, opset < 8 \/ opset = 9 \/ (opset = 8 /\ s <> 1 /\ b <> Some 1) -> reverse_sequence (A := A) opset rank s b = None.
Proof.
  intros A opset rank s b [H|[-> |(-> & H1 & H2)]]; unfold reverse_sequence; auto; [apply Nat.ltb_lt in H; now rewrite H|].
  cbn [Nat.ltb Nat.leb]. destruct b as [b|]; auto. unfold reverse_sequence_8. rewrite (proj2 (Nat.eqb_neq s 1)) by auto. rewrite (proj2 (Nat.eqb_neq b 1)) by congruence. reflexivity.
Qed.
(** Opset 8: what lies behind a sequence that is shorter than the axis is undefined, where TensorFlow keeps the input. *)
Theorem C69_scan_tail_refuted :
  exists (x y z : tensor nat), tf_reverse_sequence 1 0 [1%Z] x = Some y /\
    reverse_sequence (A := nat) 8 (Some 2) 1 (Some 0) = Some (ByScan None) /\ by_scan None [1%Z] x z /\ data y = [5; 6] /\ data z = [5; 0].
Proof.
  exists (Tensor [1; 2] [5; 6]), (Tensor [1; 2] [5; 6]), (Tensor [1; 2] [5; 0]). split; [reflexivity|]. split; [reflexivity|]. split; [|auto].
  split; [reflexivity|]. split; [reflexivity|]. split; [reflexivity|]. intros b i rest Hi. cbn [shape inb] in Hi. destruct Hi as (H1 & H2 & H3). destruct rest; [|destruct H3].
  assert (b = 0) as -> by lia. cbn [nth]. change (Z.to_nat 1) with 1. intro H. assert (i = 0) as -> by lia. reflexivity.
Qed.
(** Opset 8: seq_dim = 1 with batch_dim = 2 is converted as batch_dim = 0, and so is wrong for every allowed result. *)
Theorem C69_scan_axes_refuted :
  exists (x y : tensor nat), tf_reverse_sequence 1 2 [2; 1]%Z x = Some y /\ data y = [3; 2; 1; 4; 7; 6; 5; 8] /\
    reverse_sequence (A := nat) 8 (Some 3) 1 (Some 2) = Some (ByScan None) /\ forall z, by_scan None [2; 1]%Z x z -> get z [0; 0; 1] = Some 4 /\ get y [0; 0; 1] = Some 2.
Proof.
  exists (Tensor [2; 2; 2] [1; 2; 3; 4; 5; 6; 7; 8]), (Tensor [2; 2; 2] [3; 2; 1; 4; 7; 6; 5; 8]). split; [reflexivity|]. split; [reflexivity|]. split; [reflexivity|].
  intros z (L & Sz & Wz & Gz). split; [|reflexivity]. rewrite (Gz 0 0 [1]); [reflexivity|cbn; lia|cbn; lia].
Qed.
(** From opset 10 on: an axis beyond the first two is passed on to an operator that does not have it. *)
Theorem C69_axes_refuted :
  forall opset, 10 <= opset -> exists (x y : tensor nat) e, tf_reverse_sequence 2 0 [2%Z] x = Some y /\
    reverse_sequence (A := nat) opset (Some 3) 2 (Some 0) = Some (Direct e) /\ eval 0 opset [D x; I (zvec [2%Z])] e = None.
Proof.
  intros opset O. exists (Tensor [1; 1; 2] [5; 6]). eexists. eexists. split; [reflexivity|]. split.
  - unfold reverse_sequence. rewrite (proj2 (Nat.ltb_ge opset 8)), (proj2 (Nat.ltb_ge opset 9)), (proj2 (Nat.ltb_ge opset 10)) by lia. reflexivity.
  - unfold reverse_sequence_10. cbn [eval map sequence nth_error obind apply]. destruct (Nat.ltb opset 10); reflexivity.
Qed.

(** ** Non-vacuity *)
Example direct_case : exists y e, tf_reverse_sequence 0 1 [2; 1]%Z (Tensor [2; 2] [1; 2; 3; 4]) = Some y /\ data y = [3; 2; 1; 4] /\
  reverse_sequence (A := nat) 11 None 0 (Some 1) = Some (Direct e) /\ eval 0 11 [D (Tensor [2; 2] [1; 2; 3; 4]); I (zvec [2; 1]%Z)] e = Some (D y).
Proof. do 2 eexists. split; [reflexivity|]. split; [reflexivity|]. split; [reflexivity|]. vm_compute. reflexivity. Qed.
Example scan_case : exists y perm, tf_reverse_sequence 0 1 [2; 1]%Z (Tensor [2; 2] [1; 2; 3; 4]) = Some y /\
  reverse_sequence (A := nat) 8 (Some 2) 0 (Some 1) = Some (ByScan perm) /\ perm = Some [1; 0] /\ by_scan perm [2; 1]%Z (Tensor [2; 2] [1; 2; 3; 4]) y.
Proof.
  destruct (C69_scan_possible nat 0 1 [2; 1]%Z (Tensor [2; 2] [1; 2; 3; 4]) (Tensor [2; 2] [3; 2; 1; 4])) as (perm & E & H); [reflexivity|auto|reflexivity|].
  exists (Tensor [2; 2] [3; 2; 1; 4]), perm. split; [reflexivity|]. split; [exact E|]. split; auto. vm_compute in E. congruence.
Qed.

Print Assumptions C69_reverse_sequence_partial.
Print Assumptions C69_scan_partial.
Print Assumptions C69_scan_possible.
Print Assumptions C69_refuses.
Print Assumptions C69_scan_tail_refuted.
Print Assumptions C69_scan_axes_refuted.
Print Assumptions C69_axes_refuted.
