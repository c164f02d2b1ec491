(** C70: Range becomes an ONNX graph with the value of tf.range. *)
From Coq Require Import ZArith Reals List Bool String Lia.
From Flocq Require Import Core BinarySingleNaN.
From Verif Require Import ElemSpec ElemModel ElemFloat RangeSpec RangeModel RangeProofs.
Import ListNotations.
Local Open Scope list_scope.
Local Open Scope Z_scope.

(** what the graph computes from the integers start, limit, delta *)
Definition graph_ints (opset : nat) (t : ity) (g : range_graph) (start limit delta : Z) : option (list val) :=
  match g with
  | ConstRange l => Some l
  | LoopRange trip current scan => run_loop opset trip current scan (VI t start) (VI t limit) (VI t delta)
  | RangeOp => onnx_range_ints t start limit delta
  end.
(** for which ranges: the loop before opset 11 counts in float32, numpy in float64 *)
Definition exact_length (opset : nat) (const : bool) (t : ity) (start limit : Z) : Prop :=
  (opset < 11)%nat -> Z.abs (limit - start) < (if const then 2 ^ 53 else 2 ^ 24) /\ in_range t (limit - start).
Theorem C70_range_ints_partial :
  forall opset t start limit delta (consts : option (Z * Z * Z)) g l,
    t = I32 \/ t = I64 -> in_range t start -> in_range t limit -> in_range t delta ->
    consts = Some (start, limit, delta) \/ consts = None ->
    exact_length opset (match consts with Some _ => true | None => false end) t start limit ->
    tf_range_ints t start limit delta = Some l -> range_ints opset t consts = Some g ->
    graph_ints opset t g start limit delta = Some l.
Proof.
  intros opset t start limit delta consts g l Ht Rs Rl Rd Hc Hx TF H. destruct (tf_ints_inv t start limit delta l TF) as (D0 & Sg & Pc & ->).
  assert (Hd : Z.abs delta <= 2 ^ 64) by (unfold in_range, lo, hi in Rd; destruct Ht as [-> | ->]; cbn [signed bits] in Rd; lia).
  unfold range_ints in H. destruct (Nat.ltb_spec opset 7); [discriminate|]. unfold exact_length in Hx. destruct (Nat.ltb_spec opset 11) as [O|O].
  - specialize (Hx O). destruct Hc as [-> | ->]; destruct Hx as [Hx Hr].
    + unfold np_arange_ints in H. destruct (Z.eqb_spec delta 0); [contradiction|]. destruct (quotient_ceil_ok F64 (limit - start) delta) as (Q & _); auto; [discriminate|]. unfold quotient_ceil in Q.
      rewrite wrap_id in H by auto. rewrite Q in H. cbn [option_map] in H. injection H as <-. reflexivity.
    + destruct (built (trip_count (INT t))) as [a|] eqn:Ea; [|discriminate]. destruct (built body_current) as [b|] eqn:Eb; [|discriminate]. destruct (built body_range) as [c|] eqn:Ec; [|discriminate].
      injection H as <-. cbn [graph_ints]. unfold run_loop. rewrite (trip_ints opset t start limit delta a) by auto. apply loop_ints; auto.
      intros i Hi. destruct (progression_in start limit delta (Z.of_nat i) D0 Sg ltac:(lia)); unfold in_range in *; lia.
  - injection H as <-. cbn [graph_ints]. unfold onnx_range_ints. destruct (Z.eqb_spec delta 0); [contradiction|]. now rewrite Z.max_l by lia.
Qed.
(** Accepted: from opset 7 on always (a constant delta of 0, which TensorFlow refuses, is refused). *)
Theorem C70_accepted :
  forall opset t consts, t = I32 \/ t = I64 -> (7 <= opset)%nat -> (forall s l d, consts = Some (s, l, d) -> d <> 0) -> exists g, range_ints opset t consts = Some g.
Proof.
  intros opset t consts Ht O Hc. unfold range_ints. destruct (Nat.ltb_spec opset 7); [lia|]. destruct (Nat.ltb opset 11); [|eauto].
  destruct consts as [[[s l] d]|].
  - unfold np_arange_ints. destruct (Z.eqb_spec d 0); [exfalso; now apply (Hc s l d)|]. cbn [option_map]. eauto.
  - destruct Ht as [-> | ->]; cbv -[Nat.ltb]; eauto.
Qed.
(** Floats before opset 11, not constant: the loop does what the TensorFlow kernel does, bit by bit. *)
Theorem C70_range_floats :
  forall opset f (start limit delta : fl f) g trip current scan l,
    range_floats_7 f = Some g -> g = LoopRange trip current scan ->
    tf_range_floats start limit delta = Some l ->
    run_loop opset trip current scan (VF f start) (VF f limit) (VF f delta) = Some l.
Proof.
  intros opset f start limit delta g trip current scan l H -> TF. unfold tf_range_floats in TF. cbv zeta in TF.
  destruct (_ || _) eqn:C in TF; [discriminate|]. injection TF as <-. rewrite !orb_false_iff, !negb_false_iff in C. destruct C as (((((C1 & C2) & C3) & C4) & C5) & C6).
  assert (E : trip = ([Node "Sub" NoAttr [In_ 1; In_ 0]; Node "Div" NoAttr [Tmp 0; In_ 2]; Node "Ceil" NoAttr [Tmp 1]; Node "Cast" (To (INT I64)) [Tmp 2]]%string, Tmp 3%nat) /\
    current = ([Node "Add" NoAttr [In_ 0; In_ 1]]%string, Tmp 0%nat) /\ scan = ([Node "Identity" NoAttr [In_ 0]]%string, Tmp 0%nat)).
  { destruct f; cbv in H; injection H as <- <- <-; auto. }
  destruct E as (-> & -> & ->). clear H.
  assert (Fq : is_finite (div (sub limit start) delta) = true) by (rewrite <- C3; destruct (div (sub limit start) delta); reflexivity).
  assert (E := ceil_abs f start limit delta Fq C1 C2 C4 C5). unfold run_loop. apply Z.ltb_ge in C6. assert (P := ceil_abs_pos f (div (sub limit start) delta)).
  rewrite (trip_floats opset f start limit delta _ Fq (eq_sym E)) by (split; [apply Z.le_trans with 0; [vm_compute; discriminate|exact P]|exact C6]). apply loop_floats.
Qed.

(** ** what is missing *)
(** The loop counts its iterations in float32: 16777217 numbers are asked for, the loop runs 16777216 times. *)
Theorem C70_long_ranges_refuted :
  exists opset trip l, range_ints opset I32 None = Some (LoopRange trip (match built body_current with Some p => p | None => ([], In_ 0) end) (match built body_range with Some p => p | None => ([], In_ 0) end)) /\
    tf_range_ints I32 0 16777217 1 = Some l /\ Z.of_nat (List.length l) = 16777217 /\
    scalar_result opset trip [VI I32 0; VI I32 16777217; VI I32 1] = Some (VI I64 16777216).
Proof.
  exists 10%nat. eexists. exists (progression I32 0 1 (ceil_div (16777217 - 0) 1)). split; [reflexivity|]. split; [unfold tf_range_ints; cbn [Z.eqb Z.ltb Z.leb Z.compare]; reflexivity|]. split.
  - unfold progression. rewrite map_length, seq_length. rewrite Z2Nat.id by (vm_compute; discriminate). reflexivity.
  - vm_compute. reflexivity.
Qed.
(** The other integer types, which TensorFlow has, are divided and rounded up as integers: Ceil has no integers. *)
Theorem C70_int16_refuted :
  exists opset trip current scan l, range_ints opset I16 None = Some (LoopRange trip current scan) /\
    tf_range_ints I16 0 5 1 = Some l /\ run_loop opset trip current scan (VI I16 0) (VI I16 5) (VI I16 1) = None.
Proof. exists 8%nat. do 4 eexists. split; [reflexivity|]. split; reflexivity. Qed.

(** ** Non-vacuity *)
Example range_loop : exists g, range_ints 9 I32 None = Some g /\ tf_range_ints I32 10 1 (-4) = Some [VI I32 10; VI I32 6; VI I32 2] /\
  graph_ints 9 I32 g 10 1 (-4) = Some [VI I32 10; VI I32 6; VI I32 2].
Proof. eexists. split; [reflexivity|]. split; reflexivity. Qed.
Example range_const : range_ints 9 I64 (Some (1, 8, 3)) = Some (ConstRange [VI I64 1; VI I64 4; VI I64 7]) /\ tf_range_ints I64 1 8 3 = Some [VI I64 1; VI I64 4; VI I64 7] /\
  exact_length 9 true I64 1 8.
Proof. split; [reflexivity|]. split; [reflexivity|]. intros _. split; [reflexivity|]. split; vm_compute; discriminate. Qed.
Example range_op : exists g, range_ints 11 I32 None = Some g /\ graph_ints 11 I32 g 0 4 3 = Some [VI I32 0; VI I32 3].
Proof. eexists. split; reflexivity. Qed.
Example range_float : let h := of_Z F32 in exists l, tf_range_floats (h 1) (h 6) (h 2) = Some l /\ List.length l = 3%nat /\ (exists g, range_floats_7 F32 = Some g).
Proof. eexists. split; [reflexivity|]. split; [reflexivity|]. eexists. reflexivity. Qed.

Print Assumptions C70_range_ints_partial. Print Assumptions C70_accepted. Print Assumptions C70_range_floats.
Print Assumptions C70_long_ranges_refuted. Print Assumptions C70_int16_refuted.
