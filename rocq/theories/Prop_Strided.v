(** C36: StridedSlice conversion selects the same elements as TensorFlow *)
From Coq Require Import List Arith ZArith Bool Lia.
From Verif Require Import Tensor OnnxSpec FoldModel TensorProofs PushSpec StridedSpec StridedModel StridedProofs StridedProofs2 StridedProofs3 StridedProofs4.
Import ListNotations.
Local Open Scope list_scope.

(** Constant begin, end and strides, all strides 1, no new axis, any opset: whenever TensorFlow computes y from x, the
    converted nodes compute y and nothing else -- for every rank, every begin and end and every combination of the masks,
    except an end of 0 after a negative begin, and axes longer than the largest index. *)
Theorem C36_stride_one_partial {A} m max_int begins ends strides r (x y : tensor A) :
  version_1 m max_int (length (shape x)) begins ends strides = Some r ->
  (forall i, i < length begins -> fine_1 m i (nth i begins 0%Z) (nth i ends 0%Z)) ->
  (forall d, In d (shape x) -> (Z.of_nat d <= max_int)%Z) ->
  strided_slice m begins ends strides x y ->
  forall y', onnx_slices (s_unsqueeze r) (s_slice r) (s_squeeze r) x y' <-> y' = y.
Proof. apply version_1_ok. Qed.
Print Assumptions C36_stride_one_partial.

(** version_1 gives up exactly for new axes and strides other than 1 *)
Theorem C36_stride_one_supported m max_int rank begins ends strides :
  version_1 m max_int rank begins ends strides = None <-> new_axis_mask m <> 0%Z \/ exists s, In s strides /\ s <> 1%Z.
Proof.
  unfold version_1. destruct (Z.eqb_spec (new_axis_mask m) 0) as [E|E]; cbn [negb]; [|split; auto].
  destruct (forallb (fun s => (s =? 1)%Z) strides) eqn:F.
  - split; [discriminate|]. intros [H|(s & I & N)]; [tauto|]. rewrite forallb_forall in F. apply F in I. apply Z.eqb_eq in I. tauto.
  - split; auto. intros _. right. assert (X : existsb (fun s => negb (s =? 1)%Z) strides = true).
    { clear -F. induction strides as [|s l IH]; [discriminate|]. cbn in *. destruct (s =? 1)%Z; cbn in *; auto. }
    apply existsb_exists in X. destruct X as (s & I & N). exists s. split; auto. apply negb_true_iff, Z.eqb_neq in N. exact N.
Qed.
Print Assumptions C36_stride_one_supported.

(** From opset 10: any strides, new axes, and begin, end, strides that are constants or only known at run time, for the
    entries described by fine_10, if an ellipsis covers at least one axis and a range going down does not start before
    the first element. *)
Theorem C36_any_stride_partial {A} m const_begin const_end const_strides max_int begins ends strides r (x y : tensor A) :
  any_version_after10 m const_begin const_end const_strides max_int (length (shape x)) begins ends strides = Some r ->
  (forall i, i < length begins -> fine_1 m i (nth i begins 0%Z) (nth i ends 0%Z)) ->
  (forall i, i < length begins -> fine_10 m const_end const_strides i (nth i begins 0%Z) (nth i ends 0%Z) (nth i strides 0%Z)) ->
  (forall d, In d (shape x) -> (Z.of_nat d < 1000000000 /\ Z.of_nat d <= max_int)%Z) ->
  length begins <= 32 -> (forall i, bit (new_axis_mask m) i = true -> i < length begins) ->
  (existsb is_rest (items m begins ends strides) = true -> length (filter takes_axis (items m begins ends strides)) < length (shape x)) ->
  ranges starts_inside (with_rest (items m begins ends strides)) (shape x) ->
  strided_slice m begins ends strides x y ->
  forall y', onnx_slices (s_unsqueeze r) (s_slice r) (s_squeeze r) x y' <-> y' = y.
Proof.
  unfold any_version_after10. intros H F1 F10 Hd L32 Hn Cov Rg V. destruct (_ && _) eqn:C in H.
  - eapply version_1_ok; eauto. intros d I. now apply Hd.
  - injection H as <-. apply slice_10_ok; auto. intros d I. now apply Hd.
Qed.
Print Assumptions C36_any_stride_partial.

(** what b:e:s selects in the specification: the positions b, b+s, ... that are on this side of e *)
Theorem C36_span_spec d b e s i : s <> 0%Z ->
  let n := Z.of_nat d in
  let inside := fun lo hi v => Z.max lo (Z.min hi (if (v <? 0)%Z then v + n else v))%Z in
  let first := match b with Some v => if (0 <? s)%Z then inside 0%Z n v else inside (-1)%Z (n - 1)%Z v | None => if (0 <? s)%Z then 0%Z else (n - 1)%Z end in
  let stop := match e with Some v => if (0 <? s)%Z then inside 0%Z n v else inside (-1)%Z (n - 1)%Z v | None => if (0 <? s)%Z then n else (-1)%Z end in
  fst (span_of d b e s) = first /\
  (i < snd (span_of d b e s) <-> if (0 <? s)%Z then (first + Z.of_nat i * s < stop)%Z else (stop < first + Z.of_nat i * s)%Z).
Proof.
  intros H n inside first stop.
  assert (D : forall a q, (0 < q)%Z -> i < Z.to_nat ((a + q - 1) / q) <-> (Z.of_nat i * q < a)%Z).
  { intros a q Q. split; intro L.
    - apply div_bound; auto. lia.
    - assert (Z.of_nat i < (a + q - 1) / q)%Z; [|lia]. assert (Z.of_nat i + 1 <= (a + q - 1) / q)%Z; [|lia]. apply Z.div_le_lower_bound; nia. }
  unfold span_of. cbn zeta. cbn [fst snd]. unfold first, stop, inside, n. destruct (Z.ltb_spec 0 s) as [U|U].
  - split; [destruct b; auto|]. rewrite D by auto. destruct b, e; lia.
  - split; [destruct b; auto|]. rewrite D by lia. destruct b, e; nia.
Qed.
Print Assumptions C36_span_spec.

(** ** hypotheses are met *)
Lemma strided_exists {A} m bs es ss f os (x : tensor A) : length es = length bs -> length ss = length bs ->
  length (filter is_rest (items m bs es ss)) <= 1 -> view (with_rest (items m bs es ss)) (shape x) os f -> wf x ->
  exists y, strided_slice m bs es ss x y /\ shape y = os.
Proof.
  intros L1 L2 R V W. destruct (view_plan _ _ _ _ V) as (p & F & OK & Ed & Eo & Ef).
  destruct (build_total os (fun ix => get x (f ix))) as [y B].
  { intros ix I. rewrite Ef, Ed in *. rewrite Eo in I. apply (widen_inb p ix OK) in I. apply (walk_inb p _ OK) in I. apply (sieve_inb c_fresh p) in I.
    rewrite <- Ed in I. destruct (get_wf x _ W I) as [v ->]. discriminate. }
  apply build_spec in B. destruct B as (Sh & Wy & G). exists y. split; auto. split; auto. split; auto. split; auto. exists f. rewrite Sh. auto.
Qed.

(** x[2, ..., newaxis, 4:0:-2] on shape [3; 4; 5]: shape [4; 1; 2] *)
Definition ex_m := Masks 0 0 2 4 1.
Example C36_any_stride_met (x : tensor nat) : wf x -> shape x = [3; 4; 5] ->
  exists y, strided_slice ex_m [2; 0; 0; 4]%Z [3; 0; 0; 0]%Z [1; 1; 1; -2]%Z x y /\ shape y = [4; 1; 2] /\
    (forall i, i < 4 -> fine_1 ex_m i (nth i [2; 0; 0; 4]%Z 0%Z) (nth i [3; 0; 0; 0]%Z 0%Z)) /\
    (forall i, i < 4 -> fine_10 ex_m true false i (nth i [2; 0; 0; 4]%Z 0%Z) (nth i [3; 0; 0; 0]%Z 0%Z) (nth i [1; 1; 1; -2]%Z 0%Z)) /\
    (forall i, bit (new_axis_mask ex_m) i = true -> i < 4) /\
    (existsb is_rest (items ex_m [2; 0; 0; 4]%Z [3; 0; 0; 0]%Z [1; 1; 1; -2]%Z) = true -> length (filter takes_axis (items ex_m [2; 0; 0; 4]%Z [3; 0; 0; 0]%Z [1; 1; 1; -2]%Z)) < length (shape x)) /\
    ranges starts_inside (with_rest (items ex_m [2; 0; 0; 4]%Z [3; 0; 0; 0]%Z [1; 1; 1; -2]%Z)) (shape x) /\
    any_version_after10 ex_m true true false 2147483647 3 [2; 0; 0; 4]%Z [3; 0; 0; 0]%Z [1; 1; 1; -2]%Z =
      Some (Slices [2]%Z [(0, (2, 1000000000, 1000000000)); (1, (0, 1000000000, 1)); (2, (0, 1000000000, 1)); (3, (4, 0, -2))]%Z [0]%Z).
Proof.
  intros W Sx. destruct (strided_exists ex_m [2; 0; 0; 4]%Z [3; 0; 0; 0]%Z [1; 1; 1; -2]%Z (fun ix => 2 :: hd 0 ix :: Z.to_nat (4 + Z.of_nat (hd 0 (tl (tl ix))) * -2) :: []) [4; 1; 2] x) as (y & S & E); auto.
  { rewrite Sx. change (with_rest _) with [At 2 1; Rest; New; Span (Some 4) (Some 0) (-2)]%Z.
    apply (view_at 2%Z 1%Z _ 3 _ _ (fun ix => hd 0 ix :: Z.to_nat (4 + Z.of_nat (hd 0 (tl (tl ix))) * -2) :: []) 2); [reflexivity|lia|].
    apply (view_rest _ 4 [5] [1; 2] (fun ix => Z.to_nat (4 + Z.of_nat (hd 0 (tl ix)) * -2) :: [])). apply view_rest_end.
    apply (view_new _ [5] [2] (fun ix => Z.to_nat (4 + Z.of_nat (hd 0 ix) * -2) :: [])). apply (view_span (Some 4)%Z (Some 0)%Z (-2)%Z [] 5 [] [] (fun _ => [])); [lia|]. constructor. }
  exists y. rewrite Sx. split; auto. split; auto. split; [|split; [|split; [|split; [|split]]]].
  - intros i Hi. do 4 (destruct i as [|i]; [unfold fine_1; cbn; intros; lia|]). lia.
  - intros i Hi. do 4 (destruct i as [|i]; [constructor; cbn; intros; try discriminate; try lia; auto|]). lia.
  - intros i Hi. unfold bit in Hi. cbn in Hi. do 3 (destruct i as [|i]; [lia|]). exfalso. revert Hi. rewrite Z.bits_above_log2; [discriminate|lia|cbn; lia].
  - cbn. lia.
  - change (with_rest _) with [At 2 1; Rest; New; Span (Some 4) (Some 0) (-2)]%Z. constructor. apply ranges_rest. apply ranges_rest_end. constructor. constructor; [cbn; lia|constructor].
  - reflexivity.
Qed.

(** x[-3:-1, ..., 1] on shape [4; 2; 3] *)
Definition ex_1 := Masks 0 0 2 0 4.
Example C36_stride_one_met (x : tensor nat) : wf x -> shape x = [4; 2; 3] ->
  exists y, strided_slice ex_1 [-3; 0; 1]%Z [-1; 0; 2]%Z [1; 1; 1]%Z x y /\ shape y = [2; 2] /\
    version_1 ex_1 2147483647 3 [-3; 0; 1]%Z [-1; 0; 2]%Z [1; 1; 1]%Z = Some (Slices [] [(0, (-3, -1, 1)); (2, (1, 2, 1))]%Z [2]%Z) /\
    forall i, i < 3 -> fine_1 ex_1 i (nth i [-3; 0; 1]%Z 0%Z) (nth i [-1; 0; 2]%Z 0%Z).
Proof.
  intros W Sx. destruct (strided_exists ex_1 [-3; 0; 1]%Z [-1; 0; 2]%Z [1; 1; 1]%Z (fun ix => Z.to_nat (1 + Z.of_nat (hd 0 ix) * 1) :: hd 0 (tl ix) :: 1 :: []) [2; 2] x) as (y & S & E); auto.
  { rewrite Sx. change (with_rest _) with [Span (Some (-3)) (Some (-1)) 1; Rest; At 1 1]%Z.
    apply (view_span (Some (-3))%Z (Some (-1))%Z 1%Z _ 4 _ _ (fun ix => hd 0 ix :: 1 :: [])); [lia|].
    apply (view_rest _ 2 [3] [] (fun ix => 1 :: [])). apply view_rest_end. apply (view_at 1%Z 1%Z [] 3 [] [] (fun _ => []) 1); [reflexivity|lia|]. constructor. }
  exists y. split; auto. split; auto. split; [reflexivity|]. intros i Hi. do 3 (destruct i as [|i]; [unfold fine_1; cbn; intros; lia|]). lia.
Qed.

(** ** inputs for which the conversion is wrong.  [wrong m bs es ss sh r]: for every tensor x of shape sh TensorFlow
    computes a y, and the nodes r do not compute it *)
Definition wrong (m : masks) (bs es ss : list Z) (sh : list nat) (r : slices) : Prop :=
  forall x : tensor nat, wf x -> shape x = sh ->
    exists y, strided_slice m bs es ss x y /\ ~ onnx_slices (s_unsqueeze r) (s_slice r) (s_squeeze r) x y.
Lemma slice1_shape (x s : tensor nat) b e st : slice_rel [(0, (b, e, st))]%Z x s -> length (shape x) = 1 -> shape s = [snd (slice_axis (nth 0 (shape x) 0) b e st)].
Proof.
  intros (_ & _ & L & _ & ax & Na & _ & Sh & _) Lx. rewrite Lx in Na, L. cbn in Na. injection Na as <-.
  specialize (Sh 0 0 b e st eq_refl eq_refl). destruct (shape s) as [|d [|]]; cbn in L; try lia. cbn in Sh. now subst d.
Qed.
Lemma wrong1 m b e s d o r sp bb ee st : items m [b] [e] [s] = [sp] -> (sp = Span o (Some e) s \/ sp = Span o None s) -> s <> 0%Z ->
  r = Slices [] [(0, (bb, ee, st))]%Z [] -> snd (span_of d o (match sp with Span _ e' _ => e' | _ => None end) s) <> snd (slice_axis d bb ee st) -> wrong m [b] [e] [s] [d] r.
Proof.
  intros Hi Hsp Hs -> Ne x W Sx. set (ee' := match sp with Span _ e' _ => e' | _ => None end) in *.
  assert (Esp : sp = Span o ee' s) by (destruct Hsp as [-> | ->]; reflexivity).
  destruct (strided_exists m [b] [e] [s] (fun ix => Z.to_nat (fst (span_of d o ee' s) + Z.of_nat (hd 0 ix) * s) :: []) [snd (span_of d o ee' s)] x) as (y & S & E); auto.
  { rewrite Hi, Esp. cbn. lia. }
  { rewrite Sx, Hi, Esp. cbn [with_rest existsb is_rest orb app]. unfold with_rest. cbn [existsb is_rest orb app].
    apply (view_span o ee' s [Rest] d [] [] (fun _ => [])); auto. apply view_rest_end. constructor. }
  exists y. split; auto. cbn [s_unsqueeze s_slice s_squeeze]. intros (u & z & -> & Sl & ->). apply slice1_shape in Sl; [|now rewrite Sx]. rewrite Sx in Sl. cbn [nth] in Sl.
  apply Ne. congruence.
Qed.

(** x[-2:0] is empty, but the last two elements are selected *)
Theorem C36_end_zero_refuted : exists m bs es ss sh r, version_1 m 2147483647 (length sh) bs es ss = Some r /\ wrong m bs es ss sh r.
Proof.
  exists (Masks 0 0 0 0 0), [-2]%Z, [0]%Z, [1]%Z, [5]. eexists. split; [reflexivity|].
  eapply wrong1; [reflexivity|left; reflexivity|lia|reflexivity|cbn; lia].
Qed.
Print Assumptions C36_end_zero_refuted.
(** begin masked, but not 0: x[:5:2] written with begin [1] and begin_mask 1 starts at 1 *)
Theorem C36_masked_begin_refuted : exists m bs es ss sh r, any_version_after10 m true true true 2147483647 (length sh) bs es ss = Some r /\ wrong m bs es ss sh r.
Proof.
  exists (Masks 1 0 0 0 0), [1]%Z, [5]%Z, [2]%Z, [5]. eexists. split; [reflexivity|].
  eapply wrong1; [reflexivity|left; reflexivity|lia|reflexivity|cbn; lia].
Qed.
Print Assumptions C36_masked_begin_refuted.
(** x[-10::-1] is empty on 5 elements, but ONNX moves the start to element 0 and selects it *)
Theorem C36_start_before_first_refuted : exists m bs es ss sh r, any_version_after10 m true true true 2147483647 (length sh) bs es ss = Some r /\ wrong m bs es ss sh r.
Proof.
  exists (Masks 0 1 0 0 0), [-10]%Z, [0]%Z, [-1]%Z, [5]. eexists. split; [reflexivity|].
  eapply wrong1; [reflexivity|right; reflexivity|lia|reflexivity|cbn; lia].
Qed.
Print Assumptions C36_start_before_first_refuted.
(** end masked, its value 2^31-1, going down: nothing is selected *)
Theorem C36_masked_huge_end_refuted : exists m bs es ss sh r, any_version_after10 m true true true 2147483647 (length sh) bs es ss = Some r /\ wrong m bs es ss sh r.
Proof.
  exists (Masks 0 1 0 0 0), [-1]%Z, [2147483647]%Z, [-1]%Z, [3]. eexists. split; [reflexivity|].
  eapply wrong1; [reflexivity|right; reflexivity|lia|reflexivity|cbn; lia].
Qed.
Print Assumptions C36_masked_huge_end_refuted.

(** an ellipsis that covers no axis: x[..., 0:2:2] on a vector gives a Slice with the same axis twice *)
Theorem C36_empty_ellipsis_refuted : exists m bs es ss sh r, any_version_after10 m true true true 2147483647 (length sh) bs es ss = Some r /\ wrong m bs es ss sh r.
Proof.
  exists (Masks 0 0 1 0 0), [0; 0]%Z, [0; 2]%Z, [1; 2]%Z, [2]. eexists. split; [reflexivity|]. intros x W Sx.
  destruct (strided_exists (Masks 0 0 1 0 0) [0; 0]%Z [0; 2]%Z [1; 2]%Z (fun ix => Z.to_nat (0 + Z.of_nat (hd 0 ix) * 2) :: []) [1] x) as (y & S & E); auto.
  { rewrite Sx. apply view_rest_end. apply (view_span (Some 0)%Z (Some 2)%Z 2%Z [] 2 [] [] (fun _ => [])); [lia|]. constructor. }
  exists y. split; auto. intros (u & z & -> & Sl & _). cbn in Sl. destruct Sl as (_ & _ & _ & _ & ax & Na & Nd & _). rewrite Sx in Na. cbn in Na. injection Na as <-.
  inversion Nd as [|a l N _]. apply N. cbn. auto.
Qed.
Print Assumptions C36_empty_ellipsis_refuted.
(** ... and x[0:2, ..., newaxis] an Unsqueeze at an axis that does not exist *)
Theorem C36_empty_ellipsis_new_refuted : exists m bs es ss sh r, any_version_after10 m true true true 2147483647 (length sh) bs es ss = Some r /\ wrong m bs es ss sh r.
Proof.
  exists (Masks 0 0 2 4 0), [0; 0; 0]%Z, [2; 0; 0]%Z, [1; 1; 1]%Z, [2]. eexists. split; [reflexivity|]. intros x W Sx.
  destruct (strided_exists (Masks 0 0 2 4 0) [0; 0; 0]%Z [2; 0; 0]%Z [1; 1; 1]%Z (fun ix => Z.to_nat (0 + Z.of_nat (hd 0 ix) * 1) :: []) [2; 1] x) as (y & S & E); auto.
  { rewrite Sx. apply (view_span (Some 0)%Z (Some 2)%Z 1%Z [Rest; New] 2 [] [1] (fun _ => [])); [lia|]. apply view_rest_end.
    apply (view_new [] [] [] (fun _ => [])). constructor. }
  exists y. split; auto. intros (u & z & Un & _). cbn in Un. destruct Un as (_ & _ & L & ax & Na & _). rewrite Sx in L. cbn in L. rewrite L in Na. discriminate.
Qed.
Print Assumptions C36_empty_ellipsis_new_refuted.
(** newaxis and shrink on the same entry: the new axis disappears *)
Theorem C36_new_and_shrink_refuted : exists m bs es ss sh r, any_version_after10 m true true true 2147483647 (length sh) bs es ss = Some r /\ wrong m bs es ss sh r.
Proof.
  exists (Masks 0 0 0 1 1), [0]%Z, [1]%Z, [1]%Z, [2]. eexists. split; [reflexivity|]. intros x W Sx.
  destruct (strided_exists (Masks 0 0 0 1 1) [0]%Z [1]%Z [1]%Z (fun ix => hd 0 (tl ix) :: []) [1; 2] x) as (y & S & E); auto.
  { rewrite Sx. apply (view_new [Rest] [2] [2] (fun ix => hd 0 ix :: [])). apply (view_rest [] 2 [] [] (fun _ => [])). apply view_rest_end. constructor. }
  exists y. split; auto. intros (u & z & Un & Sl & Sq). cbn in Un, Sl, Sq. destruct Un as (_ & _ & Lu & _). destruct Sl as (_ & _ & Lz & _).
  destruct Sq as (_ & _ & ax & Na & _ & _ & Sh & _). rewrite Lz, Lu, Sx in Na. cbn in Na. injection Na as <-. rewrite E in Sh. rewrite Lu, Sx in Lz. cbn in Lz.
  destruct (shape z) as [|z0 [|z1 [|]]]; cbn in Lz; try lia. cbn in Sh. discriminate.
Qed.
Print Assumptions C36_new_and_shrink_refuted.

(** values that are only known at run time go through float32: x[:16777217, :] on a matrix with more rows returns one
    row less when end is not a constant *)
Lemma float32_wrong d r : Z.of_nat d = 16777219%Z -> any_version_after10 (Masks 3 2 0 0 0) true false true 2147483647 2 [0; 0]%Z [16777217; 0]%Z [1; 1]%Z = Some r ->
  wrong (Masks 3 2 0 0 0) [0; 0]%Z [16777217; 0]%Z [1; 1]%Z [d; 1] r.
Proof.
  intros Ed Hr x W Sx. assert (Er : r = Slices [] [(0, (0, 16777216, 1)); (1, (0, 1000000000, 1))]%Z []) by (vm_compute in Hr; congruence). subst r. clear Hr.
  assert (Eo : exists o, Z.of_nat o = 16777217%Z) by (exists (Z.to_nat 16777217); apply Z2Nat.id; lia). destruct Eo as [o Eo].
  assert (E2 : span_of d None (Some 16777217%Z) 1 = (0%Z, o)).
  { unfold span_of. cbn zeta. change (0 <? 1)%Z with true. change (16777217 <? 0)%Z with false. cbn iota. rewrite Ed.
    match goal with |- (_, Z.to_nat ?q) = _ => replace q with (Z.of_nat o) by (rewrite Eo; reflexivity) end. now rewrite Nat2Z.id. }
  assert (V := view_span None (Some 16777217)%Z 1%Z [Span None None 1%Z; Rest] d [1] [1] (fun ix => Z.to_nat (0 + Z.of_nat (hd 0 ix) * 1) :: [])).
  rewrite E2 in V. cbn [fst snd] in V.
  destruct (strided_exists (Masks 3 2 0 0 0) [0; 0]%Z [16777217; 0]%Z [1; 1]%Z (fun ix => Z.to_nat (0 + Z.of_nat (hd 0 ix) * 1) :: Z.to_nat (0 + Z.of_nat (hd 0 (tl ix)) * 1) :: []) [o; 1] x eq_refl eq_refl ltac:(cbn; lia)) as (y & S & E); [|exact W|].
  { rewrite Sx. refine (V _ _); [lia|]. apply (view_span None None 1%Z [Rest] 1 [] [] (fun _ => [])); [lia|]. apply view_rest_end. constructor. }
  exists y. split; auto. cbn [s_unsqueeze s_slice s_squeeze]. intros (u & z & -> & Sl & ->). destruct Sl as (_ & _ & L & _ & ax & Na & _ & Sh & _). rewrite Sx in Na. cbn in Na. injection Na as <-.
  specialize (Sh 0 0 _ _ _ eq_refl eq_refl). rewrite E, Sx in Sh. cbn [nth] in Sh.
  assert (Eo' : exists o', Z.of_nat o' = 16777216%Z) by (exists (Z.to_nat 16777216); apply Z2Nat.id; lia). destruct Eo' as [o' Eo'].
  assert (E3 : slice_axis d 0 16777216 1 = (0%Z, o')).
  { unfold slice_axis. cbn zeta. destruct (Nat.eqb_spec d 0) as [D|_]; [lia|]. change (0 <? 1)%Z with true. change (0 <? 0)%Z with false. change (16777216 <? 0)%Z with false. cbn iota. rewrite Ed.
    match goal with |- (_, Z.to_nat ?q) = _ => replace q with (Z.of_nat o') by (rewrite Eo'; reflexivity) end. now rewrite Nat2Z.id. }
  rewrite E3 in Sh. cbn [snd] in Sh. subst o'. rewrite Eo in Eo'. discriminate.
Qed.
Theorem C36_float32_refuted : exists m bs es ss sh r, any_version_after10 m true false true 2147483647 (length sh) bs es ss = Some r /\ wrong m bs es ss sh r.
Proof.
  assert (D : exists d, Z.of_nat d = 16777219%Z) by (exists (Z.to_nat 16777219); apply Z2Nat.id; lia). destruct D as [d D].
  eexists _, _, _, _, [d; 1], _. split; [|apply (float32_wrong d _ D eq_refl)]. reflexivity.
Qed.
Print Assumptions C36_float32_refuted.
