(** C05, C06, C42, C43: static shape reasoning. *)
From Coq Require Import List ZArith Bool Lia.
From Verif Require Import ShapesModel ShapesSpec ShapesProofs.
Import ListNotations.
Local Open Scope Z_scope.

(** C05: the merged shape admits exactly the runtime shapes both operands admit. *)
Theorem C05_merge_shapes_exact :
  forall s1 s2 m, merge_shapes s1 s2 = Some m ->
    forall c, shape_claims m c <-> shape_claims s1 c /\ shape_claims s2 c.
Proof. intros s1 s2 m E. assert (H := merge_shapes_exact s1 s2). rewrite E in H. exact H. Qed.
Print Assumptions C05_merge_shapes_exact.

(** C05: merging fails (raises) exactly when no runtime shape satisfies both. *)
Theorem C05_merge_shapes_fails_iff_contradictory :
  forall s1 s2, (exists m, merge_shapes s1 s2 = Some m) <->
    exists c, Forall (fun z => 0 <= z) c /\ shape_claims s1 c /\ shape_claims s2 c.
Proof. exact merge_succeeds_iff. Qed.
Print Assumptions C05_merge_shapes_fails_iff_contradictory.

Theorem C05_compatible_iff_common_shape :
  forall s1 s2, are_shapes_compatible s1 s2 = true <->
    exists c, Forall (fun z => 0 <= z) c /\ shape_claims s1 c /\ shape_claims s2 c.
Proof. exact compatible_iff. Qed.
Print Assumptions C05_compatible_iff_common_shape.

Theorem C05_shapes_equal_iff : forall s1 s2, are_shapes_equal s1 s2 = true <-> s1 = s2.
Proof. exact shapes_equal_iff. Qed.
Print Assumptions C05_shapes_equal_iff.

Example C05_witness :
  merge_shapes (Some [Some (-1); Some 3; None]) (Some [Some 2; Some 3; Some (-1)])
    = Some (Some [Some 2; Some 3; Some (-1)]) /\
  merge_shapes (Some [Some 2]) (Some [Some 3]) = None /\
  merge_shapes None (Some [Some 3]) = Some (Some [Some 3]).
Proof. repeat split. Qed.

(** C06 refuted: for operands of different rank dimensions are aligned at the front, not at the back:
    [5] and [1,5] is claimed to give [5,5]; at run time it is [1,5]. *)
Theorem C06_broadcast_inference_refuted :
  exists l0 l1 m a b c,
    shape_claims_tf (Some l0) a /\ shape_claims_tf (Some l1) b /\ broadcasts a b c /\
    broadcast_shape_inference (Some l0) (Some l1) = Some m /\ ~ shape_claims_tf (Some m) c.
Proof.
  exists [Some 5], [Some 1; Some 5], [Some 5; Some 5], [5], [1; 5], [1; 5].
  split; [repeat constructor|]. split; [repeat constructor|].
  split. { unfold broadcasts; cbn. repeat constructor. }
  split; [reflexivity|]. cbn. intro H. inversion H; subst. specialize (H3 ltac:(lia)). discriminate.
Qed.
Print Assumptions C06_broadcast_inference_refuted.

(** C06 partial: sound when the ranks are equal or one operand is a scalar.  Missing: other rank
    differences, where it is wrong. *)
Theorem C06_broadcast_inference_partial :
  forall l0 l1 m a b c,
    length l0 = length l1 \/ l0 = [] \/ l1 = [] ->
    shape_claims_tf (Some l0) a -> shape_claims_tf (Some l1) b -> broadcasts a b c ->
    broadcast_shape_inference (Some l0) (Some l1) = Some m -> shape_claims_tf (Some m) c.
Proof. exact broadcast_sound. Qed.
Print Assumptions C06_broadcast_inference_partial.

Example C06_witness :
  broadcast_shape_inference (Some [Some 2; Some 1; Some (-1)]) (Some [Some 1; Some 7; Some 4])
    = Some [Some 2; Some 7; Some 4] /\ broadcasts [2; 1; 1] [1; 7; 4] [2; 7; 4].
Proof. split; [reflexivity|]. unfold broadcasts; cbn. repeat constructor. Qed.

(** C42 refuted: the shape claimed for a control-flow Merge does not cover both branches:
    [None] and [5] give the claim [5] although the first branch may deliver [3]. *)
Theorem C42_merge_op_covers_branches_refuted :
  exists l1 l2 m c, infer_merge_op l1 l2 = Some m /\ shape_claims_tf (Some l1) c /\
    ~ shape_claims_tf (Some m) c.
Proof.
  exists [None], [Some 5], [Some 5], [3]. split; [reflexivity|]. split; [repeat constructor|].
  intro H. inversion H; subst. specialize (H3 ltac:(lia)). discriminate.
Qed.
Print Assumptions C42_merge_op_covers_branches_refuted.

(** C42 partial: it covers both branches when no dimension is None. *)
Theorem C42_merge_op_covers_branches_partial :
  forall l1 l2 m c, Forall (fun d : dim => d <> None) l1 -> Forall (fun d : dim => d <> None) l2 ->
    infer_merge_op l1 l2 = Some m ->
    shape_claims_tf (Some l1) c \/ shape_claims_tf (Some l2) c -> shape_claims_tf (Some m) c.
Proof. exact infer_merge_sound_known. Qed.
Print Assumptions C42_merge_op_covers_branches_partial.
Example C42_witness : infer_merge_op [Some 3; Some 4] [Some 3; Some 5] = Some [None; None].
Proof. reflexivity. Qed.

(** C43: structural rules.  ExpandDims, Unpack, reductions are right for every valid axis. *)
Theorem C43_expand_dims_sound :
  forall axis s c r, - Z.of_nat (length s) - 1 <= axis <= Z.of_nat (length s) ->
    shape_claims_tf (Some s) c ->
    pack_shape (Z.to_nat (if axis <? 0 then axis + Z.of_nat (length c) + 1 else axis)) 1 c r ->
    shape_claims_tf (Some (infer_expand_dims axis s)) r.
Proof. exact expand_dims_sound. Qed.
Print Assumptions C43_expand_dims_sound.

Theorem C43_unpack_sound :
  forall axis s c r, - Z.of_nat (length s) <= axis < Z.of_nat (length s) ->
    shape_claims_tf (Some s) c ->
    unpack_shape (Z.to_nat (if axis <? 0 then axis + Z.of_nat (length c) else axis)) c r ->
    shape_claims_tf (Some (infer_unpack axis s)) r.
Proof. exact unpack_sound. Qed.
Print Assumptions C43_unpack_sound.

Theorem C43_reduce_keep_sound :
  forall axes s c r,
    (forall a, In a axes -> - Z.of_nat (length s) <= a < Z.of_nat (length s)) ->
    shape_claims_tf (Some s) c ->
    reduce_keep_shape
      (map (fun a => Z.to_nat (if a <? 0 then a + Z.of_nat (length s) else a)) axes) c r ->
    shape_claims_tf (Some (infer_reduce axes true s)) r.
Proof. exact reduce_keep_sound. Qed.
Print Assumptions C43_reduce_keep_sound.

Theorem C43_reduce_drop_sound :
  forall axes s c r,
    (forall a, In a axes -> - Z.of_nat (length s) <= a < Z.of_nat (length s)) ->
    shape_claims_tf (Some s) c ->
    reduce_drop_shape
      (map (fun a => Z.to_nat (if a <? 0 then a + Z.of_nat (length s) else a)) axes) c r ->
    shape_claims_tf (Some (infer_reduce axes false s)) r.
Proof. exact reduce_drop_sound. Qed.
Print Assumptions C43_reduce_drop_sound.

Example C43_witness :
  infer_reduce [-1; 0] false [Some 2; None; Some 4] = [None] /\
  reduce_drop_shape [2%nat; 0%nat] [2; 9; 4] [9] /\
  infer_expand_dims (-1) [Some 2; None] = [Some 2; None; Some 1] /\
  infer_unpack (-2) [Some 2; None; Some 4] = [Some 2; Some 4].
Proof. repeat split. Qed.

(** Pack is right for non-negative axes ... *)
Theorem C43_pack_sound_partial :
  forall axis n s c r, 0 <= axis <= Z.of_nat (length s) ->
    shape_claims_tf (Some s) c -> pack_shape (Z.to_nat axis) (Z.of_nat n) c r ->
    shape_claims_tf (Some (infer_pack axis n s)) r.
Proof. exact pack_sound. Qed.
Print Assumptions C43_pack_sound_partial.

(** ... and wrong for negative ones (axis -1 of stacking means the position after the last axis). *)
Theorem C43_pack_negative_axis_refuted :
  exists s c r, shape_claims_tf (Some s) c /\
    pack_shape (Z.to_nat (-1 + Z.of_nat (length c) + 1)) 3 c r /\
    ~ shape_claims_tf (Some (infer_pack (-1) 3 s)) r.
Proof.
  exists [Some 2; Some 4], [2; 4], [2; 4; 3]. split; [repeat constructor|]. split.
  - unfold pack_shape. change (Z.to_nat (-1 + Z.of_nat (length [2; 4]) + 1)) with 2%nat.
    cbn [length]. split; [lia|]. split; [reflexivity|]. split; [reflexivity|]. split.
    + intros i Hi. destruct i as [|[|i]]; [reflexivity|reflexivity|lia].
    + intros i Hi1 Hi2. lia.
  - cbn. intro H. inversion H as [|? ? ? ? _ H1]. inversion H1 as [|? ? ? ? K _].
    specialize (K ltac:(lia)). discriminate.
Qed.
Print Assumptions C43_pack_negative_axis_refuted.

(** Pow ignores broadcasting. *)
Theorem C43_pow_refuted :
  exists s0 s1 a b c m, shape_claims_tf s0 a /\ shape_claims_tf s1 b /\ broadcasts a b c /\
    infer_pow s0 s1 = m /\ ~ shape_claims_tf m c.
Proof.
  exists (Some [Some 1]), (Some [Some 5]), [1], [5], [5], (Some [Some 1]).
  split; [repeat constructor|]. split; [repeat constructor|].
  split. { unfold broadcasts; cbn. repeat constructor. }
  split; [reflexivity|]. cbn. intro H. inversion H; subst. specialize (H3 ltac:(lia)). discriminate.
Qed.
Print Assumptions C43_pow_refuted.
