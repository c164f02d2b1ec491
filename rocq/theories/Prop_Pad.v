(** C66: Pad, PadV2 and MirrorPad become ONNX expressions with the value of tf.pad. *)
From Coq Require Import List Arith ZArith Bool Lia.
From Verif Require Import Tensor FoldModel OnnxSpec TensorProofs TOps TOpsProofs PadModel PadSpec PadProofs PadProofs2.
Import ListNotations.
Local Open Scope list_scope.

(** the paddings as the n x 2 integer tensor that the node reads, and as the rows of a constant *)
Definition rows_const (rows : list (nat * nat)) : list (Z * Z) := map (fun '(b, a) => (Z.of_nat b, Z.of_nat a)) rows.
Definition rows_tensor (rows : list (nat * nat)) : tensor Z := Tensor [length rows; 2] (flat_map (fun '(b, a) => [Z.of_nat b; Z.of_nat a]) rows).
(** constant, reflect and symmetric padding of every tensor, by every number of rows TensorFlow allows; the paddings
    constant or computed; the border value of PadV2 constant or computed. *)
Theorem C66_pad :
  forall (A : Type) (zero v : A) opset mode rows (pads : option (list (Z * Z))) (rank : option nat) has_value value (x y : tensor A) e others,
    wf x ->
    (pads = Some (rows_const rows) \/ pads = None) ->
    (rank = Some (length (shape x)) \/ rank = None) ->
    (value = Some (Tensor [] [v]) \/ value = None) ->
    (has_value = true -> nth_error others 0 = Some (D (Tensor [] [v]))) ->
    tf_pad mode rows (if has_value then v else zero) x = Some y ->
    pad opset mode rank pads has_value value = Some e ->
    eval zero opset (D x :: I (rows_tensor rows) :: others) e = Some (D y).
Proof.
  intros A zero v opset mode rows pads rank hv value x y e others W Hp Hr Hv Ho TF H.
  replace (rows_tensor rows) with (Tensor [length rows; 2] (flat2 (zrows rows))).
  2:{ unfold rows_tensor. f_equal. clear. induction rows as [|[b a] rows IH]; auto. cbn [zrows map flat2 flat_map app]. unfold zrows in IH. unfold zrow at 1. cbn [fst snd]. now rewrite IH. }
  assert (Hp' : pads = Some (zrows rows) \/ pads = None).
  { destruct Hp as [-> | ->]; auto. left. f_equal. apply map_ext. intros [b a]; reflexivity. }
  assert (TF' := TF). unfold tf_pad in TF'. destruct (Nat.eqb_spec (length rows) (length (shape x))) as [L|]; [|discriminate]. cbn [andb] in TF'.
  destruct (forallb _ _) eqn:Al in TF'; [|discriminate]. destruct (build_spec _ _ _ TF') as (Sy & Wy & Gy). rewrite padded_shape_is in * by auto.
  assert (Lb : length (map fst rows) = length (shape x)) by (rewrite map_length; lia). assert (La : length (map snd rows) = length (shape x)) by (rewrite map_length; lia).
  assert (Al' : forall k, k < length (shape x) -> pad_allowed mode (nth k (shape x) 0) (nth k (map fst rows) 0, nth k (map snd rows) 0) = true).
  { clear -Al L. revert rows Al L. induction (shape x) as [|d sh IH]; intros [|[b a] rows] Al L [|k] Hk; cbn [length] in *; try lia; cbn [combine forallb] in Al; apply andb_true_iff in Al; destruct Al as [A1 A2]; auto.
    cbn [nth map]. apply IH; auto; lia. }
  destruct mode; cbn [pad] in H.
  - rewrite (ev_constant zero opset x rows others pads Hp' e hv value (if hv then v else zero)); auto; [| |].
    + destruct (pad_spec (if hv then v else zero) (map fst rows) (map snd rows) x W Lb La) as (z & Dz & Wz & Sz & Gz). rewrite Dz. cbn [option_map]. do 2 f_equal.
      apply tensor_ext; auto; [congruence|]. intros ix Hi. rewrite Gz by auto. rewrite Gy by congruence. now rewrite constant_sources.
    + destruct hv; auto.
    + intro E. rewrite E. auto.
  - assert (E0 : eval zero opset (D x :: I (Tensor [length rows; 2] (flat2 (zrows rows))) :: others) (Inp 0) = Some (D x)) by reflexivity.
    rewrite (ev_reflect zero opset x rows others pads Hp' e (Inp 0) x E0 H).
    assert (Rk : forall k, k < length (shape x) -> (nth k (map fst rows) 0 = 0 \/ nth k (map fst rows) 0 < nth k (shape x) 0) /\ (nth k (map snd rows) 0 = 0 \/ nth k (map snd rows) 0 < nth k (shape x) 0)).
    { intros k Hk. specialize (Al' k Hk). unfold pad_allowed in Al'. cbn [fst snd] in Al'. rewrite andb_true_iff, !orb_true_iff, !Nat.eqb_eq, !Nat.ltb_lt in Al'. exact Al'. }
    destruct (reflect_spec (map fst rows) (map snd rows) x W Lb La Rk) as (z & Dz & Wz & Sz & Gz). rewrite Dz. cbn [option_map]. do 2 f_equal.
    apply tensor_ext; auto; [congruence|]. intros ix Hi. rewrite Gz by auto. rewrite Gy by congruence.
    assert (Li := inb_length _ _ Hi). rewrite Sz, !addix_length in Li by (rewrite ?addix_length; lia).
    rewrite (pad_sources_at Reflect (shape x) rows ix (mirror_ix (shape x) (map fst rows) ix)); auto; [lia| |rewrite mirror_ix_len; lia].
    intros k Hk. rewrite mirror_ix_nth by lia. destruct (Rk k Hk) as [R1 R2]. apply inb_nth_iff in Hi. destruct Hi as [_ Hi]. specialize (Hi k). rewrite Sz, !addix_length in Hi by (rewrite ?addix_length; lia).
    rewrite Lb in Hi. specialize (Hi Hk). rewrite !addix_nth in Hi by (rewrite ?addix_length; lia).
    set (b := nth k (map fst rows) 0) in *. set (d := nth k (shape x) 0) in *. set (i := nth k ix 0) in *. set (a := nth k (map snd rows) 0) in *. unfold pad_source, mirror. cbv zeta.
    destruct (Nat.leb_spec b i); [destruct (Nat.ltb_spec (i - b) d)|]; cbn [andb].
    + destruct (Z.ltb_spec (Z.of_nat i - Z.of_nat b) 0); [lia|]. destruct (Z.ltb_spec (Z.of_nat i - Z.of_nat b) (Z.of_nat d)); [|lia]. f_equal. lia.
    + destruct (Z.ltb_spec (Z.of_nat i - Z.of_nat b) 0); [lia|]. destruct (Z.ltb_spec (Z.of_nat i - Z.of_nat b) (Z.of_nat d)); [lia|]. rewrite (proj2 (Nat.ltb_ge i b)) by lia. f_equal. lia.
    + destruct (Z.ltb_spec (Z.of_nat i - Z.of_nat b) 0); [|lia]. rewrite (proj2 (Nat.ltb_lt i b)) by lia. f_equal. lia.
  - destruct Hr as [-> | ->]; [|discriminate]. eapply symmetric_ok; eauto.
    intros k Hk. specialize (Al' k Hk). unfold pad_allowed in Al'. cbn [fst snd] in Al'. rewrite andb_true_iff, !Nat.leb_le in Al'. exact Al'.
Qed.
(** The nodes that are accepted: with constant paddings (and value) always, computed ones from opset 11 on; symmetric
    padding needs opset 9 and a known rank. *)
Theorem C66_accepted :
  forall (A : Type) opset mode (rank : option nat) (pads : option (list (Z * Z))) has_value (value : option (tensor A)),
    (opset < 11 -> pads <> None /\ (has_value = true -> value <> None)) ->
    (mode = Symmetric -> 9 <= opset /\ rank <> None) ->
    exists e : expr A, pad opset mode rank pads has_value value = Some e.
Proof.
  intros A opset mode rank pads hv value H1 H2. unfold pad.
  assert (Q : forall reflect hv v (x : expr A), (opset < 11 -> hv = true -> v <> None) -> exists e, pad_node opset reflect hv (option_map flat_pads pads) v x = Some e).
  { intros reflect hv' v x Hv. unfold pad_node. destruct (Nat.ltb_spec opset 11) as [O|O]; [|eauto]. destruct (H1 O) as [P _]. destruct pads; [|congruence]. cbn [option_map].
    destruct reflect; [eauto|]. destruct hv'; [|eauto]. destruct v; [eauto|]. exfalso. now apply (Hv O eq_refl). }
  destruct mode.
  - apply Q. intros O E. now apply H1.
  - apply Q. discriminate.
  - destruct (H2 eq_refl) as [O R]. destruct rank as [r|]; [|congruence]. unfold symmetric. rewrite (proj2 (Nat.ltb_ge opset 9)) by lia. cbv zeta.
    destruct (Q true false None (padded_inp opset r (non_zero_axes r (option_map flat_pads pads)))) as (e & ->); [discriminate|eauto].
Qed.
(** Refused: computed paddings before opset 11, symmetric padding of unknown rank or before opset 9. *)
Theorem C66_refuses :
  forall (A : Type) opset mode (rank : option nat) (pads : option (list (Z * Z))) has_value (value : option (tensor A)),
    (opset < 11 /\ pads = None) \/ (mode = Symmetric /\ (opset < 9 \/ rank = None)) ->
    pad opset mode rank pads has_value value = None.
Proof.
  intros A opset mode rank pads hv value [[O ->]|[-> H]].
  - apply Nat.ltb_lt in O. unfold pad. cbn [option_map]. destruct mode; unfold symmetric, pad_node; rewrite ?O; auto. destruct rank; auto. cbv zeta. now destruct (Nat.ltb opset 9).
  - unfold pad, symmetric. destruct H as [O| ->]; auto. apply Nat.ltb_lt in O. rewrite O. now destruct rank.
Qed.
(** The border value has the element type of the data that reach the Pad node, before opset 11 always, and for the
    element types that Pad has from then on. *)
Theorem C66_value_type_partial :
  forall opset t, opset < 11 \/ t = Float \/ t = Double \/ t = Int32 \/ t = Int64 -> pad_value_type opset t = pad_data_type opset t.
Proof.
  intros opset t H. unfold pad_value_type. destruct (Nat.ltb_spec opset 11) as [O|O]; auto. destruct H as [H|H]; [lia|].
  unfold pad_data_type. rewrite (proj2 (Nat.ltb_ge opset 11)) by lia. destruct H as [-> |[-> |[-> | ->]]]; auto.
Qed.
(** PadV2 on half floats from opset 11 on: the data are cast to float, the border value is not. *)
Theorem C66_value_type_refuted : pad_data_type 11 Float16 = Float /\ pad_value_type 11 Float16 = Float16.
Proof. split; reflexivity. Qed.

(** ** Non-vacuity *)
Definition x22 : tensor nat := Tensor [2; 2] [1; 2; 3; 4].
Definition rows21 : list (nat * nat) := [(0, 0); (2, 1)].
Example constant_case : exists y e, tf_pad Constant rows21 9 x22 = Some y /\ data y = [9; 9; 1; 2; 9; 9; 9; 3; 4; 9] /\
  pad 13 Constant None None true None = Some e /\ eval 0 13 [D x22; I (rows_tensor rows21); D (Tensor [] [9])] e = Some (D y).
Proof. do 2 eexists. split; [reflexivity|]. split; [reflexivity|]. split; [reflexivity|]. vm_compute. reflexivity. Qed.
Example reflect_case : exists y e, tf_pad Reflect [(0, 0); (1, 1)] 0 x22 = Some y /\ data y = [2; 1; 2; 1; 4; 3; 4; 3] /\
  pad 9 Reflect None (Some (rows_const [(0, 0); (1, 1)])) false None = Some e /\ eval 0 9 [D x22; I (rows_tensor [(0, 0); (1, 1)])] e = Some (D y).
Proof. do 2 eexists. split; [reflexivity|]. split; [reflexivity|]. split; [reflexivity|]. vm_compute. reflexivity. Qed.
Example symmetric_case : exists y e e', tf_pad Symmetric rows21 0 x22 = Some y /\ data y = [2; 1; 1; 2; 2; 4; 3; 3; 4; 4] /\
  pad 11 Symmetric (Some 2) None false None = Some e /\ eval 0 11 [D x22; I (rows_tensor rows21)] e = Some (D y) /\
  pad 10 Symmetric (Some 2) (Some (rows_const rows21)) false None = Some e' /\ eval 0 10 [D x22; I (rows_tensor rows21)] e' = Some (D y).
Proof. do 3 eexists. split; [reflexivity|]. split; [reflexivity|]. split; [reflexivity|]. split; [vm_compute; reflexivity|]. split; [reflexivity|]. vm_compute. reflexivity. Qed.

Print Assumptions C66_pad.
Print Assumptions C66_accepted.
Print Assumptions C66_refuses.
Print Assumptions C66_value_type_partial.
Print Assumptions C66_value_type_refuted.
