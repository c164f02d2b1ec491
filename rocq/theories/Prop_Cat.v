(** C92: ConcatV2, tf2onnx/onnx_opset/tensor.py:275-318 (model: CatModel, specification: CatSpec). *)
From Coq Require Import List Arith ZArith Bool Lia.
From Verif Require Import Tensor TensorProofs FoldModel OnnxSpec TOps TOpsProofs TOpsProofs2 CatSpec CatModel CatProofs.
Import ListNotations.
Local Open Scope list_scope.

(** the ranks known at conversion time are right *)
Definition ranks_right {A} (l : list (input A)) : Prop := forall i n, In i l -> known_rank i = Some n -> n = length (shape (value i)).
(** For every number of tensors of every shape, some of them constants without elements, and every axis: if the constants without elements are empty along
    the axis, and the handler finds an input and, for a negative axis, a rank, the graph outputs TensorFlow's concatenation of all of them *)
Theorem C92_concat_partial A (l : list (input A)) pre post ds axis :
  inputs_ok pre post ds (map value l) -> norm_axis (length pre + S (length post)) axis = Some (length pre) -> ranks_right l ->
  (forall k i, nth_error l k = Some i -> is_const i = true -> size (shape (value i)) = 0 -> nth k ds 0 = 0) ->
  (exists i, In i l /\ (is_const i = false \/ size (shape (value i)) <> 0) /\ ((axis < 0)%Z -> known_rank i <> None)) ->
  exists z, concat_v2 l (Some axis) = Some z /\ tf_concat axis pre post ds (map value l) z.
Proof.
  intros (_ & F) Ax Rk Em (i0 & I0 & K0 & R0). unfold concat_v2.
  assert (F2 : Forall2 (fits pre post) l ds).
  { clear -F. revert ds F. induction l as [|i l IH]; intros ds F; inversion F; subst; constructor; auto. }
  assert (D2 : Forall2 (fun i d => dropped i = true -> d = 0) l ds).
  { clear -F2 Em. induction F2 as [|i d l ds _ _ IH]; constructor.
    - unfold dropped. intro H. apply andb_true_iff in H. destruct H as [H1 H2]. apply Nat.eqb_eq in H2. exact (Em 0 i eq_refl H1 H2).
    - apply IH. intros k j E. exact (Em (S k) j E). }
  destruct (kept_dims pre post l ds F2 D2) as (ks & K & T & P). change (filter (fun i => negb (is_const i && Nat.eqb (size (shape (value i))) 0)) l) with (filter (fun i => negb (dropped i)) l).
  set (kept := filter (fun i => negb (dropped i)) l) in *.
  assert (In0 : In i0 kept).
  { apply filter_In. split; [exact I0|]. unfold dropped. destruct K0 as [-> | K0]; [reflexivity|]. rewrite (proj2 (Nat.eqb_neq _ _) K0). now rewrite andb_false_r. }
  assert (Lens : forall i, In i l -> length (shape (value i)) = length pre + S (length post)).
  { intros i I. clear -F2 I. induction F2 as [|j d l ds H _ IH]; [destruct I|]. destruct I as [<-|I]; [|now apply IH]. destruct H as (_ & ->). rewrite app_length. reflexivity. }
  assert (E : (if (axis <? 0)%Z then match first_rank kept with Some r => Some (Z.of_nat r + axis)%Z | None => None end else Some axis) = Some (Z.of_nat (length pre))).
  { unfold norm_axis in Ax. destruct (Z.ltb_spec axis 0) as [N|N].
    - rewrite (proj2 (Z.leb_gt 0 axis)) in Ax by lia. destruct (Z.leb_spec (- Z.of_nat (length pre + S (length post))) axis); [|discriminate]. injection Ax as Ax.
      assert (Fr : first_rank kept = Some (length pre + S (length post))).
      { destruct (first_rank_ok kept (length pre + S (length post))) as [Q|Q]; [|exfalso|exact Q].
        - intros i n I Hn. apply filter_In in I. destruct I as [I _]. rewrite (Rk i n I Hn). now apply Lens.
        - specialize (R0 N). clear -Q R0 In0. induction kept as [|j m IH]; [destruct In0|]. cbn [first_rank] in Q. destruct (known_rank j) eqn:Ej; [discriminate|]. destruct In0 as [<-|I]; [contradiction|auto]. }
      rewrite Fr. f_equal. lia.
    - rewrite (proj2 (Z.leb_le 0 axis)) in Ax by lia. destruct (axis <? Z.of_nat (length pre + S (length post)))%Z; [|discriminate]. injection Ax as Ax. f_equal. lia. }
  rewrite E. destruct (concat_spec pre post (map value kept) ks) as (z & -> & Wz & Sz & Gz); [destruct kept; [destruct In0|discriminate]|exact K|].
  exists z. split; [reflexivity|]. split; [exact Ax|]. split; [exact Wz|]. split; [now rewrite Sz, T|].
  intros k t Ek p c q Hp Hc Hq. rewrite Gz; [|exact Hp|rewrite T; now apply sum_at|exact Hq]. rewrite P, (part_at (map value l) ds k t c Ek Hc).
  destruct (nth_fits pre post (map value l) ds k t F Ek) as [Wt St]. destruct (get t (p ++ c :: q)) as [v|] eqn:G; [eauto|]. exfalso. revert G. apply get_some; [exact Wt|]. rewrite St. now apply inb_mid.
Qed.
Print Assumptions C92_concat_partial.

Definition i1 : input nat := Input false (Some 2) (Tensor [2; 1] [1; 2]).
Definition i2 : input nat := Input true (Some 2) (Tensor [2; 0] []).
Definition i3 : input nat := Input false None (Tensor [2; 2] [3; 4; 5; 6]).
Example three_inputs : concat_v2 [i1; i2; i3] (Some (-1)%Z) = Some (Tensor [2; 3] [1; 3; 4; 2; 5; 6]).
Proof. reflexivity. Qed.
Example three_inputs_case : exists z, concat_v2 [i1; i2; i3] (Some (-1)%Z) = Some z /\ tf_concat (-1) [2] [] [1; 0; 2] (map value [i1; i2; i3]) z.
Proof.
  apply C92_concat_partial; [split; [discriminate|repeat constructor]|reflexivity| | |exists i1; split; [now left|split; [now left|discriminate]]].
  - intros i n [<-|[<-|[<-|[]]]]; cbn; intros [= <-]; reflexivity.
  - intros [|[|[|[|k]]]] i; cbn; intros [= <-]; cbn; try discriminate; auto.
Qed.

(** A constant without elements that is empty along another axis is dropped all the same, and the output is too short: here [0, 2] for [0, 5] *)
Theorem C92_empty_constant_refuted : exists (l : list (input nat)) axis pre post ds z, inputs_ok pre post ds (map value l) /\ ranks_right l /\
  norm_axis (length pre + S (length post)) axis = Some (length pre) /\
  concat_v2 l (Some axis) = Some z /\ shape z = [0; 2] /\ pre ++ sum ds :: post = [0; 5] /\ ~ tf_concat axis pre post ds (map value l) z.
Proof.
  exists [Input false (Some 2) (Tensor [0; 2] []); Input true (Some 2) (Tensor [0; 3] [])], 1%Z, [0], [], [2; 3], (Tensor [0; 2] []).
  split; [split; [discriminate|repeat constructor]|]. split; [intros i n [<-|[<-|[]]]; cbn; intros [= <-]; reflexivity|]. repeat split; try reflexivity. intros (_ & _ & Sz & _). discriminate.
Qed.
Print Assumptions C92_empty_constant_refuted.
(** If every input is a constant without elements, nothing is left but the axis, and the Concat is invalid: the check for this (tensor.py:291) still counts the axis *)
Theorem C92_all_empty_refuted A (l : list (input A)) axis : (forall i, In i l -> is_const i = true /\ size (shape (value i)) = 0) -> concat_v2 l axis = None.
Proof.
  intro H. unfold concat_v2. assert (E : filter (fun i => negb (is_const i && Nat.eqb (size (shape (value i))) 0)) l = []).
  { induction l as [|i l IH]; [reflexivity|]. cbn [filter]. destruct (H i (or_introl eq_refl)) as [-> ->]. cbn. apply IH. intros j J. apply H. now right. }
  rewrite E. destruct axis as [a|]; [|reflexivity]. cbn [first_rank]. destruct (a <? 0)%Z; reflexivity.
Qed.
Print Assumptions C92_all_empty_refuted.
