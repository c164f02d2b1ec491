(** C83: ScatterNd and TensorScatterAdd/Max/Min/Sub/Update, tf2onnx/onnx_opset/tensor.py:648-709 (model: ScatModel, specification: ScatSpec). *)
From Coq Require Import List Arith ZArith Bool Lia.
From Verif Require Import Tensor FoldModel OnnxSpec TensorProofs TOps TOpsProofs ReduceSpec ScatSpec ScatModel ScatProofs.
Import ListNotations.
Local Open Scope list_scope.

(** no two rows of the indices are the same *)
Definition distinct (sh q : list nat) (k : nat) (idx : tensor Z) : Prop :=
  forall ix ix' pos, inb pos (firstn k sh) -> inb ix q -> inb ix' q -> points idx ix pos -> points idx ix' pos -> ix = ix'.
(** the opsets from which on the operator is converted right *)
Definition right_from (o : scatter_op) : nat := match o with ScatterNd | ScatterUpdate => 11 | ScatterAdd | ScatterSub => 16 | ScatterMax | ScatterMin => 18 end.

(** For tensors, indices and updates of every shape (slices included), whatever rows are equal: each entry is combined with exactly the updates
    that its row names.  For ScatterNd the rows must be distinct (the general case is refuted below); Max and Min need opset 18 (likewise). *)
Theorem C83_scatter_combines_all_updates_partial {A} (add sub max min : A -> A -> A) (neg : A -> A) (zero : A) opset o sh q k t idx upd :
  (forall a u, sub a u = add a (neg u)) -> (forall u, add zero u = u) ->
  right_from o <= opset -> wf t -> shape t = sh -> scatter_args sh q k idx upd -> (o = ScatterNd -> distinct sh q k idx) ->
  exists n y, convert opset o = Some n /\ run add max min neg zero opset n (arguments o t idx upd) = Some y /\
    tf_scatter (tf_op add sub max min o) sh q k (before zero o t) idx upd y.
Proof.
  intros Sb Z0 V W Sh Ar Di. assert (Le : forall m, m <= opset -> Nat.leb m opset = true) by (intros; now apply Nat.leb_le).
  destruct o; cbn [right_from] in V; cbn [convert tf_op arguments].
  - (* ScatterNd *)
    set (t0 := Tensor sh (repeat zero (size sh))).
    assert (W0 : wf t0) by (unfold wf, t0; cbn [data shape]; apply repeat_length).
    destruct (scatter_ok (fun _ u => u) sh q k idx upd Ar t0 W0 eq_refl) as (y & E & Wy & Sy & Gy).
    rewrite (Le 11) by lia. eexists _, y. split; [reflexivity|]. split.
    { unfold run. cbn [red ins map input_value nth_error sequence onnx_reduction]. unfold f_constant_of_shape. change (zvec (map Z.of_nat (shape t))) with (tvec (map Z.of_nat (shape t))). rewrite as_vec_tvec.
      assert (Nn : forallb (fun z => (0 <=? z)%Z) (map Z.of_nat (shape t)) = true) by (apply forallb_forall; intros z I; apply in_map_iff in I; destruct I as (n & <- & _); apply Z.leb_le; lia).
      rewrite Nn, map_map. assert (Id : map (fun x => Z.to_nat (Z.of_nat x)) (shape t) = sh) by (rewrite Sh; rewrite <- (map_id sh) at 2; apply map_ext; intro; apply Nat2Z.id). rewrite Id. cbn [option_map].
      rewrite (Le 11) by lia. exact E. }
    split; [exact Wy|]. split; [exact Sy|]. intros pos rest P Q. destruct (Gy pos rest P Q) as (rows & d & us & Rw & Ed & F & Ey). exists rows, zero, us. split; [exact Rw|]. split; [reflexivity|]. split; [exact F|].
    assert (D0 : d = zero). { unfold get, t0 in Ed. cbn [data shape] in Ed. apply nth_error_In in Ed. now apply repeat_spec in Ed. } subst d.
    rewrite Ey. f_equal. destruct Rw as [Nd Rw]. assert (L : length rows <= 1).
    { destruct rows as [|a [|b rows]]; cbn [length]; try lia. exfalso. inversion Nd as [|? ? N1 _]; subst. apply N1. left. destruct (proj1 (Rw a) (or_introl eq_refl)) as [Ia Pa]. destruct (proj1 (Rw b) (or_intror (or_introl eq_refl))) as [Ib Pb].
      symmetry. apply (Di eq_refl a b pos); auto. }
    assert (Lu : length rows = length us) by (clear -F; induction F; cbn; auto). destruct us as [|u [|u' us]]; cbn [length] in Lu; [reflexivity| |lia]. cbn [fold_left]. now rewrite Z0.
  - rewrite (Le 16) by lia. destruct (scatter_ok add sh q k idx upd Ar t W Sh) as (y & E & T). eexists _, y. split; [reflexivity|]. split; [|exact T].
    unfold run. cbn [red ins map input_value nth_error sequence onnx_reduction]. rewrite (Le 16), (Le 11) by lia. exact E.
  - rewrite (Le 16) by lia. destruct (scatter_ok max sh q k idx upd Ar t W Sh) as (y & E & T). eexists _, y. split; [reflexivity|]. split; [|exact T].
    unfold run. cbn [red ins map input_value nth_error sequence onnx_reduction]. rewrite (Le 18), (Le 11) by lia. exact E.
  - rewrite (Le 16) by lia. destruct (scatter_ok min sh q k idx upd Ar t W Sh) as (y & E & T). eexists _, y. split; [reflexivity|]. split; [|exact T].
    unfold run. cbn [red ins map input_value nth_error sequence onnx_reduction]. rewrite (Le 18), (Le 11) by lia. exact E.
  - rewrite (Le 16) by lia. assert (Gn : forall p, get (f_unary neg upd) p = option_map neg (get upd p)) by (intro p; unfold get, f_unary; cbn [data shape]; apply nth_error_map).
    assert (Ar' : scatter_args sh q k idx (f_unary neg upd)).
    { destruct Ar as (Wi & Wu & Si & K & Su & R). repeat split; auto; try lia. unfold wf, f_unary. cbn [shape data]. now rewrite map_length. }
    destruct (scatter_ok add sh q k idx (f_unary neg upd) Ar' t W Sh) as (y & E & Wy & Sy & Gy). eexists _, y. split; [reflexivity|]. split.
    { unfold run. cbn [red ins map input_value nth_error sequence onnx_reduction]. rewrite (Le 16), (Le 11) by lia. exact E. }
    split; [exact Wy|]. split; [exact Sy|]. intros pos rest P Q. destruct (Gy pos rest P Q) as (rows & d & us & Rw & Ed & F & Ey).
    assert (B : exists vs, us = map neg vs /\ Forall2 (fun ix u => get upd (ix ++ rest) = Some u) rows vs).
    { clear -F Gn. induction F as [|ix u rows us H F (vs & -> & F')]; [exists []; split; [reflexivity|constructor]|]. rewrite Gn in H. destruct (get upd (ix ++ rest)) as [v|] eqn:Ev; [|discriminate]. injection H as <-. exists (v :: vs). split; [reflexivity|]. constructor; auto. }
    destruct B as (vs & -> & F'). exists rows, d, vs. split; [exact Rw|]. split; [exact Ed|]. split; [exact F'|]. rewrite Ey. f_equal. clear -Sb. revert d. induction vs as [|v vs IH]; intro d; [reflexivity|]. cbn [map fold_left]. now rewrite Sb, IH.
  - rewrite (Le 11) by lia. destruct (scatter_ok (fun _ u => u) sh q k idx upd Ar t W Sh) as (y & E & T). eexists _, y. split; [reflexivity|]. split; [|exact T].
    unfold run. cbn [red ins map input_value nth_error sequence onnx_reduction]. rewrite (Le 11) by lia. exact E.
Qed.
Print Assumptions C83_scatter_combines_all_updates_partial.

(** two updates of the first row of a matrix and one of the third *)
Example args_hold : scatter_args [3; 2] [3] 1 (Tensor [3; 1] [0; 0; 2]%Z) (Tensor [3; 2] [1; 2; 3; 4; 5; 6]%Z).
Proof.
  repeat split; cbn; auto. intros [|i [|]]; cbn; try tauto. intros [H _]. destruct i as [|[|[|i]]]; [exists [0]|exists [0]|exists [2]|lia]; (split; [cbn; lia|]); intros [|j] J; cbn in J; try lia; reflexivity.
Qed.
Example computed : run Z.add Z.max Z.min Z.opp 0%Z 18 (ScatterNode [Input 0; Input 1; Negated 2] (Some RAdd))
  (arguments ScatterSub (Tensor [3; 2] [0; 0; 0; 0; 0; 0]%Z) (Tensor [3; 1] [0; 0; 2]%Z) (Tensor [3; 2] [1; 2; 3; 4; 5; 6]%Z)) = Some (Tensor [3; 2] [-4; -6; 0; 0; -5; -6]%Z).
Proof. vm_compute. reflexivity. Qed.

(** tf.scatter_nd adds up updates of the same entry; the graph keeps the last one only: [1; 2] scattered to the only entry gives 2, not 3 *)
Theorem C83_scatter_nd_duplicates_refuted : exists opset n sh q k idx upd y, scatter_args sh q k idx upd /\
  convert opset ScatterNd = Some n /\
  run Z.add Z.max Z.min Z.opp 0%Z opset n (arguments ScatterNd (Tensor sh (repeat 0%Z (size sh))) idx upd) = Some y /\
  ~ tf_scatter Z.add sh q k (fun _ => Some 0%Z) idx upd y.
Proof.
  exists 16. eexists. exists [1], [2], 1, (Tensor [2; 1] [0; 0]%Z), (Tensor [2] [1; 2]%Z), (Tensor [1] [2%Z]).
  assert (P : forall i, i < 2 -> points (Tensor [2; 1] [0; 0]%Z) [i] [0]). { intros [|[|i]] Hi [|j] J; cbn in J; try lia; reflexivity. }
  split; [|split; [reflexivity|split; [vm_compute; reflexivity|]]].
  - repeat split; cbn; auto. intros [|i [|]]; cbn; try tauto. intros [H _]. exists [0]. split; [cbn; lia|now apply P].
  - intros (_ & _ & G). destruct (G [0] []) as (rows & d & us & [Nd Rw] & Ed & F & Ey); [cbn; lia|cbn; auto|]. injection Ed as <-. cbn in Ey.
    assert (I0 : In [0] rows) by (apply Rw; split; [cbn; lia|apply P; lia]). assert (I1 : In [1] rows) by (apply Rw; split; [cbn; lia|apply P; lia]).
    assert (Only : forall r, In r rows -> r = [0] \/ r = [1]). { intros r I. apply Rw in I. destruct I as [I _]. destruct r as [|i [|]]; cbn in I; try tauto. destruct I as [H _]. destruct i as [|[|i]]; auto; lia. }
    assert (E : us = [1; 2]%Z \/ us = [2; 1]%Z).
    { destruct rows as [|a rows]; [destruct I0|]. inversion Nd as [|? ? N1 Nd1]; subst. destruct rows as [|b rows].
      { destruct I0 as [->|[]]. destruct I1 as [E|[]]. discriminate. }
      inversion Nd1 as [|? ? N2 Nd2]; subst. destruct rows as [|c rows].
      - inversion F as [|? u ? us1 F1 F2]; subst. inversion F2 as [|? v ? us2 F3 F4]; subst. inversion F4; subst.
        destruct (Only a (or_introl eq_refl)) as [-> | ->], (Only b (or_intror (or_introl eq_refl))) as [-> | ->]; cbn in F1, F3; try (exfalso; apply N1; now left); injection F1 as <-; injection F3 as <-; auto.
      - exfalso. destruct (Only a (or_introl eq_refl)) as [-> | ->], (Only b (or_intror (or_introl eq_refl))) as [-> | ->], (Only c (or_intror (or_intror (or_introl eq_refl)))) as [-> | ->];
          try (apply N1; cbn; tauto); apply N2; cbn; tauto. }
    destruct E as [-> | ->]; cbn in Ey; discriminate.
Qed.
Print Assumptions C83_scatter_nd_duplicates_refuted.

(** TensorScatterMax and TensorScatterMin are converted from opset 16 on, but before opset 18 ScatterND has no such reduction: no runtime takes the graph *)
Theorem C83_max_before_opset_18_refuted : forall (A : Type) (add max min : A -> A -> A) neg zero opset o vs, 16 <= opset < 18 -> o = ScatterMax \/ o = ScatterMin ->
  exists n, convert opset o = Some n /\ run add max min neg zero opset n vs = None.
Proof.
  intros A add max min neg zero opset o vs H O. assert (L : Nat.leb 16 opset = true) by (apply Nat.leb_le; lia). assert (L' : Nat.leb 18 opset = false) by (apply Nat.leb_gt; lia).
  destruct O as [-> | ->]; cbn [convert]; rewrite L; eexists; (split; [reflexivity|]); unfold run; cbn [red onnx_reduction]; rewrite L'; reflexivity.
Qed.
Print Assumptions C83_max_before_opset_18_refuted.
