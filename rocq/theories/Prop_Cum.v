(** C79: cumulative products. *)
From Coq Require Import List Arith ZArith Bool Lia.
From Verif Require Import Tensor FoldModel OnnxSpec TOps TOpsProofs TOpsProofs2 CumSpec CumModel CumProofs.
Import ListNotations.
Local Open Scope list_scope.

(** for every shape, axis (not negative; constant or not), both flags, and every commutative and associative multiplication: the value is
    what TensorFlow computes; an exclusive product needs an axis that is not empty *)
Theorem C79_cumprod_partial : forall A (mul : A -> A -> A) one opset axis exclusive reverse k (x y : tensor A) e,
  (forall a, mul one a = a) -> (forall a b, mul a b = mul b a) -> (forall a b c, mul a (mul b c) = mul (mul a b) c) -> 11 <= opset ->
  axis = Some (Z.of_nat k) \/ axis = None -> cumprod axis (Some (length (shape x))) exclusive reverse = Some e ->
  wf x -> (exclusive = true -> 0 < nth k (shape x) 0) -> tf_cumprod mul one exclusive reverse k x y ->
  tval mul one opset x (Z.of_nat k) outside e = Some y.
Proof.
  intros A mul one opset axis ex rv k x y e H1 HC HA OP AX E W Pos T. assert (L : k < length (shape x)) by apply T.
  destruct (mid_axis 0 (shape x) k L) as [Es Lp]. rewrite <- Lp in AX, T |- *. eapply cumprod_ok; eauto.
Qed.
(** the constant axis must count from the front *)
Theorem C79_cumprod_accepted : forall axis rank exclusive reverse, (exists e, cumprod axis rank exclusive reverse = Some e) <->
  exists r, rank = Some r /\ forall a, axis = Some a -> (0 <= a < Z.of_nat r)%Z.
Proof.
  intros axis rank ex rv.
  assert (K : forall r p0 p1, (exists e, pads_node axis r p0 p1 = Some e) <-> forall a, axis = Some a -> (0 <= a < Z.of_nat r)%Z).
  { intros r p0 p1. unfold pads_node, zeros. destruct axis as [a|]; [|split; [intros _ a H; discriminate|eauto]].
    destruct (Z.ltb_spec a 0); [split; [intros [e H0]; discriminate|intro H0; specialize (H0 a eq_refl); lia]|].
    destruct (Z.ltb_spec (Z.of_nat r - a - 1) 0); [split; [intros [e H1]; discriminate|intro H1; specialize (H1 a eq_refl); lia]|].
    split; [intros _ b [= <-]; lia|eauto]. }
  unfold cumprod. destruct rank as [r|]; [|split; [intros [e H]; discriminate|intros (r & H & _); discriminate]].
  unfold loop_body. cbv zeta. set (add := IAdd IIter (IVec [1%Z])).
  split.
  - intros [e H]. exists r. split; auto. apply (K r (if rv then IVec [0%Z] else add) (if rv then add else IVec [0%Z])).
    destruct rv; cbv iota in *; destruct (pads_node axis r _ _) as [pads|]; cbn [option_map] in H; eauto; discriminate.
  - intros (r' & [= <-] & H).
    destruct (proj2 (K r (IVec [0%Z]) add) H) as [e1 E1]. destruct (proj2 (K r add (IVec [0%Z])) H) as [e2 E2].
    destruct (proj2 (K r (IVec [0%Z]) (IVec [1%Z])) H) as [e3 E3]. destruct (proj2 (K r (IVec [1%Z]) (IVec [0%Z])) H) as [e4 E4].
    destruct rv, ex; rewrite ?E1, ?E2, ?E3, ?E4; cbn [option_map]; eauto.
Qed.
(** an axis given at run time that counts from the end: the graph fails *)
Theorem C79_cumprod_negative_axis_refuted : exists e (x y : tensor Z), cumprod None (Some 1) false false = Some e /\ tf_cumprod Z.mul 1%Z false false 0 x y /\
  norm_axis (length (shape x)) (-1) = Some 0 /\ tval Z.mul 1%Z 13 x (-1) outside e = None.
Proof.
  eexists. exists (Tensor [2] [2; 3]%Z), (Tensor [2] [2; 6]%Z). split; [reflexivity|]. split; [|split; reflexivity].
  split; [reflexivity|]. split; [reflexivity|]. split; [reflexivity|]. split; [cbn; lia|]. intros ix I. apply inb_1 in I. destruct I as (i & -> & L).
  destruct i as [|[|i]]; [exists [2%Z]| |lia]; [|exists [2%Z; 3%Z]]; (split; [repeat constructor|reflexivity]).
Qed.
(** the handler is registered for opset 10, whose Pad does not take the pads as an input: the graph is not valid there *)
Theorem C79_cumprod_opset10_refuted : forall A (mul : A -> A -> A) one (x : tensor A) axis rank reverse k e, cumprod axis rank false reverse = Some e ->
  k < length (shape x) -> 2 <= nth k (shape x) 0 -> tval mul one 10 x (Z.of_nat k) outside e = None.
Proof.
  intros A mul one x axis rank rv k e E Lk L. unfold cumprod in E. destruct rank as [r|]; [|discriminate]. destruct (loop_body axis r rv) as [body|] eqn:B; [|discriminate]. injection E as <-.
  cbn [tval ival both]. rewrite seq_axis by auto. cbn [both]. destruct (Z.to_nat (Z.of_nat (nth k (shape x) 0) - 1)) as [|m] eqn:M; [lia|].
  replace (tval mul one 10 x (Z.of_nat k) _ body) with (@None (tensor A)); auto. symmetry. unfold loop_body in B. cbv zeta in B. destruct rv.
  - destruct (pads_node axis r _ _) as [pads|] in B; [|discriminate]. injection B as <-. cbn [tval s_acc Nat.leb]. destruct (match s_inputs _ with Some _ => _ | None => _ end); [|reflexivity]. destruct (ival _ _ _ pads); reflexivity.
  - destruct (pads_node axis r _ _) as [pads|] in B; [|discriminate]. injection B as <-. cbn [tval s_acc Nat.leb]. destruct (match s_inputs _ with Some _ => _ | None => _ end); [|reflexivity]. destruct (ival _ _ _ pads); reflexivity.
Qed.
(** an exclusive product along an empty axis comes out with one entry *)
Theorem C79_cumprod_exclusive_empty_refuted : exists e (x y : tensor Z), cumprod (Some 0%Z) (Some 1) true false = Some e /\ tf_cumprod Z.mul 1%Z true false 0 x y /\
  shape y = [0] /\ exists y', tval Z.mul 1%Z 13 x 0 outside e = Some y' /\ shape y' = [1].
Proof.
  eexists. exists (Tensor [0] []), (Tensor [0] []). split; [reflexivity|]. split; [|split; [reflexivity|eexists; split; reflexivity]].
  split; [reflexivity|]. split; [reflexivity|]. split; [reflexivity|]. split; [cbn; lia|]. intros ix I. apply inb_1 in I. destruct I as (i & _ & L). lia.
Qed.
(** the hypotheses are met *)
Example cumprod_runs : exists e, cumprod (Some 1%Z) (Some 2) true true = Some e /\
  tval Z.mul 1%Z 13 (Tensor [2; 3] [2; 3; 5; 7; 11; 13]%Z) 1 outside e = Some (Tensor [2; 3] [15; 5; 1; 143; 13; 1]%Z).
Proof. eexists. split; reflexivity. Qed.
Print Assumptions C79_cumprod_partial.
