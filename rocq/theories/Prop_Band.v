(** C81: the band of a matrix. *)
From Coq Require Import List Arith ZArith Bool Lia.
From Verif Require Import Tensor FoldModel OnnxSpec TOps TOpsProofs BandSpec BandModel BandProofs BandProofs7.
Import ListNotations.
Local Open Scope list_scope.

(** From opset 11 on: for a tensor of any rank >= 2 (known to the converter or not) and any bounds, constant or not, if the multiplication
    takes 1 * v to v and 0 * v to 0, a bound that is not constant is not negative when the model runs, and there are columns (or the bounds
    are the constants 0 and 0, or two negative constants), the graph yields TensorFlow's band. *)
Theorem C81_band_partial : forall {A} (mul : A -> A -> A) (zero one : A) (x : tensor A) sh r c rank lower_const upper_const lower upper,
  (forall v, mul one v = v) -> (forall v, mul zero v = zero) -> wf x -> shape x = sh ++ [r; c] -> length (shape x) < 2 ^ 62 ->
  rank = None \/ rank = Some (length (shape x)) ->
  (forall v, lower_const = Some v -> lower = v) -> (forall v, upper_const = Some v -> upper = v) ->
  (lower_const = None -> (0 <= lower)%Z) -> (upper_const = None -> (0 <= upper)%Z) ->
  c <> 0 \/ (lower_const = Some 0%Z /\ upper_const = Some 0%Z) \/ (exists l u, lower_const = Some l /\ upper_const = Some u /\ (l < 0)%Z /\ (u < 0)%Z) ->
  exists e y, band11 rank lower_const upper_const = Some e /\ rval mul zero one x lower upper e = Some y /\ tf_band_part zero lower upper x y.
Proof.
  intros A mul zero one x sh r c rank lc uc lower upper M1 M0 W Sh Big Rk Lc Uc Ld Ud C.
  apply (band11_ok mul zero one x lower upper sh r c W Sh rank Rk Big M1 M0 lc uc Lc Uc Ld Ud).
  destruct C as [C|[[-> ->]|(l & u & -> & -> & Hl & Hu)]]; [right; exact C|left; reflexivity|left].
  unfold eye_case, none_case, checked. rewrite (proj2 (Z.leb_gt _ _)) by exact Hl. rewrite (proj2 (Z.leb_gt _ _)) by exact Hu. cbn. apply orb_true_r.
Qed.
(** Before opset 11: the lower and the upper triangle of a matrix that has a column (a row); other constants are refused. *)
Theorem C81_triangle_partial : forall {A} (mul : A -> A -> A) (zero one : A) (truth : A -> bool) (x : tensor A) r c,
  (forall v, mul one v = v) -> (forall v, mul zero v = zero) -> wf x -> shape x = [r; c] ->
  (0 < c -> exists y, band7 mul zero one truth (Some (-1)%Z) (Some 0%Z) x = Some y /\ tf_band_part zero (-1) 0 x y) /\
  (0 < r -> exists y, band7 mul zero one truth (Some 0%Z) (Some (-1)%Z) x = Some y /\ tf_band_part zero 0 (-1) x y) /\
  (forall l u y, band7 mul zero one truth l u x = Some y -> (l = Some (-1)%Z /\ u = Some 0%Z) \/ (l = Some 0%Z /\ u = Some (-1)%Z)).
Proof.
  intros A mul zero one truth x r c M1 M0 W Sh. split; [|split].
  - intro C. apply (band7_lower mul zero one truth M1 M0 x r c); auto.
  - intro R. apply (band7_upper mul zero one truth M1 M0 x r c); auto.
  - intros l u y. apply band7_refused.
Qed.
(** A bound that is not constant may be negative when the model runs; then the graph yields something else (here: everything is lost, while
    TensorFlow keeps all). *)
Theorem C81_negative_at_run_time_refuted : forall {A} (mul : A -> A -> A) (zero one v : A), (forall v, mul one v = v) -> (forall v, mul zero v = zero) -> v <> zero ->
  exists e y, band11 (Some 2) None (Some (-1)%Z) = Some e /\ rval mul zero one (Tensor [1; 1] [v]) (-1) (-1) e = Some y /\
    ~ tf_band_part zero (-1) (-1) (Tensor [1; 1] [v]) y.
Proof.
  intros A mul zero one v M1 M0 N. eexists. exists (Tensor [1; 1] [mul zero v]). split; [reflexivity|]. split; [reflexivity|].
  intros (_ & _ & sh & r & c & Sh & G). destruct sh as [|? [|? sh]]; cbn in Sh; try discriminate.
  - injection Sh as <- <-. specialize (G [] 0 0 Logic.I Nat.lt_0_1 Nat.lt_0_1). cbn in G. rewrite M0 in G. congruence.
  - destruct sh; discriminate.
Qed.
(** Without columns the graph fails (Reshape reads the 0 as the copy of a dimension that is not there). *)
Theorem C81_no_columns_refuted : forall {A} (mul : A -> A -> A) (zero one : A) r, exists e,
  band11 (Some 2) (Some 1%Z) (Some 1%Z) = Some e /\ rval mul zero one (Tensor [r; 0] []) 1 1 e = None /\ tf_band_part zero 1 1 (Tensor [r; 0] []) (Tensor [r; 0] []).
Proof.
  intros A mul zero one r. eexists. split; [reflexivity|].
  assert (W : wf (Tensor (A := A) [r; 0] [])) by (unfold wf; cbn; lia).
  split; [|split; [exact W|split; [reflexivity|]]].
  - set (x := Tensor (A := A) [r; 0] []) in *. set (limit := IMul (ISlice IShape 0 1) (ISlice IShape 1 2)).
    assert (EL : ival x 1 1 limit = Some (zvec [0%Z])).
    { transitivity (Some (zvec [(Z.of_nat r * 0)%Z])); [reflexivity|now rewrite Z.mul_0_r]. }
    assert (EC : ival x 1 1 (ICumSum (IExpand (IConst (Tensor [] [1%Z])) limit)) = Some (zvec [])).
    { change (ival x 1 1 (ICumSum (IExpand (IConst (Tensor [] [1%Z])) limit))) with (obind (match ival x 1 1 limit with Some u => obind (as_vec u) (fun l => f_expand l (Tensor [] [1%Z])) | None => None end) f_cumsum_exclusive).
      rewrite EL. reflexivity. }
    set (idx := IReshape (ICumSum (IExpand (IConst (Tensor [] [1%Z])) limit)) IShape).
    assert (EI : ival x 1 1 idx = None).
    { change (ival x 1 1 idx) with (match ival x 1 1 (ICumSum (IExpand (IConst (Tensor [] [1%Z])) limit)) with Some t => obind (as_vec (zvec (map Z.of_nat (shape x)))) (fun l => f_reshape l t) | None => None end).
      rewrite EC. reflexivity. }
    assert (Un : forall i m, ival x 1 1 i = None -> rval mul zero one x 1 1 (RMasked (MAnd (MNot (MGreater (ISub (IMod i (ISlice IShape 1 2)) (IDiv i (ISlice IShape 1 2))) IUpper)) m)) = None).
    { intros i m Ei. cbn [rval mval ival]. rewrite Ei. reflexivity. }
    apply (Un idx). exact EI.
  - exists [], r, 0. split; [reflexivity|]. intros ix i j _ _ J. lia.
Qed.
(** What is masked out is multiplied by 0: where 0 * v is not 0 (infinity and NaN) the result is wrong. *)
Theorem C81_infinite_refuted : forall {A} (mul : A -> A -> A) (zero one v : A), mul zero v <> zero ->
  exists e y, band11 (Some 2) (Some 0%Z) (Some (-1)%Z) = Some e /\ rval mul zero one (Tensor [2; 1] [v; v]) 0 (-1) e = Some y /\
    ~ tf_band_part zero 0 (-1) (Tensor [2; 1] [v; v]) y.
Proof.
  intros A mul zero one v N. eexists. exists (Tensor [2; 1] [mul one v; mul zero v]). split; [reflexivity|]. split; [reflexivity|].
  intros (_ & _ & sh & r & c & Sh & G). destruct sh as [|? [|? sh]]; cbn in Sh; try discriminate.
  - injection Sh as <- <-. specialize (G [] 1 0 Logic.I Nat.lt_1_2 Nat.lt_0_1). cbn in G. congruence.
  - destruct sh; discriminate.
Qed.

(** ** Cases that meet the hypotheses *)
Example band_3 : exists e, band11 None (Some 1%Z) None = Some e /\
  rval Z.mul 0%Z 1%Z (Tensor [1; 3; 3] [1; 2; 3; 4; 5; 6; 7; 8; 9]%Z) 1 0 e = Some (Tensor [1; 3; 3] [1; 0; 0; 4; 5; 0; 0; 8; 9]%Z).
Proof. eexists. split; reflexivity. Qed.
Example hyps : wf (Tensor [1; 3; 3] [1; 2; 3; 4; 5; 6; 7; 8; 9]%Z) /\ shape (Tensor [1; 3; 3] [1; 2; 3; 4; 5; 6; 7; 8; 9]%Z) = [1] ++ [3; 3] /\ (forall v, 1 * v = v)%Z /\ (forall v, 0 * v = 0)%Z.
Proof. split; [reflexivity|]. split; [reflexivity|]. split; intros; lia. Qed.
Example lower_2 : band7 Z.mul 0%Z 1%Z (fun v => negb (Z.eqb v 0)) (Some (-1)%Z) (Some 0%Z) (Tensor [2; 3] [1; 2; 3; 4; 5; 6]%Z) = Some (Tensor [2; 3] [1; 0; 0; 4; 5; 0]%Z).
Proof. reflexivity. Qed.
Example upper_2 : band7 Z.mul 0%Z 1%Z (fun v => negb (Z.eqb v 0)) (Some 0%Z) (Some (-1)%Z) (Tensor [2; 3] [1; 2; 3; 4; 5; 6]%Z) = Some (Tensor [2; 3] [1; 2; 3; 0; 5; 6]%Z).
Proof. reflexivity. Qed.

Print Assumptions C81_band_partial.
Print Assumptions C81_triangle_partial.
Print Assumptions C81_negative_at_run_time_refuted.
Print Assumptions C81_no_columns_refuted.
Print Assumptions C81_infinite_refuted.
