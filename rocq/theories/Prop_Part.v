(** C75: DynamicPartition, DynamicStitch, Bincount, DenseBincount and Unique. *)
From Coq Require Import String List Arith ZArith QArith Bool Lia.
From Verif Require Import OnnxSpec SegSpec SegProofs RagSpec PartSpec PartModel PartProofs B2BModel CastSpec.
From Verif Require Tensor.
Import ListNotations.
Local Open Scope list_scope.
Local Open Scope nat_scope.
Local Notation length := List.length.

(** ** DynamicPartition *)
Definition partition_env {A} (w : nat) (rows : list (list A)) (partitions : list Z) (s : string) : option (pval A) :=
  if String.eqb s "data" then Some (Data w rows) else if String.eqb s "partitions" then Some (Vec partitions) else None.
Theorem C75_dynamic_partition :
  forall (A : Type) (nought : A) w rows partitions n outs shape i e out,
    tf_partition rows partitions n outs -> partition shape n i = Some e -> nth_error outs i = Some out ->
    pvalue A nought (partition_env w rows partitions) e = Some (Data w out).
Proof.
  intros A nought w rows ps n outs shape i e out (L & _ & Ln & H) He Ho. rewrite (H i out Ho).
  apply (partition_ok A nought (partition_env w rows ps) w rows ps n i e shape); auto. rewrite <- Ln. apply nth_error_Some. congruence.
Qed.
Theorem C75_dynamic_partition_accepted :
  forall shape n i, (exists e, partition shape n i = Some e) <-> exists d, shape = Some [d].
Proof.
  intros shape n i. split; [|intros [d ->]; eexists; reflexivity]. intros [e H]. unfold partition in H. destruct shape as [[|d [|]]|]; try discriminate. eauto.
Qed.
(** ** DynamicStitch.  Missing: an index that is given twice, an index below the largest one that is not given. *)
Theorem C75_dynamic_stitch_partial :
  forall (A : Type) (nought : A) env w indices datas es_i es_d shapes_i shapes_d out e,
    Forall2 (fun e ix => pvalue A nought env e = Some (Vec ix)) es_i indices ->
    Forall2 (fun e d => pvalue A nought env e = Some (Data w d)) es_d datas ->
    Forall (fun r => length r = w) (concat datas) ->
    tf_stitch indices datas out -> stitch shapes_i shapes_d es_i es_d = Some e ->
    NoDup (concat indices) -> (forall p, p < length out -> In (Z.of_nat p) (concat indices)) ->
    pvalue A nought env e = Some (Data w out).
Proof. intros A nought env w ixs ds ei ed si sd out e H1 H2 H3 H4 H5 H6 H7. exact (stitch_ok A nought env w ixs ds ei ed si sd out e H1 H2 H3 H4 H6 H7 H5). Qed.
Definition stitch_env (s : string) : option (pval Z) :=
  if String.eqb s "i" then Some (Vec [0]%Z) else if String.eqb s "a" then Some (Data 1 [[10]]%Z) else if String.eqb s "b" then Some (Data 1 [[20]]%Z) else if String.eqb s "k" then Some (Vec [2]%Z) else None.
Definition one_d := Some [1%Z].
(** the same index twice: TensorFlow takes the later row *)
Theorem C75_dynamic_stitch_duplicates_refuted :
  tf_stitch [[0]; [0]]%Z [[[10]]; [[20]]]%Z [[20]]%Z /\
  exists e, stitch [one_d; one_d] [one_d; one_d] [PIn "i"; PIn "i"]%string [PIn "a"; PIn "b"]%string = Some e /\ pvalue Z 0%Z stitch_env e <> Some (Data 1 [[20]]%Z).
Proof.
  split.
  - split; [repeat constructor|]. split; [repeat (apply Forall_cons; [cbn; lia|]); constructor|]. split; [left; reflexivity|]. intros p r (before & after & E & N). cbn in E.
    destruct before as [|q before]; cbn in E; [injection E as E1 E2 E3; subst after; exfalso; apply N; left; cbn; congruence|]. injection E as _ E. destruct before as [|q' before]; cbn in E; [|injection E as _ E; destruct before; discriminate].
    injection E as E1 E2 E3. assert (p = 0) by lia. subst. reflexivity.
  - eexists. split; [reflexivity|]. vm_compute. discriminate.
Qed.
(** a gap: TensorFlow makes three rows, one of them unspecified; the graph has no value *)
Theorem C75_dynamic_stitch_gap_refuted :
  forall r, tf_stitch [[0]; [2]]%Z [[[10]]; [[20]]]%Z [[10]; r; [20]]%Z /\
  exists e, stitch [one_d; one_d] [one_d; one_d] [PIn "i"; PIn "k"]%string [PIn "a"; PIn "b"]%string = Some e /\ pvalue Z 0%Z stitch_env e = None.
Proof.
  intro r. split.
  - split; [repeat constructor|]. split; [repeat (apply Forall_cons; [cbn; lia|]); constructor|]. split; [intros _; cbn; auto|]. intros p q (before & after & E & N). cbn in E.
    destruct before as [|x before]; cbn in E; [injection E as E1 E2 E3; assert (p = 0) by lia; subst; reflexivity|]. injection E as _ E. destruct before as [|x' before]; cbn in E; [|injection E as _ E; destruct before; discriminate].
    injection E as E1 E2 E3. assert (p = 2) by lia. subst. reflexivity.
  - eexists. split; reflexivity.
Qed.
(** ** Bincount: arr has any shape; DenseBincount: a vector, or a matrix whose rows are counted.  TensorFlow accepts no negative values *)
Inductive bin_op := Bincount | DenseBincount.
Definition flat {A} (v : pval A) : option (list Z) := match v with Sc z => Some [z] | Vec l => Some l | Mat w rows => Some (concat rows) | _ => None end.
Definition rank_of {A} (v : pval A) : nat := match v with Sc _ => 0 | Vec _ => 1 | _ => 2 end.
Definition tf_bincount {A} (o : bin_op) (binary : bool) (v : pval A) (size : nat) (out : pval A) : Prop :=
  (forall l, flat v = Some l -> Forall (fun z => (0 <= z)%Z) l) /\
  match o, v with
  | Bincount, _ => exists l c, flat v = Some l /\ out = Vec c /\ binary = false /\ tf_bins false l size c
  | DenseBincount, Vec l => exists c, out = Vec c /\ tf_bins binary l size c
  | DenseBincount, Mat w rows => exists cs, out = Mat size cs /\ Forall (fun r => length r = w) rows /\ Forall2 (fun r c => tf_bins binary r size c) rows cs
  | DenseBincount, _ => False
  end.
Definition bin_env {A} (v : pval A) (size : nat) (s : string) : option (pval A) := if String.eqb s "arr" then Some v else if String.eqb s "size" then Some (Sc (Z.of_nat size)) else None.
(** Missing: Bincount of a matrix whose rank is known, DenseBincount of a matrix whose rank is not known (both refuted below). *)
Theorem C75_bincount_partial :
  forall (A : Type) (nought : A) o binary v size out rank weights e,
    tf_bincount o binary v size out -> (rank = None \/ rank = Some (rank_of v)) -> bincount rank weights binary = Some e ->
    (o = Bincount -> rank <> Some 2) -> (o = DenseBincount -> rank_of v = 2 -> rank = Some 2) ->
    pvalue A nought (bin_env v size) e = Some out.
Proof.
  intros A nought o binary v size out rank ws e (_ & H) Hr He N1 N2.
  assert (B : forall b l c, tf_bins b l size c -> c = map (fun k => bin b (count (Z.of_nat k) l)) (seq 0 size)).
  { intros b l c (Lc & Hc). apply Tensor.nth_error_ext. intro k. destruct (Nat.lt_ge_cases k size) as [Hk|Hk].
    - destruct (nth_error c k) as [x|] eqn:E; [|apply nth_error_None in E; lia]. rewrite nth_error_map, (nth_error_nth' _ 0) by (now rewrite seq_length). rewrite seq_nth by exact Hk. cbn. f_equal. apply Hc. exact E.
    - rewrite (proj2 (nth_error_None _ _)) by lia. symmetry. apply nth_error_None. rewrite map_length, seq_length. exact Hk. }
  destruct o.
  - destruct H as (l & c & Hf & -> & -> & Hb). rewrite (B _ _ _ Hb). apply (flat_ok A nought (bin_env v size) size false eq_refl v l rank ws e eq_refl); auto. destruct v; try discriminate; injection Hf as <-; eauto 10.
  - destruct v as [| l | w rows | | | |]; try contradiction.
    + destruct H as (c & -> & Hb). rewrite (B _ _ _ Hb). apply (flat_ok A nought _ size binary eq_refl (Vec l) l rank ws e eq_refl); auto. destruct Hr as [-> | ->]; discriminate.
    + destruct H as (cs & -> & W & F). rewrite (N2 eq_refl eq_refl) in He. rewrite (dense_ok A nought (bin_env (Mat w rows) size) size binary w rows eq_refl eq_refl W ws e He). do 2 f_equal. clear -F B. induction F as [|r c rows cs Hb F IH]; [reflexivity|]. cbn. f_equal; [now rewrite (B _ _ _ Hb)|exact IH].
Qed.
Theorem C75_bincount_matrix_refuted :
  exists (v out : pval Z) e, tf_bincount Bincount false v 2 out /\ bincount (Some 2) (Some [0%Z]) false = Some e /\ rank_of v = 2 /\ pvalue Z 0%Z (bin_env v 2) e <> Some out.
Proof.
  exists (Mat 2 [[0; 1]; [1; 5]]%Z), (Vec [1; 2]%Z). eexists. split; [|split; [reflexivity|split; [reflexivity|vm_compute; discriminate]]]. split.
  - intros l H. injection H as <-. cbn. repeat (apply Forall_cons; [lia|]). constructor.
  - exists [0; 1; 1; 5]%Z, [1; 2]%Z. repeat (split; [reflexivity|]). intros [|[|v]] c H; [injection H as <-; reflexivity|injection H as <-; reflexivity|destruct v; discriminate].
Qed.
Theorem C75_dense_bincount_unknown_rank_refuted :
  exists (v out : pval Z) e, tf_bincount DenseBincount true v 2 out /\ bincount None (Some [0%Z]) true = Some e /\ pvalue Z 0%Z (bin_env v 2) e <> Some out.
Proof.
  exists (Mat 2 [[0; 1]; [1; 5]]%Z), (Mat 2 [[1; 1]; [0; 1]]%Z). eexists. split; [|split; [reflexivity|vm_compute; discriminate]]. split.
  - intros l H. injection H as <-. cbn. repeat (apply Forall_cons; [lia|]). constructor.
  - exists [[1; 1]; [0; 1]]%Z. split; [reflexivity|]. split; [repeat constructor|]. constructor; [|constructor; [|constructor]]; (split; [reflexivity|]); intros [|[|v]] c H; try (destruct v; discriminate); injection H as <-; reflexivity.
Qed.
(** without weights, and only then *)
Theorem C75_bincount_accepted :
  forall rank weights binary, (exists e, bincount rank weights binary = Some e) <-> exists shape, weights = Some shape /\ In 0%Z shape.
Proof.
  intros rank ws binary. unfold bincount. destruct ws as [ws|]; [|split; [intros [e H]; discriminate|intros (s & H & _); discriminate]].
  assert (Ex : existsb (Z.eqb 0) ws = true <-> In 0%Z ws). { rewrite existsb_exists. split; [intros (x & Hx & E); apply Z.eqb_eq in E; congruence|intro H; exists 0%Z; auto]. }
  destruct (existsb (Z.eqb 0) ws).
  - split; [intros _; exists ws; split; [reflexivity|now apply Ex]|]. intros _. destruct rank as [[|[|[|]]]|]; eexists; reflexivity.
  - split; [intros [e H]; discriminate|]. intros (s & H & Hs). injection H as <-. apply Ex in Hs. discriminate.
Qed.
(** ** Unique *)
Definition int_range (t : elem) : option (Z * Z) :=
  match t with
  | EBool => Some (0, 2)%Z | EInt8 => Some (- 2 ^ 7, 2 ^ 7)%Z | EInt16 => Some (- 2 ^ 15, 2 ^ 15)%Z | EInt32 => Some (- 2 ^ 31, 2 ^ 31)%Z | EInt64 => Some (- 2 ^ 63, 2 ^ 63)%Z
  | EUint8 => Some (0, 2 ^ 8)%Z | EUint16 => Some (0, 2 ^ 16)%Z | EUint32 => Some (0, 2 ^ 32)%Z | EUint64 => Some (0, 2 ^ 64)%Z | _ => None
  end.
(** Cast to an integer type: modulo its size; to bool: whether it is not zero *)
Definition cast_to (t : elem) (z : Z) : Z :=
  match t with EBool => if Z.eqb z 0 then 0 else 1 | _ => match int_range t with Some (lo, hi) => (z - lo) mod (hi - lo) + lo | None => z end end%Z.
Definition casted {X} (t : elem) (cast : elem -> X -> X) (x : X) : X := match unique_cast t with Some t' => cast t' x | None => x end.
Definition cast_back {X} (t : elem) (cast : elem -> X -> X) (x : X) : X := match unique_cast t with Some _ => cast t x | None => x end.
Inductive unique_out := Values | FirstIndices | Inverse | Counts.
Definition onnx_unique_outputs := [Values; FirstIndices; Inverse; Counts].
Definition tf_unique_outputs (n : nat) := firstn n [Values; Inverse; Counts].
(** the values, inverse indices and counts of ONNX's Unique of the casted elements, with the values cast back, are those of TensorFlow *)
Theorem C75_unique :
  (forall n, n = 2 \/ n = 3 -> map (nth_error onnx_unique_outputs) (unique_outputs n) = map Some (tf_unique_outputs n)) /\
  forall t lo hi l y idx counts, int_range t = Some (lo, hi) -> Forall (fun z => (lo <= z < hi)%Z) l ->
    is_unique (map (casted t cast_to) l) y idx counts -> is_unique l (map (cast_back t cast_to) y) idx counts.
Proof.
  split; [intros n [-> | ->]; reflexivity|]. intros t lo hi l y idx counts Hr F. apply unique_cast_ok. intros x Hx. rewrite Forall_forall in F. specialize (F x Hx). clear Hx.
  unfold casted, cast_back, cast_to. destruct t; cbn [int_range unique_cast] in *; try discriminate; injection Hr as <- <-; try reflexivity.
  - assert (E : x = 0%Z \/ x = 1%Z) by lia. destruct E as [-> | ->]; reflexivity.
  - rewrite (Z.mod_small (x - - 2 ^ 63)) by lia. rewrite Z.mod_small; lia.
  - rewrite (Z.mod_small (x - - 2 ^ 63)) by lia. rewrite Z.mod_small; lia.
  - rewrite (Z.mod_small (x - - 2 ^ 63)) by lia. rewrite Z.mod_small; lia.
  - rewrite (Z.mod_small (x - - 2 ^ 63)) by lia. rewrite Z.mod_small; lia.
  - rewrite (Z.mod_small (x - - 2 ^ 63)) by lia. rewrite Z.mod_small; lia.
  - change (2 ^ 64)%Z with 18446744073709551616%Z in *. change (- 2 ^ 63)%Z with (-9223372036854775808)%Z. change (2 ^ 63)%Z with 9223372036854775808%Z. destruct (Z.lt_ge_cases x 9223372036854775808) as [H|H]; [rewrite (Z.mod_small (x - -9223372036854775808)) by lia; rewrite Z.mod_small; lia|].
    replace ((x - -9223372036854775808) mod (9223372036854775808 - -9223372036854775808))%Z with (x - 9223372036854775808)%Z by (apply (Z.mod_unique _ _ 1); lia). replace ((x - 9223372036854775808 + -9223372036854775808 - 0) mod (18446744073709551616 - 0))%Z with x by (apply (Z.mod_unique _ _ (-1)); lia). lia.
Qed.
(** doubles are cast to float32 and back: no cast to float32 keeps all doubles *)
Theorem C75_unique_double_refuted :
  unique_cast EDouble = Some EFloat /\
  exists l, Forall (rep TDouble) l /\ forall cast : elem -> Q -> Q, (forall v, rep TFloat (cast EFloat v)) -> (forall v, rep TFloat v -> cast EDouble v = v) ->
    forall y idx counts, is_unique (map (casted EDouble cast) l) y idx counts -> ~ is_unique l (map (cast_back EDouble cast) y) idx counts.
Proof.
  split; [reflexivity|]. set (v := inject_Z 16777217). exists [v]. split.
  - constructor; [|constructor]. exists 16777217%Z, 0%Z. split; [reflexivity|]. split; [reflexivity|lia].
  - intros cast Hf Hd y idx counts U U'. assert (Hv : In v (map (cast_back EDouble cast) y)) by (apply (u_all _ _ _ _ U'); now left). apply in_map_iff in Hv. destruct Hv as (q & E & Hq). apply (u_all _ _ _ _ U) in Hq. destruct Hq as [E'|[]]. unfold casted, cast_back in *. cbn [unique_cast] in *. subst q. rewrite Hd in E by apply Hf. assert (R := Hf v). rewrite E in R.
    destruct R as (m & e & Em & Bm & Be). change (2 ^ 24)%Z with 16777216%Z in Bm. unfold v, pow2 in Em. destruct (Z.leb_spec 0 e) as [P|P].
    + rewrite <- inject_Z_mult in Em. apply (proj1 (inject_Z_injective _ _)) in Em. destruct (Z.eq_dec e 0) as [-> |Ne]; [change (2 ^ 0)%Z with 1%Z in Em; lia|]. replace (2 ^ e)%Z with (2 * 2 ^ (e - 1))%Z in Em by (rewrite <- Z.pow_succ_r by lia; f_equal; lia). revert Em. generalize (2 ^ (e - 1))%Z. intros k Em. assert (Ev : (16777217 = 2 * (m * k))%Z) by lia. lia.
    + assert (Nz : ~ inject_Z (2 ^ (- e)) == 0). { intro H. apply (proj1 (inject_Z_injective _ 0)) in H. assert (0 < 2 ^ (- e))%Z by (apply Z.pow_pos_nonneg; lia). lia. }
      assert (E2 : inject_Z (16777217 * 2 ^ (- e)) == inject_Z m). { rewrite inject_Z_mult, Em. rewrite <- Qmult_assoc, (Qmult_comm (/ _)), Qmult_inv_r by exact Nz. apply Qmult_1_r. }
      apply (proj1 (inject_Z_injective _ _)) in E2. assert (1 <= 2 ^ (- e))%Z by (assert (0 < 2 ^ (- e))%Z by (apply Z.pow_pos_nonneg; lia); lia). nia.
Qed.

(** ** concrete cases *)
Example partition_case : tf_partition [[1]; [2]; [3]]%Z [1; 0; 1]%Z 3 [[[2]]; [[1]; [3]]; []]%Z /\
  exists e, partition (Some [-1]%Z) 3 1 = Some e /\ pvalue Z 0%Z (partition_env 1 [[1]; [2]; [3]]%Z [1; 0; 1]%Z) e = Some (Data 1 [[1]; [3]]%Z).
Proof.
  split; [|eexists; split; reflexivity]. split; [reflexivity|]. split; [repeat (apply Forall_cons; [cbn; lia|]); constructor|]. split; [reflexivity|]. intros [|[|[|i]]] out H; try (destruct i; discriminate); injection H as <-; reflexivity.
Qed.
Example stitch_case : exists e, stitch [one_d; one_d] [one_d; one_d] [PIn "x"; PIn "i"]%string [PIn "a"; PIn "b"]%string = Some e /\
  pvalue Z 0%Z (fun s => if String.eqb s "x" then Some (Vec [1]%Z) else stitch_env s) e = Some (Data 1 [[20]; [10]]%Z) /\ tf_stitch [[1]; [0]]%Z [[[10]]; [[20]]]%Z [[20]; [10]]%Z.
Proof.
  eexists. split; [reflexivity|]. split; [reflexivity|]. split; [repeat constructor|]. split; [repeat (apply Forall_cons; [cbn; lia|]); constructor|]. split; [intros _; cbn; auto|]. intros p q (before & after & E & N). cbn in E.
  destruct before as [|x before]; cbn in E; [injection E as E1 E2 E3; assert (p = 1) by lia; subst; reflexivity|]. injection E as _ E. destruct before as [|x' before]; cbn in E; [|injection E as _ E; destruct before; discriminate].
  injection E as E1 E2 E3. assert (p = 0) by lia. subst. reflexivity.
Qed.
Example dense_case : exists e, bincount (Some 2) (Some [0]%Z) false = Some e /\ pvalue Z 0%Z (bin_env (Mat 3 [[0; 1; 1]; [2; 7; 0]]%Z) 3) e = Some (Mat 3 [[1; 2; 0]; [1; 0; 1]]%Z).
Proof. eexists. split; reflexivity. Qed.
Example unique_case : is_unique [5; 3; 5]%Z [5; 3]%Z [0; 1; 0] [2; 1].
Proof.
  constructor.
  - intro x. cbn. intuition.
  - intros i j x x' k k' Hi Hj (F1 & N1) (F2 & N2) L. destruct i as [|[|i]]; destruct j as [|[|j]]; try lia; try (destruct j; discriminate). injection Hi as <-. injection Hj as <-.
    destruct k' as [|[|[|k']]]; try discriminate; [|destruct k'; discriminate]. destruct k as [|[|[|k]]]; try discriminate; [lia| |destruct k; discriminate]. exfalso. apply N1. now left.
  - split; [reflexivity|]. intros [|[|[|p]]] x k H1 H2; try (destruct p; discriminate); injection H1 as <-; injection H2 as <-; reflexivity.
  - split; [reflexivity|]. intros [|[|i]] x c H1 H2; try (destruct i; discriminate); injection H1 as <-; injection H2 as <-.
    + exists [0; 2]. split; [|reflexivity]. split; [repeat constructor; cbn; intuition lia|]. intros [|[|[|[|k]]]]; cbn; intuition (lia || discriminate || auto).
    + exists [1]. split; [|reflexivity]. split; [repeat constructor; cbn; intuition lia|]. intros [|[|[|[|k]]]]; cbn; intuition (lia || discriminate || auto).
Qed.

Print Assumptions C75_dynamic_partition.
Print Assumptions C75_dynamic_partition_accepted.
Print Assumptions C75_dynamic_stitch_partial.
Print Assumptions C75_dynamic_stitch_duplicates_refuted.
Print Assumptions C75_dynamic_stitch_gap_refuted.
Print Assumptions C75_bincount_partial.
Print Assumptions C75_bincount_matrix_refuted.
Print Assumptions C75_dense_bincount_unknown_rank_refuted.
Print Assumptions C75_bincount_accepted.
Print Assumptions C75_unique.
Print Assumptions C75_unique_double_refuted.
