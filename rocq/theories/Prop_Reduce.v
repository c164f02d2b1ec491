(** C72: Sum, Mean, Max, Min, Prod, ArgMax, ArgMin, All and Any become ONNX graphs with the same value. *)
From Coq Require Import List Arith ZArith Bool String Lia Permutation Reals.
From Flocq Require Import Core BinarySingleNaN.
From Verif Require Import Tensor OnnxSpec ReduceSpec ReduceModel ReduceProofs TOpsProofs2.
From Verif Require ElemSpec ElemModel ElemFloat RangeSpec.
Import ListNotations.
Local Open Scope list_scope.
Local Notation length := List.length.

(** what the converter knows of the tensor x and of the axes is right *)
Definition known {A} (x : tensor A) (a : axes_tensor) (rank : option nat) (axes : option (list Z)) (axes_rank : option nat) : Prop :=
  (rank = None \/ rank = Some (length (shape x))) /\ (axes = None \/ axes = Some (data (a_value a))) /\ (axes_rank = None \/ axes_rank = Some (length (shape (a_value a)))).
(** For all reductions R that are the same in TensorFlow and in ONNX and that do not change a single element.  Missing: an
    empty constant list of axes where the axes are an attribute. *)
Theorem C72_reduce_partial :
  forall A (tf_R onnx_R : string -> list A -> A -> Prop) opset tf rank axes a axes_rank keep n x y0,
    (forall t o, In (t, o) same_reduction -> forall l v, tf_R t l v <-> onnx_R o l v) ->
    (forall t o v w, In (t, o) same_reduction -> (onnx_R o [v] w <-> v = w)) ->
    axes_ok a -> known x a rank axes axes_rank ->
    (opset < 18 -> (opset < 13 \/ tf <> "Sum"%string) -> data (a_value a) <> []) ->
    reduce opset tf rank axes (a_type a) axes_rank keep = Some n ->
    tf_reduce (tf_R tf) a keep x y0 ->
    forall y, onnx_reduce opset (onnx_R (r_op n)) n a x y <-> tf_reduce (tf_R tf) a keep x y.
Proof.
  intros A tf_R onnx_R opset tf rank axes a axes_rank keep n x y0 HR H1 Ha (K1 & K2 & K3) Hn H (ax & E & Nd & _) y.
  destruct (onnx_name tf) as [op|] eqn:Eop; [|unfold reduce in H; rewrite Eop in H; discriminate]. destruct (onnx_name_ok _ _ Eop) as [Os _].
  assert (Eo : r_op n = op).
  { assert (G := reduce_sound opset (onnx_R op) tf rank axes a axes_rank keep n x y ax (fun v w => H1 tf op v w Os) Ha K1 K2 K3 Hn E Nd H). destruct G as [_ G]. congruence. }
  rewrite Eo. destruct (reduce_sound opset (onnx_R op) tf rank axes a axes_rank keep n x y ax (fun v w => H1 tf op v w Os) Ha K1 K2 K3 Hn E Nd H) as [G _]. rewrite G.
  assert (Same : reduces (onnx_R op) ax keep x y <-> reduces (tf_R tf) ax keep x y).
  { split; intros (W1 & W2 & S1 & G1); (split; [auto|]; split; [auto|]; split; [auto|]); intros ix Hi; destruct (G1 ix Hi) as (vs & v & L & Ev & Rv); exists vs, v; (split; [auto|]; split; [auto|]; now apply (HR tf op Os)). }
  rewrite Same. unfold tf_reduce. split.
  - intro. exists ax. auto.
  - intros (ax' & E' & _ & G'). congruence.
Qed.
(** Accepted: always if the axes are a constant and, before opset 11, the rank is known or no axis is negative; from opset
    13 (Sum) or 18 on always. *)
Theorem C72_reduce_accepted :
  forall opset tf rank axes axes_type axes_rank keep, In tf (map fst same_reduction) ->
    (18 <= opset \/ (13 <= opset /\ tf = "Sum"%string) \/ exists l, axes = Some l /\ (11 <= opset \/ rank <> None \/ Forall (fun z => (0 <= z)%Z) l)) ->
    exists n, reduce opset tf rank axes axes_type axes_rank keep = Some n.
Proof.
  intros opset tf rank axes axes_type axes_rank keep Ht H. unfold reduce. assert (E : exists op, onnx_name tf = Some op /\ (String.eqb op "ReduceSum" = String.eqb tf "Sum")).
  { cbn in Ht. repeat (destruct Ht as [<-|Ht]; [eexists; split; reflexivity|]). destruct Ht. }
  destruct E as (op & -> & Es). assert (R1 : (exists l, axes = Some l /\ (11 <= opset \/ rank <> None \/ Forall (fun z => (0 <= z)%Z) l)) -> exists n, reduce_1 opset op rank axes keep = Some n).
  { intros (l & -> & C). unfold reduce_1. destruct rank as [r|]; [eauto|]. destruct (existsb negative l && Nat.ltb opset 11) eqn:B; [|eauto]. apply andb_true_iff in B. destruct B as [B1 B2]. apply Nat.ltb_lt in B2.
    destruct C as [C|[C|C]]; [lia|congruence|]. exfalso. apply existsb_exists in B1. destruct B1 as (z & Z1 & Z2). rewrite Forall_forall in C. specialize (C z Z1). unfold negative in Z2. apply Z.ltb_lt in Z2. lia. }
  destruct (Nat.ltb_spec opset 13); [apply R1; destruct H as [H|[[H _]|H]]; [lia|lia|auto]|]. destruct (Nat.ltb_spec opset 18); [|eauto]. rewrite Es. destruct (String.eqb_spec tf "Sum"); [eauto|].
  apply R1. destruct H as [H|[[_ H]|H]]; [lia|contradiction|auto].
Qed.
(** ArgMax and ArgMin, for every comparison, with result int32 or int64.  Missing: a negative axis with unknown rank before
    opset 11; results int16 and uint16. *)
Theorem C72_arg_partial :
  forall A (better : string -> A -> A -> bool) opset tf rank axis t n x y0,
    (rank = None \/ rank = Some (length (shape x))) -> (rank = None -> (axis < 0)%Z -> 11 <= opset) ->
    t = ElemSpec.I32 \/ t = ElemSpec.I64 -> Forall (fun d => (Z.of_nat d <= 2 ^ 31)%Z) (shape x) ->
    arg tf rank (Some axis) t = Some n -> tf_arg (better tf) axis t x y0 ->
    forall y, onnx_arg opset (better (g_op n)) n x y <-> tf_arg (better tf) axis t x y.
Proof.
  intros A better opset tf rank axis t n x y0 Hr Hn Ht Hd H (ax & E & _) y. injection H as <-. cbn [g_op]. set (z := if negative axis then _ else axis).
  assert (La := norm_axis_lt _ _ _ E).
  assert (Ez : norm_axis (length (shape x)) z = Some ax /\ (opset < 11 -> (0 <= z)%Z)).
  { unfold z, negative. destruct (Z.ltb_spec axis 0).
    - destruct Hr as [-> | ->].
      + replace (Z.of_nat 0 + axis)%Z with axis by lia. split; [auto|]. intro. specialize (Hn eq_refl H). lia.
      + split; [|intros _]; unfold norm_axis in *; destruct (Z.leb_spec 0 axis); try lia; destruct (Z.leb_spec (- Z.of_nat (length (shape x))) axis); try discriminate; [|lia].
        destruct (Z.leb_spec 0 (Z.of_nat (length (shape x)) + axis)); [|lia]. destruct (Z.ltb_spec (Z.of_nat (length (shape x)) + axis) (Z.of_nat (length (shape x)))); [|lia]. rewrite <- E. do 2 f_equal. lia.
    - split; [auto|]. intro. lia. }
  destruct Ez as [Ez Ep]. clearbody z. unfold onnx_arg, tf_arg. cbn [g_axis g_keep g_cast].
  set (R := fun (t0 : ElemSpec.ity) => fun (vs : list A) (v : ElemSpec.ity * Z) => exists i, first_best (better tf) vs i /\ v = (t0, Z.of_nat i)).
  assert (Main : (exists w, reduces (R ElemSpec.I64) [ax] false x w /\ match (match t with ElemSpec.I32 => Some ElemSpec.I32 | _ => None end) with None => y = w | Some t => each (fun v => Some (t, ElemSpec.wrap t (snd v))) w y end) <-> reduces (R t) [ax] false x y).
  { destruct Ht as [-> | ->].
    - apply reduces_behind. intros ix vs w Hi L. assert (Len : length vs <= nth ax (shape x) 0).
      { rewrite <- (map_length (@Some A)), <- L. apply lane_one; auto. apply inb_length in Hi. rewrite Hi. unfold kept. now rewrite map_length, seq_length. }
      assert (Hm : (Z.of_nat (length vs) <= 2 ^ 31)%Z). { rewrite Forall_forall in Hd. specialize (Hd (nth ax (shape x) 0) (nth_In _ _ La)). lia. }
      assert (Hw : forall i, first_best (better tf) vs i -> ElemSpec.wrap ElemSpec.I32 (Z.of_nat i) = Z.of_nat i).
      { intros i (v & Ev & _). assert (i < length vs) by (apply nth_error_Some; congruence). unfold ElemSpec.wrap, ElemSpec.lo. cbn [ElemSpec.signed ElemSpec.bits]. rewrite Z.mod_small; lia. }
      split.
      + intros (i & F & ->). exists (ElemSpec.I64, Z.of_nat i). split; [exists i; auto|]. cbn [snd]. now rewrite Hw.
      + intros (v & (i & F & ->) & G). cbn [snd] in G. rewrite Hw in G by auto. injection G as <-. exists i. auto.
    - split; [intros (w & Hw & ->); auto|eauto]. }
  split.
  - intros (_ & ax' & w & E' & G). assert (ax' = ax) by congruence. subst ax'. exists ax. split; [auto|]. apply Main. now exists w.
  - intros (ax' & E' & G). assert (ax' = ax) by congruence. subst ax'. split; [auto|]. apply Main in G. destruct G as (w & G). exists ax, w. auto.
Qed.
(** ** All and Any *)
Definition float_of (v : option ElemSpec.val) : option f32 := match v with Some w => ElemSpec.as_fl ElemSpec.F32 w | None => None end.
Definition bool_of (v : option ElemSpec.val) : option bool := match v with Some (ElemSpec.VB b) => Some b | _ => None end.
(** the nodes before the reduction, the reduction in float32 (the sum in any order), the nodes behind it *)
Definition aa_run (opset : nat) (g : all_any_graph) (a : axes_tensor) (x y : tensor bool) : Prop :=
  exists f s,
    each (fun b => float_of (RangeSpec.scalar_result opset (aa_before g) [ElemSpec.VB b])) x f /\
    onnx_reduce opset (if String.eqb (r_op (aa_reduce g)) "ReduceSum" then sum_of else min_of) (aa_reduce g) a f s /\
    each (fun v => bool_of (RangeSpec.scalar_result opset (aa_behind g) [ElemSpec.VF ElemSpec.F32 v])) s y.
Definition all_or_any (all : bool) (l : list bool) (b : bool) : Prop := b = true <-> if all then ~ In false l else In true l.
(** Missing: before opset 13 an empty constant list of axes, and All over a dimension of size 0; from opset 13 on a scalar of
    axes whose rank is not recorded. *)
Theorem C72_all_any_partial :
  forall opset all rank axes a axes_rank keep g x y0,
    7 <= opset -> axes_ok a -> known x a rank axes axes_rank ->
    (opset < 13 -> data (a_value a) <> []) ->
    (opset < 13 -> all = true -> forall z k, In z (data (a_value a)) -> norm_axis (length (shape x)) z = Some k -> nth k (shape x) 0 <> 0) ->
    (13 <= opset -> shape (a_value a) = [] -> axes_rank <> None) ->
    all_any opset all rank axes (a_type a) axes_rank keep = Some g ->
    tf_reduce (all_or_any all) a keep x y0 ->
    forall y, aa_run opset g a x y <-> tf_reduce (all_or_any all) a keep x y.
Proof.
  intros opset all rank axes a axes_rank keep g x y0 O7 Ha (K1 & K2 & K3) He Hz Hs H (ax & E & Nd & Wx & _) y.
  assert (Main : forall is_not op R, aa_graph (to_float is_not) (aa_reduce g) (greater_zero is_not) = Some g -> r_op (aa_reduce g) = op ->
    R = (if String.eqb op "ReduceSum" then sum_of else min_of) -> (forall f s, shape f = shape x -> (onnx_reduce opset R (aa_reduce g) a f s <-> reduces R ax keep f s)) ->
    (forall bs v, R (map bit (map (xorb is_not) bs)) v -> all_or_any all bs (xorb is_not (Bltb ElemSpec.fzero v))) ->
    (forall ix bs, inb ix (kept ax (shape x)) -> lane x ax ix = map Some bs -> exists v, R (map bit (map (xorb is_not) bs)) v) ->
    (aa_run opset g a x y <-> reduces (all_or_any all) ax keep x y)).
  { intros is_not op R Hg Eop ER Hon Ht Hex. destruct (built_before is_not) as (p & Ep & Hp). destruct (built_behind is_not) as (q & Eq & Hq).
    unfold aa_graph in Hg. rewrite Ep, Eq in Hg. injection Hg as <-. cbn [aa_reduce] in *. unfold aa_run. cbn [aa_before aa_reduce aa_behind]. rewrite Eop, <- ER.
    rewrite <- (reduces_behind (fun vs v => R (map bit (map (xorb is_not) vs)) v) (all_or_any all) (fun v => Some (xorb is_not (Bltb ElemSpec.fzero v)))).
    - assert (B := fun s => reduces_before (fun b => bit (xorb is_not b)) R ax keep x s). split.
      + intros (f & s & E1 & E2 & E3). apply (each_ext _ (fun b => Some (bit (xorb is_not b)))) in E1; [|intro; unfold float_of; now rewrite Hp]. apply (each_ext _ (fun v => Some (xorb is_not (Bltb ElemSpec.fzero v)))) in E3; [|intro; unfold bool_of; now rewrite Hq].
        exists s. split; [|exact E3]. assert (S1 : shape f = shape x) by (destruct E1; auto). apply Hon in E2; auto. assert (G := proj1 (B s) (ex_intro _ f (conj E1 E2))).
        revert G. apply reduces_ext. intros vs v. now rewrite map_map.
      + intros (s & E2 & E3). assert (G : reduces (fun vs => R (map (fun b => bit (xorb is_not b)) vs)) ax keep x s) by (revert E2; apply reduces_ext; intros vs v; now rewrite map_map).
        apply (proj2 (B s)) in G. destruct G as (f & E1 & G). exists f, s. assert (S1 : shape f = shape x) by (destruct E1; auto). split; [|split].
        * revert E1. apply each_ext. intro. unfold float_of. now rewrite Hp.
        * now apply Hon.
        * revert E3. apply each_ext. intro. unfold bool_of. now rewrite Hq.
    - intros ix vs w Hi L. split.
      + intro T. destruct (Hex ix vs Hi L) as [v Rv]. exists v. split; [auto|]. f_equal. specialize (Ht vs v Rv). unfold all_or_any in *. destruct w, (xorb is_not (Bltb ElemSpec.fzero v)); auto; [destruct Ht, T; intuition|destruct Ht, T; intuition].
      + intros (v & Rv & G). injection G as <-. now apply Ht. }
  assert (Fin : (aa_run opset g a x y <-> reduces (all_or_any all) ax keep x y) -> (aa_run opset g a x y <-> tf_reduce (all_or_any all) a keep x y)).
  { intros ->. unfold tf_reduce. split; [intro; exists ax; auto|]. intros (ax' & E' & _ & G). congruence. }
  apply Fin. clear Fin. unfold all_any in H. destruct (Nat.ltb_spec opset 13) as [O|O].
  - unfold all_any_6 in H. destruct K2 as [-> | ->]; [discriminate|]. specialize (He O). set (l' := if Nat.ltb opset 11 then _ else _) in H. destruct (Nat.ltb opset 11 && existsb negative l') eqn:C; [discriminate|].
    assert (El : norm_axes (length (shape x)) l' = Some ax /\ l' <> [] /\ (opset < 11 -> Forall (fun z => (0 <= z)%Z) l')).
    { split; [|split].
      - unfold l'. destruct (Nat.ltb opset 11); [|auto]. destruct K1 as [-> | ->]; [auto|]. now apply norm_shift.
      - unfold l'. destruct (Nat.ltb opset 11); [|auto]. destruct K1 as [-> | ->]; [auto|]. destruct (norm_shift _ _ _ E) as (_ & _ & G). auto.
      - intro O'. apply no_negative. apply Nat.ltb_lt in O'. rewrite O' in C. exact C. }
    destruct El as (El & Ln & Lp). clearbody l'. destruct all.
    + assert (Eg : aa_reduce g = ReduceNode "ReduceMin" (AxAttr l') keep false) by (unfold aa_graph in H; destruct (built_before false) as (p & Ep & _); destruct (built_behind false) as (q & Eq & _); rewrite Ep, Eq in H; now injection H as <-).
      apply (Main false "ReduceMin"%string min_of); [now rewrite Eg|now rewrite Eg|reflexivity| | |].
      * intros f s Sf. rewrite Eg. apply node_attr; auto; [cbn; tauto|cbn; lia|now rewrite Sf].
      * intros bs v Rv. rewrite (map_ext (xorb false) (fun b => b)) in Rv by (intros []; reflexivity). rewrite map_id in Rv. destruct bs as [|b bs]; [destruct Rv|]. assert (Ev := min_tree_state _ _ Rv (b :: bs) eq_refl).
        rewrite Ev. unfold all_or_any. rewrite bit_pos, xorb_false_l. apply forallb_in.
      * intros ix bs Hi L. rewrite (map_ext (xorb false) (fun b => b)) by (intros []; reflexivity). rewrite map_id. destruct bs as [|b bs].
        { exfalso. apply (lane_nonempty x ax ix) in L; auto. intros k Hk. destruct (norm_axes_in _ _ _ _ E Hk) as (z & Z1 & Z2). now apply (Hz O eq_refl z k). }
        cbn [map]. unfold min_of. apply tree_exists. discriminate.
    + assert (Eg : aa_reduce g = ReduceNode "ReduceSum" (AxAttr l') keep false).
      { unfold make_reduce_sum in H. apply Nat.ltb_lt in O. rewrite O in H. unfold aa_graph in H; destruct (built_before false) as (p & Ep & _); destruct (built_behind false) as (q & Eq & _); rewrite Ep, Eq in H; now injection H as <-. }
      apply (Main false "ReduceSum"%string sum_of); [unfold make_reduce_sum in H; apply Nat.ltb_lt in O; rewrite O in H; now rewrite Eg|now rewrite Eg|reflexivity| | |].
      * intros f s Sf. rewrite Eg. apply node_attr; auto; [cbn; tauto|now rewrite Sf].
      * intros bs v Rv. rewrite (map_ext (xorb false) (fun b => b)) in Rv by (intros []; reflexivity). rewrite map_id in Rv. apply sum_state in Rv. unfold all_or_any. rewrite (state_pos _ _ Rv), xorb_false_l. apply existsb_in.
      * intros ix bs Hi L. apply sum_exists.
  - unfold all_any_13 in H. set (steps := (match axes_rank with Some 0 => [UnsqueezeZero] | _ => [] end ++ _)) in H.
    assert (Eg : aa_reduce g = ReduceNode "ReduceSum" (AxInput steps) keep true).
    { unfold make_reduce_sum in H. apply Nat.ltb_ge in O. rewrite O in H. unfold aa_graph in H. destruct (built_before all) as (p & Ep & _); destruct (built_behind all) as (q & Eq & _); rewrite Ep, Eq in H; now injection H as <-. }
    assert (St : a_type (axes_run a steps) = ElemSpec.I64 /\ length (shape (a_value (axes_run a steps))) = 1).
    { destruct Ha as (Ht & W & L). specialize (Hs O). unfold steps. destruct a as [t [sh d]]. cbn [a_type a_value shape] in *.
      destruct sh as [|n [|m sh]]; cbn in L; [| |lia].
      - destruct K3 as [-> | ->]; [exfalso; now apply Hs|]. destruct Ht as [-> | ->]; cbn; auto.
      - destruct K3 as [-> | ->]; destruct Ht as [-> | ->]; cbn; auto. }
    destruct St as [St1 St2].
    apply (Main all "ReduceSum"%string sum_of); [unfold make_reduce_sum in H; apply Nat.ltb_ge in O; rewrite O in H; now rewrite Eg|now rewrite Eg|reflexivity| | |].
    + intros f s Sf. rewrite Eg. apply node_input; auto; [intros; apply sum_one|cbn; tauto|now rewrite Sf].
    + intros bs v Rv. apply sum_state in Rv. unfold all_or_any. rewrite (state_pos _ _ Rv). destruct all.
      * rewrite existsb_map_negb, xorb_true_l, negb_involutive. apply forallb_in.
      * rewrite (map_ext (xorb false) (fun b => b)) by (intros []; reflexivity). rewrite map_id, xorb_false_l. apply existsb_in.
    + intros ix bs Hi L. apply sum_exists.
Qed.
(** Accepted: from opset 13 on always, before if the axes are a constant and, before opset 11, can be made non-negative. *)
Theorem C72_all_any_accepted :
  forall opset all rank axes axes_type axes_rank keep,
    (13 <= opset \/ exists l, axes = Some l /\ (11 <= opset \/ (rank = None /\ Forall (fun z => (0 <= z)%Z) l) \/ exists r ax, rank = Some r /\ norm_axes r l = Some ax)) ->
    exists g, all_any opset all rank axes axes_type axes_rank keep = Some g.
Proof.
  intros opset all rank axes axes_type axes_rank keep H.
  assert (B : forall is_not r, exists g, aa_graph (to_float is_not) r (greater_zero is_not) = Some g).
  { intros is_not r. unfold aa_graph. destruct (built_before is_not) as (p & -> & _). destruct (built_behind is_not) as (q & -> & _). eauto. }
  unfold all_any. destruct (Nat.ltb_spec opset 13); [|apply B]. destruct H as [H|(l & -> & H)]; [lia|]. unfold all_any_6. destruct (Nat.ltb_spec opset 11); cbn [andb]; [|apply B].
  assert (E : existsb negative match rank with Some r => shift_axes r l | None => l end = false).
  { assert (G : forall m, Forall (fun z => (0 <= z)%Z) m -> existsb negative m = false) by (induction 1; cbn; auto; unfold negative at 1; destruct (Z.ltb_spec x 0); [lia|auto]).
    destruct H as [H|[[-> H]|(r & ax & -> & H)]]; [lia|auto|]. apply G. now apply (norm_shift _ _ _ H). }
  rewrite E. apply B.
Qed.
(** ** what the converter accepts and gets wrong *)
(** All over a dimension of size 0 before opset 13: TensorFlow gives true, ReduceMin of nothing is not defined. *)
Theorem C72_all_of_nothing_refuted :
  exists opset a x y g, axes_ok a /\ known x a (Some 1) (Some (data (a_value a))) (Some 1) /\
    all_any opset true (Some 1) (Some (data (a_value a))) (a_type a) (Some 1) false = Some g /\
    tf_reduce (all_or_any true) a false x y /\ forall z, ~ aa_run opset g a x z.
Proof.
  exists 12, (AxesTensor ElemSpec.I32 (Tensor [1] [0%Z])), (Tensor [0] []), (Tensor [] [true]). eexists. split; [|split; [|split; [|split]]].
  - split; [auto|]. split; [reflexivity|cbn; lia].
  - split; [auto|]. auto.
  - cbv -[ElemSpec.fzero]. reflexivity.
  - exists [0]. split; [reflexivity|]. split; [apply NoDup_cons; [intros []|constructor]|]. split; [reflexivity|]. split; [reflexivity|]. split; [reflexivity|].
    intros [|n [|m ix]] Hi; cbn in Hi; try tauto. exists [], true. assert (n = 0) by lia. subst n. split; [reflexivity|]. split; [reflexivity|]. split; auto.
  - intros z (f & s & E1 & (_ & _ & _ & _ & _ & ax & Ea & _ & Hs) & _). destruct E1 as (S1 & _). cbn in S1. cbn [r_keep aa_reduce] in Hs. rewrite S1 in Ea. cbn in Ea. injection Ea as <-. destruct Hs as (_ & _ & _ & G). rewrite S1 in G.
    destruct (G [0]) as (vs & v & L & _ & Rv); [cbn; lia|]. unfold lane in L. rewrite S1 in L. cbn in L. destruct vs; [|discriminate]. exact Rv.
Qed.
(** A scalar of axes whose rank is not recorded, from opset 13 on: the axes of ReduceSum have to be a vector. *)
Theorem C72_scalar_axes_refuted :
  exists opset a x y g, axes_ok a /\ known x a None None None /\
    all_any opset false None None (a_type a) None false = Some g /\
    tf_reduce (all_or_any false) a false x y /\ forall z, ~ aa_run opset g a x z.
Proof.
  exists 13, (AxesTensor ElemSpec.I64 (Tensor [] [0%Z])), (Tensor [1] [true]), (Tensor [] [true]). eexists. split; [|split; [|split; [|split]]].
  - split; [auto|]. split; [reflexivity|cbn; lia].
  - split; [auto|]. auto.
  - cbv -[ElemSpec.fzero]. reflexivity.
  - exists [0]. split; [reflexivity|]. split; [apply NoDup_cons; [intros []|constructor]|]. split; [reflexivity|]. split; [reflexivity|]. split; [reflexivity|].
    intros [|n [|m ix]] Hi; cbn in Hi; try tauto. exists [true], true. assert (n = 0) by lia. subst n. split; [reflexivity|]. split; [reflexivity|]. split; cbn; auto.
  - intros z (f & s & _ & (_ & _ & _ & L & _) & _). discriminate L.
Qed.
(** ArgMax along the last axis of a tensor of unknown rank before opset 11: the axis stays negative. *)
Theorem C72_negative_axis_refuted :
  exists opset (x : tensor Z) y n, arg "ArgMax" None (Some (-1)%Z) ElemSpec.I64 = Some n /\ tf_arg (fun a b => Z.ltb b a) (-1) ElemSpec.I64 x y /\
    forall z, ~ onnx_arg opset (fun a b => Z.ltb b a) n x z.
Proof.
  exists 10, (Tensor [3] [5; 7; 7]%Z), (Tensor [] [(ElemSpec.I64, 1%Z)]). eexists. split; [reflexivity|]. split.
  - exists 0. split; [reflexivity|]. split; [reflexivity|]. split; [reflexivity|]. split; [reflexivity|].
    intros [|n [|m ix]] Hi; cbn in Hi; try tauto. exists [5; 7; 7]%Z, (ElemSpec.I64, 1%Z). split; [reflexivity|]. split; [reflexivity|]. exists 1. split; [|reflexivity].
    exists 7%Z. split; [reflexivity|]. intros [|[|[|j]]] w Hw; cbn in Hw; [| | |destruct j; discriminate]; injection Hw as <-; (split; [reflexivity|intro; try lia; reflexivity]).
  - intros z (H & _). specialize (H ltac:(lia)). cbn in H. lia.
Qed.
(** ArgMax with result int16: the ONNX operator gives int64 and there is no Cast. *)
Theorem C72_int16_refuted :
  exists opset (x : tensor Z) y n, arg "ArgMax" (Some 1) (Some 0%Z) ElemSpec.I16 = Some n /\ tf_arg (fun a b => Z.ltb b a) 0 ElemSpec.I16 x y /\
    ~ onnx_arg opset (fun a b => Z.ltb b a) n x y.
Proof.
  exists 12, (Tensor [1] [5]%Z), (Tensor [] [(ElemSpec.I16, 0%Z)]). eexists. split; [reflexivity|]. split.
  - exists 0. split; [reflexivity|]. split; [reflexivity|]. split; [reflexivity|]. split; [reflexivity|].
    intros [|n [|m ix]] Hi; cbn in Hi; try tauto. exists [5]%Z, (ElemSpec.I16, 0%Z). split; [reflexivity|]. split; [reflexivity|]. exists 0. split; [|reflexivity].
    exists 5%Z. split; [reflexivity|]. intros [|j] w Hw; cbn in Hw; [injection Hw as <-; split; [reflexivity|lia]|destruct j; discriminate].
  - intros (_ & ax & z & E & (_ & _ & _ & G) & Ey). cbn in Ey. subst z. cbn in E. injection E as <-. destruct (G [0]) as (vs & v & _ & E2 & (i & _ & ->)); [cbn; lia|]. cbn in E2. discriminate E2.
Qed.
(** ** cases that meet the hypotheses *)
Definition x23 : tensor Z := Tensor [2; 3] [1; 2; 3; 4; 5; 6]%Z.
Definition sum_z (l : list Z) (v : Z) : Prop := v = fold_right Z.add 0%Z l.
Example sum_last : tf_reduce sum_z (AxesTensor ElemSpec.I32 (Tensor [] [-1]%Z)) true x23 (Tensor [2; 1] [6; 15]%Z).
Proof.
  exists [1]. split; [reflexivity|]. split; [apply NoDup_cons; [intros []|constructor]|]. split; [reflexivity|]. split; [reflexivity|]. split; [reflexivity|].
  intros [|n [|n0 [|m ix]]] Hi; cbn in Hi; try tauto. assert (n0 = 0) by lia. subst n0. destruct n as [|[|n]]; [| |lia]; [exists [1; 2; 3]%Z, 6%Z|exists [4; 5; 6]%Z, 15%Z]; (split; [reflexivity|split; reflexivity]).
Qed.
Example sum_last_node : reduce 12 "Sum" (Some 2) (Some [-1]%Z) ElemSpec.I32 (Some 0) true = Some (ReduceNode "ReduceSum" (AxAttr [1%Z]) true false)
  /\ reduce 13 "Sum" None None ElemSpec.I32 (Some 0) true = Some (ReduceNode "ReduceSum" (AxInput [CastI64; ReshapeFlat]) true true).
Proof. split; reflexivity. Qed.
Example any_rows : tf_reduce (all_or_any false) (AxesTensor ElemSpec.I64 (Tensor [1] [1]%Z)) false (Tensor [2; 2] [false; true; false; false]) (Tensor [2] [true; false]).
Proof.
  exists [1]. split; [reflexivity|]. split; [apply NoDup_cons; [intros []|constructor]|]. split; [reflexivity|]. split; [reflexivity|]. split; [reflexivity|].
  intros [|n [|n0 [|m ix]]] Hi; cbn in Hi; try tauto. assert (n0 = 0) by lia. subst n0. destruct n as [|[|n]]; [| |lia].
  - exists [false; true], true. split; [reflexivity|]. split; [reflexivity|]. split; cbn; auto.
  - exists [false; false], false. split; [reflexivity|]. split; [reflexivity|]. split; cbn; [discriminate|]. intros [F|[F|[]]]; discriminate.
Qed.

Print Assumptions C72_reduce_partial.
Print Assumptions C72_reduce_accepted.
Print Assumptions C72_arg_partial.
Print Assumptions C72_all_any_partial.
Print Assumptions C72_all_any_accepted.
Print Assumptions C72_all_of_nothing_refuted.
Print Assumptions C72_scalar_axes_refuted.
Print Assumptions C72_negative_axis_refuted.
Print Assumptions C72_int16_refuted.
