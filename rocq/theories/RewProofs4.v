(** C58: ThresholdedRelu. *)
From Coq Require Import String List Bool Arith Lia ZArith Reals Lra.
From Verif Require Import FGraph FGraphProofs FGraphSpec IdentityModel IdentityProofs ApplyOptProofs RewriteProofs Tensor OnnxSpec PushSpec MatchModel MatchSpec MatchProofs
  RewModel RewSpec RewMatch RewValues RewProofs RewProofs2 RewProofs3 DetProofs.
Import ListNotations.
Local Open Scope string_scope. Local Open Scope list_scope. Local Open Scope nat_scope.

Lemma threshold_match ns o m : (exists bs, fits (view ns) true threshold_pattern (Some o) None bs /\ m = fold_left add_binding bs (MatchResult [] [])) ->
  exists ml ca gr cn k b c x1 x2, nth_error ns o = Some ml /\ op_of ns m "mul" = Some ml /\ op_of ns m "cast" = Some ca /\ op_of ns m "theta" = Some cn /\
    tensor_of m "greater_input" = Some x1 /\ tensor_of m "mul_input" = Some x2 /\
    f_op ml = "Mul" /\ pair (f_in ml) k x2 /\ In ca ns /\ f_op ca = "Cast" /\ In k (f_out ca) /\ f_in ca = [b] /\ In gr ns /\ f_op gr = "Greater" /\ In b (f_out gr) /\
    pair (f_in gr) x1 c /\ In cn ns /\ f_op cn = "Const" /\ In c (f_out cn).
Proof.
  intros (bs & F & ->). apply fits2_inv in F; [|discriminate]. destruct F as (o0 & x & y & b1 & b2 & Eo & Ty & Sh & F1 & F2). injection Eo as <-.
  apply fits_star_inv in F2. apply fits1_inv in F1; [|discriminate]. destruct F1 as (o1 & z & b5 & Eo1 & Ty1 & Sh1 & F5 & E5).
  apply fits2_inv in F5; [|discriminate]. destruct F5 as (o3 & u & v & b3 & b4 & Eo3 & Ty3 & Sh3 & F3 & F4).
  apply fits_star_inv in F3. apply fits_leaf_inv in F4; [|discriminate]. destruct F4 as (F4 & o2 & Eo2 & Ty2).
  destruct (view_inv ns o "Mul" ltac:(not_in) Ty) as (ml & N0 & T0 & G0). destruct (view_inv ns o1 "Cast" ltac:(not_in) Ty1) as (ca & N1 & T1 & G1).
  destruct (view_inv ns o3 "Greater" ltac:(not_in) Ty3) as (gr & N3 & T3 & G3). destruct (view_inv ns o2 "Const" ltac:(not_in) Ty2) as (cn & N2 & T2 & G2).
  destruct T0 as [T0|[]]. destruct T1 as [T1|[]]. destruct T2 as [T2|[]]. destruct T3 as [T3|[]].
  exists ml, ca, gr, cn, (fst x), (fst z), (fst v), (fst u), (fst y).
  assert (I1 : pair (f_in ml) (fst x) (fst y) /\ o1 = index_of (fst x) ns).
  { destruct Sh as [[Sh _]|[Sh _]]; rewrite G0 in Sh; apply view_in2 in Sh; destruct Sh as [E K]; (split; [rewrite E; unfold pair; auto|]); apply (K o1); exact Eo1. }
  assert (I2 : f_in ca = [fst z] /\ o3 = index_of (fst z) ns).
  { rewrite G1 in Sh1; apply view_in1 in Sh1; destruct Sh1 as [E K]; split; auto. }
  assert (I3 : pair (f_in gr) (fst u) (fst v) /\ o2 = index_of (fst v) ns).
  { destruct Sh3 as [[Sh3 _]|[Sh3 _]]; rewrite G3 in Sh3; apply view_in2 in Sh3; destruct Sh3 as [E K]; (split; [rewrite E; unfold pair; auto|]); apply (K o2); exact Eo2. }
  destruct I1 as [I1 J1]. destruct I2 as [I2 J2]. destruct I3 as [I3 J3].
  assert (K : op_of ns (fold_left add_binding bs (MatchResult [] [])) "mul" = nth_error ns o /\ op_of ns (fold_left add_binding bs (MatchResult [] [])) "cast" = nth_error ns o1 /\
     op_of ns (fold_left add_binding bs (MatchResult [] [])) "theta" = nth_error ns o2 /\ tensor_of (fold_left add_binding bs (MatchResult [] [])) "greater_input" = Some (fst u) /\
     tensor_of (fold_left add_binding bs (MatchResult [] [])) "mul_input" = Some (fst y)).
  { destruct Sh as [[_ ->]|[_ ->]], Sh3 as [[_ ->]|[_ ->]]; subst b1 b2 b3 b4; rewrite ?Eo2; cbn; auto 6. }
  destruct K as (K1 & K2 & K3 & K4 & K5). rewrite K1, K2, K3, K4, K5. repeat (split; [auto; fail|]).
  split; [exact (nth_error_In _ _ N1)|]. split; [auto|]. split; [apply (index_out _ ns); rewrite <- J1; exact N1|]. split; [exact I2|].
  split; [exact (nth_error_In _ _ N3)|]. split; [auto|]. split; [apply (index_out _ ns); rewrite <- J2; exact N3|]. split; [exact I3|].
  split; [exact (nth_error_In _ _ N2)|]. split; [auto|]. apply (index_out _ ns). rewrite <- J3. exact N2.
Qed.

Section Threshold.
Variable op_rel : string -> string -> list (string * attr) -> nat -> list (tensor R) -> list (list (tensor R) -> list (tensor R) -> Prop) -> list (tensor R) -> Prop.
Hypothesis OE : op_ext op_rel.
Variable cval : nat -> tensor R.
Hypothesis CW : forall id, wf (cval id).
Hypothesis M : relu_means op_rel cval.
Variable name : nat -> string.
Hypothesis name_inj : forall i j, name i = name j -> i = j.
Variables (gi go : list string) (s0 : state) (rk0 : string -> nat).
Let ns0 := s_nodes s0.
Let graph_of (s : state) : fgraph := FGraph (s_nodes s) gi go.
Hypothesis W0 : WW rk0 (graph_of s0).
Hypothesis PL : plain ["Mul"; "Cast"; "Greater"; "Const"] ns0.
Hypothesis SC : forall x k y id, threshold_group false ns0 x k y id -> shape (cval id) = [].
Hypothesis NS : forall x k y id, ~ threshold_group true ns0 x k y id.
Hypothesis CH : forall x k y id x' k' y' id', threshold_group false ns0 x k y id -> threshold_group false ns0 x' k' y' id' -> x <> y'.
Hypothesis OUT : forall x k y id, threshold_group false ns0 x k y id -> ~ In y go /\ ~ In k go.

Record tinfo (m : match_result) (ml ca gr cn : fnode) (c b k x1 x2 y : string) (id : nat) : Prop := {
  t_mul : op_of ns0 m "mul" = Some ml; t_cast : op_of ns0 m "cast" = Some ca; t_theta : op_of ns0 m "theta" = Some cn;
  t_x1 : tensor_of m "greater_input" = Some x1; t_x2 : tensor_of m "mul_input" = Some x2;
  t_opmul : f_op ml = "Mul"; t_opca : f_op ca = "Cast"; t_opgr : f_op gr = "Greater"; t_opc : f_op cn = "Const";
  t_inmul : pair (f_in ml) k x2; t_inca : f_in ca = [b]; t_ingr : pair (f_in gr) x1 c; t_inc : f_in cn = [];
  t_outmul : f_out ml = [y]; t_outca : f_out ca = [k]; t_outgr : f_out gr = [b]; t_outc : f_out cn = [c];
  t_named : y <> "" /\ k <> "" /\ b <> "" /\ c <> "" /\ x2 <> "";
  t_bodies : f_bodies ml = [] /\ f_bodies ca = [] /\ f_bodies gr = [] /\ f_bodies cn = [];
  t_id : lookup "value" (f_attrs cn) = Some (ATensor id);
  t_in : In ml ns0 /\ In ca ns0 /\ In gr ns0 /\ In cn ns0 }.
Definition TP (m : match_result) (s : state) : Prop :=
  exists ml ca gr cn c b k x1 x2 y id, tinfo m ml ca gr cn c b k x1 x2 y id /\
    (x1 = x2 -> In ml (s_nodes s) /\ In ca (s_nodes s) /\ In gr (s_nodes s) /\ In cn (s_nodes s)).
Definition TC (m m' : match_result) : Prop := op_of ns0 m "mul" <> op_of ns0 m' "mul".

Lemma tinfo_group m ml ca gr cn c b k x y id : tinfo m ml ca gr cn c b k x x y id -> f_in gr = [x; c] /\ threshold_group false ns0 x k y id.
Proof.
  intros I. destruct I. destruct t_in0 as (H1 & H2 & H3 & H4).
  assert (G : forall sw : bool, f_in gr = (if sw then [c; x] else [x; c]) -> threshold_group sw ns0 x k y id).
  { intros sw E. exists b, c, (f_in ml), (f_attrs ml), (f_attrs ca), (f_attrs gr), (f_attrs cn). split; [rewrite <- t_opmul0; apply node_is; auto|]. split; [auto|].
    split; [rewrite <- t_opca0, <- t_inca0; apply node_is; auto|]. split; [rewrite <- E, <- t_opgr0; apply node_is; auto|]. split; [rewrite <- t_opc0, <- t_inc0; apply node_is; auto|exact t_id0]. }
  destruct t_ingr0 as [Q|Q]; [split; [exact Q|apply (G false); exact Q]|]. exfalso. apply (NS x k y id). apply (G true). exact Q.
Qed.
Lemma match_TP o m : (exists bs, fits (view ns0) true threshold_pattern (Some o) None bs /\ m = fold_left add_binding bs (MatchResult [] [])) -> TP m s0 /\ op_of ns0 m "mul" = nth_error ns0 o.
Proof.
  intros H. apply threshold_match in H. destruct H as (ml & ca & gr & cn & k & b & c & x1 & x2 & N & H1 & H2 & H3 & H4 & H5 & H6 & H7 & H8 & H9 & H10 & H11 & H12 & H13 & H14 & H15 & H16 & H17 & H18).
  assert (Hx : In ml ns0) by exact (nth_error_In _ _ N). destruct PL as [PL1 PL2].
  destruct (PL2 ml Hx) as (Bl & (y & Oy & Ny) & _); [rewrite H6; cbn; auto|].
  destruct (PL2 ca H8) as (Ba & (k' & Ok & Nk) & _); [rewrite H9; cbn; auto|].
  destruct (PL2 gr H12) as (Bg & (b' & Ob & Nb) & _); [rewrite H13; cbn; auto|].
  destruct (PL2 cn H16) as (Bc & (c' & Oc & Nc) & Ic); [rewrite H17; cbn; auto 6|].
  rewrite Ok in H10. destruct H10 as [<-|[]]. rewrite Ob in H14. destruct H14 as [<-|[]]. rewrite Oc in H18. destruct H18 as [<-|[]]. destruct (Ic H17) as (Inc & id & Eid).
  split; [|congruence]. exists ml, ca, gr, cn, c', b', k', x1, x2, y, id. split.
  - constructor; auto. split; auto. split; auto. split; auto. split; auto. intros ->. apply (PL1 ml Hx). apply pair_in in H7. tauto.
  - intros _. unfold ns0 in *. auto.
Qed.
Lemma tplan_is m ml ca gr cn c b k x1 x2 y id s : tinfo m ml ca gr cn c b k x1 x2 y id ->
  threshold_plan cval ns0 s m = (if String.eqb x1 x2 then Some (Some (Action "ThresholdedRelu" [("alpha", value_attr cval id)] [x2] y [ca; ml])) else Some None).
Proof.
  intros I. destruct I. unfold threshold_plan. rewrite t_mul0, t_cast0, t_x3, t_x4. cbn [bind]. destruct (String.eqb x1 x2); auto.
  rewrite t_theta0. cbn [bind]. unfold const_id. rewrite lookup_find, t_id0. cbn [bind]. rewrite t_outmul0. reflexivity.
Qed.
Lemma plan_some_t rk s m : WW rk (graph_of s) -> TP m s -> threshold_plan cval ns0 s m <> None.
Proof.
  intros _ (ml & ca & gr & cn & c & b & k & x1 & x2 & y & id & I & _). rewrite (tplan_is m ml ca gr cn c b k x1 x2 y id s I). destruct (String.eqb_spec x1 x2); discriminate.
Qed.
Lemma tplan_info m s a : TP m s -> threshold_plan cval ns0 s m = Some (Some a) -> exists ml ca gr cn c b k x y id al,
  tinfo m ml ca gr cn c b k x x y id /\ In ml (s_nodes s) /\ In ca (s_nodes s) /\ In gr (s_nodes s) /\ In cn (s_nodes s) /\ cval id = Tensor [] [al] /\
  a = Action "ThresholdedRelu" [("alpha", ATensor id)] [x] y [ca; ml].
Proof.
  intros (ml & ca & gr & cn & c & b & k & x1 & x2 & y & id & I & L) E. rewrite (tplan_is m ml ca gr cn c b k x1 x2 y id s I) in E. destruct (String.eqb_spec x1 x2) as [<-|]; [|discriminate E].
  assert (S := SC _ _ _ _ (proj2 (tinfo_group _ _ _ _ _ _ _ _ _ _ _ I))). destruct (one_datum (cval id) S (CW id)) as (al & Ea).
  assert (Ec : cval id = Tensor [] [al]) by (destruct (cval id); cbn in *; subst; reflexivity). unfold value_attr in E. rewrite S in E.
  destruct (L eq_refl) as (L1 & L2 & L3 & L4). exists ml, ca, gr, cn, c, b, k, x1, y, id, al. repeat (split; [auto; fail|]). congruence.
Qed.
Lemma plan_sound_t rk s m a : WW rk (graph_of s) -> TP m s -> threshold_plan cval ns0 s m = Some (Some a) ->
  exists root, sound_action rk (graph_of s) a root /\
    forall r, all_hold op_rel r (s_nodes s) -> True -> op_rel (a_op a) "" (a_attrs a) 1 (map r (a_ins a)) [] [r (a_out a)].
Proof.
  intros W H E. destruct (tplan_info m s a H E) as (ml & ca & gr & cn & c & b & k & x & y & id & al & I & L1 & L2 & L3 & L4 & Ec & ->). exists ml.
  destruct (tinfo_group _ _ _ _ _ _ _ _ _ _ _ I) as [Ord Gr]. destruct I.
  destruct t_named0 as (Ny & Nk & Nb & Nc & Nx). destruct t_bodies0 as (Bl & Ba & Bg & Bc). destruct (OUT _ _ _ _ Gr) as [Oy Ok]. cbn [a_op a_attrs a_ins a_out a_del].
  assert (Ix : In x (fv_node ml)) by (rewrite fv_node_eq; apply in_app_iff; left; apply pair_in in t_inmul0; tauto).
  split.
  - constructor; cbn [a_op a_attrs a_ins a_out a_del graph_of f_nodes f_outs]; auto.
    + right. left. reflexivity.
    + intros d [<-|[<-|[]]]; [exists ca|exists ml]; auto.
    + exists (f_name ca). intros d [<-|[<-|[]]]; auto.
    + intros d o [<-|[<-|[]]] Ho; [rewrite t_outca0 in Ho|rewrite t_outmul0 in Ho]; destruct Ho as [<-|[]]; auto.
    + intros t [<-|[]]. split; auto. split.
      * destruct (in_dec string_dec x (defs (FGraph (s_nodes s) gi go))) as [K|K]; auto. right. apply in_fv_graph. split; auto. right. right. exists ml. auto.
      * apply (g_acyclic _ _ (W _ (within_refl _)) ml x y); auto. rewrite t_outmul0. left. reflexivity.
  - intros r Hr _. apply (m_threshold _ _ M). exists (r y). split; auto. exists (r x), al. cbn [map]. split; auto. split.
    + exists id. cbn [lookup]. rewrite Ec. auto.
    + assert (V1 := is_op_value op_rel "Const" _ r cn c (m_const _ _ M) t_opc0 Bc t_outc0 Nc (Hr cn L4)). destruct V1 as (_ & id' & E1 & V1). rewrite t_id0 in E1. injection E1 as <-.
      assert (V2 := is_op_value op_rel "Greater" _ r gr b (m_greater _ _ M) t_opgr0 Bg t_outgr0 Nb (Hr gr L3)). destruct V2 as (a1 & b1 & E2 & V2).
      rewrite Ord in E2. cbn in E2. injection E2 as <- <-. rewrite V1 in V2.
      destruct (holds_plain op_rel r ca k Ba t_outca0 Nk (Hr ca L2)) as (vs & V4 & V5). rewrite t_opca0, t_inca0 in V4. cbn [map] in V4.
      apply (m_cast _ _ M) in V4; [|exact (greater_bool _ _ _ V2)]. subst vs. cbn in V5. injection V5 as V5.
      assert (V3 := is_op_value op_rel "Mul" _ r ml y (m_mul _ _ M) t_opmul0 Bl t_outmul0 Ny (Hr ml L1)). destruct V3 as (a2 & b2 & E3 & V3).
      apply (threshold_value (cval id) al (r x) (r b) (r y)); [rewrite Ec; reflexivity|rewrite Ec; reflexivity|exact V2|].
      rewrite V5. destruct t_inmul0 as [Q|Q]; rewrite Q in E3; cbn in E3; injection E3 as <- <-; auto.
Qed.
Lemma plan_keeps_t rk s m a nm s' m' : WW rk (graph_of s) -> TP m s -> threshold_plan cval ns0 s m = Some (Some a) -> fresh_for nm (graph_of s) ->
  fuse nm a s = Some s' -> TC m m' -> TP m' s -> TP m' s'.
Proof.
  intros W H E F Fu Cm (ml' & ca' & gr' & cn' & c' & b' & k' & x1' & x2' & y' & id' & I' & L'). destruct (plan_sound_t rk s m a W H E) as (root & SA & _).
  destruct (fuse_ok _ op_rel OE rk s gi go a nm root W F SA) as (s1 & E1 & _ & _ & _ & _ & K1 & K2 & _). rewrite E1 in Fu. injection Fu as <-. clear root SA E1.
  destruct (tplan_info m s a H E) as (ml & ca & gr & cn & c & b & k & x & y & id & al & I & L1 & L2 & L3 & L4 & Ec & ->). cbn [a_out a_del map] in K1, K2.
  exists ml', ca', gr', cn', c', b', k', x1', x2', y', id'. split; auto. intros <-. destruct (L' eq_refl) as (L1' & L2' & L3' & L4'). clear L'.
  destruct (tinfo_group _ _ _ _ _ _ _ _ _ _ _ I) as [_ Gr]. destruct (tinfo_group _ _ _ _ _ _ _ _ _ _ _ I') as [_ Gr']. assert (Nxy := CH _ _ _ _ _ _ _ _ Gr' Gr).
  destruct I, I'. unfold TC in Cm. rewrite t_mul0, t_mul1 in Cm. destruct t_named0 as (Ny & Nk & Nb & Nc & Nx). destruct t_named1 as (Ny' & Nk' & Nb' & Nc' & Nx'). destruct t_bodies1 as (Bl & Ba & Bg & Bc).
  assert (Dx : ~ In (f_name ml') [f_name ca; f_name ml]).
  { intros [Q|[Q|[]]]; apply (node_of_name rk (graph_of s)) in Q; auto; subst; [congruence|apply Cm; reflexivity]. }
  assert (Nky : k' <> y).
  { intros ->. assert (ml = ca') by (apply (node_of_out rk (graph_of s) ml ca' y); auto; [rewrite t_outmul0|rewrite t_outca1]; left; reflexivity). subst. congruence. }
  assert (Nby : b' <> y).
  { intros ->. assert (ml = gr') by (apply (node_of_out rk (graph_of s) ml gr' y); auto; [rewrite t_outmul0|rewrite t_outgr1]; left; reflexivity). subst. congruence. }
  assert (Ncy : c' <> y).
  { intros ->. assert (ml = cn') by (apply (node_of_out rk (graph_of s) ml cn' y); auto; [rewrite t_outmul0|rewrite t_outc1]; left; reflexivity). subst. congruence. }
  split; [|split; [|split]].
  - assert (Q := K1 ml' L1' Dx). rewrite subst_id in Q; auto. intros K. destruct (pair_only _ _ _ _ t_inmul1 K); congruence.
  - assert (Q := K2 ca' ml' k' L2' L1'). rewrite subst_id in Q; auto; [apply Q; auto; [rewrite t_outca1; left; reflexivity|apply pair_in in t_inmul1; tauto]|].
    intros K. rewrite t_inca1 in K. destruct K as [K|[]]. congruence.
  - assert (Q := K1 gr' L3'). rewrite subst_id in Q; auto; [apply Q|intros K; destruct (pair_only _ _ _ _ t_ingr1 K); congruence].
    intros [K|[K|[]]]; apply (node_of_name rk (graph_of s)) in K; auto; subst; congruence.
  - assert (Q := K1 cn' L4'). rewrite subst_id in Q; auto; [apply Q|rewrite t_inc1; intros []].
    intros [K|[K|[]]]; apply (node_of_name rk (graph_of s)) in K; auto; subst; congruence.
Qed.

Hypothesis FR : forall i, fresh_for (name i) (graph_of s0).
Hypothesis DET : deterministic op_rel.
Lemma tmatches_apart o ms : match_ops (view ns0) true threshold_pattern o = Some ms -> NoDup o -> ForallOrdPairs TC (map snd ms).
Proof.
  intros E N. destruct (match_ops_inv _ _ _ _ E) as (I1 & I2 & I3). specialize (I3 N). clear E I2 N o.
  induction ms as [|[o m] ms IH]; cbn; constructor.
  - apply Forall_forall. intros m' Hm'. apply in_map_iff in Hm'. destruct Hm' as ([o' m''] & E & Hm'). cbn in E. subst m''.
    destruct (match_TP o m (I1 o m (or_introl eq_refl))) as [_ E1]. destruct (match_TP o' m' (I1 o' m' (or_intror Hm'))) as [(ml & ? & ? & ? & ? & ? & ? & ? & ? & ? & ? & Inf & _) E2].
    unfold TC. rewrite E1, E2. rewrite (t_mul _ _ _ _ _ _ _ _ _ _ _ _ Inf) in E2. intros K. cbn in I3. inversion I3 as [|? ? N1 N2]; subst. apply N1. apply in_map_iff. exists (o', m'). split; auto. cbn.
    assert (NN : NoDup ns0) by (apply (NoDup_map_inv f_name); exact (g_names _ _ (W0 _ (within_refl _)))).
    symmetry. apply (proj1 (NoDup_nth_error ns0) NN); [apply nth_error_Some; rewrite K, <- E2; discriminate|exact K].
  - apply IH; [intros; apply I1; right; auto|]. cbn in I3. inversion I3; auto.
Qed.
Theorem threshold_ok opset : exists k s', rewrite_thresholded_relu cval name opset s0 = Some (k, s') /\ valid (graph_of s') /\ same_results op_rel (graph_of s0) (graph_of s').
Proof.
  unfold rewrite_thresholded_relu. destruct (Nat.ltb opset 10).
  { exists 0, s0. split; auto. split; [exists rk0; exact W0|]. intros r args res H res'. split; [|intros ->; exact H].
    intros H'. apply (graph_function _ op_rel OE DET (graph_of s0) (ex_intro _ rk0 W0) r args res' res); auto. }
  unfold run_pattern. fold ns0. assert (Cl := match_ops_some (view ns0) threshold_pattern (seq 0 (length ns0)) (plain_view_closed _ _ PL)).
  destruct (match_ops (view ns0) true threshold_pattern (seq 0 (length ns0))) as [ms|] eqn:E; [|contradiction]. destruct (match_ops_inv _ _ _ _ E) as (I1 & _ & _).
  destruct (run_ok (tensor R) op_rel OE name name_inj gi go (threshold_plan cval ns0) (fun _ _ => True) 0 TP TC plan_some_t plan_sound_t (fun rk s m a nm s' m' A B E F _ => plan_keeps_t rk s m a nm s' m' A B E F) (fun _ _ _ _ _ _ _ _ _ _ _ _ _ _ => I) (fun _ => True) (fun _ _ _ _ _ _ _ _ _ _ _ _ _ => I) (map snd ms) 0 s0)
    as (k' & s' & R1 & _ & W' & _ & FV & DF & AH & _).
  - auto.
  - eauto.
  - intros i _. apply FR.
  - apply (tmatches_apart _ _ E). apply seq_NoDup.
  - apply Forall_forall. intros m Hm. apply in_map_iff in Hm. destruct Hm as ([o m'] & <- & Hm). apply (match_TP o). apply I1. exact Hm.
  - exact I.
  - exists k', s'. split; auto. split; [exact W'|]. intros r args res H.
    assert (H' : body_rel op_rel r (graph_of s') args res).
    { apply body_rel_eq in H. destruct H as (r0 & A & B & Hh & D). cbn [graph_of f_ins f_outs f_nodes] in *.
      apply (behaves _ op_rel OE rk0 (s_nodes s0) (s_nodes s') gi go (fun _ => True) W0 W' FV) with (r0 := r0); auto.
      intros r1 Hr1 _. destruct (AH r1 Hr1 I) as (r' & R2 & R3 & _). exists r'. split; auto. intros t Ht. apply R2. intros i _ ->. destruct (FR i) as (_ & N1 & N2).
      destruct Ht as [Ht|Ht]; [apply N1; apply defs_alldefs; exact Ht|apply N2; exact Ht]. }
    intros res'. split; [|intros ->; exact H']. intros H2. exact (graph_function _ op_rel OE DET (graph_of s') W' r args res' res H2 H').
Qed.
End Threshold.
