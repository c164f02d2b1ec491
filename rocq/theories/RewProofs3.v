(** C58: LeakyRelu and ThresholdedRelu. *)
From Coq Require Import String List Bool Arith Lia ZArith Reals Lra.
From Verif Require Import FGraph FGraphProofs FGraphSpec IdentityModel IdentityProofs ApplyOptProofs RewriteProofs Tensor OnnxSpec PushSpec MatchModel MatchSpec MatchProofs
  RewModel RewSpec RewMatch RewValues RewProofs RewProofs2 DetProofs.
Import ListNotations.
Local Open Scope string_scope. Local Open Scope list_scope. Local Open Scope nat_scope.

(** ** nodes and their numbers *)
Lemma view_inv ns o ty : ~ In "" (type_set ty) -> In (gtype (view ns o)) (type_set ty) ->
  exists n, nth_error ns o = Some n /\ In (f_op n) (type_set ty) /\
    ginputs (view ns o) = map (fun t => (t, if String.eqb t "" then None else Some (index_of t ns))) (f_in n).
Proof. unfold view. intros N H. destruct (nth_error ns o) as [n|]; [|contradiction]. exists n. auto. Qed.
Lemma index_out t ns n : nth_error ns (index_of t ns) = Some n -> In t (f_out n).
Proof.
  induction ns as [|m ns IH]; cbn [index_of]; [discriminate|]. destruct (mem t (f_out m)) eqn:E; cbn [nth_error]; auto.
  intros Q. injection Q as <-. apply mem_in. exact E.
Qed.
Lemma view_in2 ns n x y : map (fun t => (t, if String.eqb t "" then None else Some (index_of t ns))) (f_in n) = [x; y] ->
  f_in n = [fst x; fst y] /\ forall k, (snd x = Some k -> k = index_of (fst x) ns) /\ (snd y = Some k -> k = index_of (fst y) ns).
Proof.
  destruct (f_in n) as [|a [|b [|c l]]]; cbn; try discriminate. intros E. injection E as <- <-. cbn. split; auto. intros k.
  split; intros K; [destruct (String.eqb a "")|destruct (String.eqb b "")]; congruence.
Qed.
Lemma view_in1 ns n x : map (fun t => (t, if String.eqb t "" then None else Some (index_of t ns))) (f_in n) = [x] ->
  f_in n = [fst x] /\ forall k, snd x = Some k -> k = index_of (fst x) ns.
Proof.
  destruct (f_in n) as [|a [|b l]]; cbn; try discriminate. intros E. injection E as <-. cbn. split; auto. intros k K. destruct (String.eqb a ""); congruence.
Qed.
Ltac not_in := cbn; intros K; repeat (destruct K as [K|K]; [discriminate K|]); exact K.

Lemma leaky_match ns o m : (exists bs, fits (view ns) true leaky_pattern (Some o) None bs /\ m = fold_left add_binding bs (MatchResult [] [])) ->
  exists mx ml cn c mo x1 x2, nth_error ns o = Some mx /\ op_of ns m "max" = Some mx /\ op_of ns m "mul" = Some ml /\ op_of ns m "alpha" = Some cn /\
    tensor_of m "max_input" = Some x1 /\ tensor_of m "mul_input" = Some x2 /\
    f_op mx = "Maximum" /\ pair (f_in mx) mo x1 /\ In ml ns /\ f_op ml = "Mul" /\ In mo (f_out ml) /\ pair (f_in ml) c x2 /\ In cn ns /\ f_op cn = "Const" /\ In c (f_out cn).
Proof.
  intros (bs & F & ->). apply fits2_inv in F; [|discriminate]. destruct F as (o0 & x & y & b1 & b2 & Eo & Ty & Sh & F1 & F2). injection Eo as <-.
  apply fits_star_inv in F2. apply fits2_inv in F1; [|discriminate]. destruct F1 as (o1 & u & v & b3 & b4 & Eo1 & Ty1 & Sh1 & F3 & F4).
  apply fits_star_inv in F4. apply fits_leaf_inv in F3; [|discriminate]. destruct F3 as (F3 & o2 & Eo2 & Ty2).
  destruct (view_inv ns o "Maximum" ltac:(not_in) Ty) as (mx & N0 & T0 & G0). destruct (view_inv ns o1 "Mul" ltac:(not_in) Ty1) as (ml & N1 & T1 & G1). destruct (view_inv ns o2 "Const" ltac:(not_in) Ty2) as (cn & N2 & T2 & G2).
  destruct T0 as [T0|[]]. destruct T1 as [T1|[]]. destruct T2 as [T2|[]].
  exists mx, ml, cn, (fst u), (fst x), (fst y), (fst v).
  assert (I1 : pair (f_in mx) (fst x) (fst y) /\ o1 = index_of (fst x) ns).
  { destruct Sh as [[Sh _]|[Sh _]]; rewrite G0 in Sh; apply view_in2 in Sh; destruct Sh as [E K]; (split; [rewrite E; unfold pair; auto|]); apply (K o1); exact Eo1. }
  assert (I2 : pair (f_in ml) (fst u) (fst v) /\ o2 = index_of (fst u) ns).
  { destruct Sh1 as [[Sh1 _]|[Sh1 _]]; rewrite G1 in Sh1; apply view_in2 in Sh1; destruct Sh1 as [E K]; (split; [rewrite E; unfold pair; auto|]); apply (K o2); exact Eo2. }
  destruct I1 as [I1 J1]. destruct I2 as [I2 J2].
  assert (K : op_of ns (fold_left add_binding bs (MatchResult [] [])) "max" = nth_error ns o /\ op_of ns (fold_left add_binding bs (MatchResult [] [])) "mul" = nth_error ns o1 /\
     op_of ns (fold_left add_binding bs (MatchResult [] [])) "alpha" = nth_error ns o2 /\ tensor_of (fold_left add_binding bs (MatchResult [] [])) "max_input" = Some (fst y) /\
     tensor_of (fold_left add_binding bs (MatchResult [] [])) "mul_input" = Some (fst v)).
  { destruct Sh as [[_ ->]|[_ ->]], Sh1 as [[_ ->]|[_ ->]]; subst b2 b3 b4; rewrite ?Eo2; cbn; auto 6. }
  destruct K as (K1 & K2 & K3 & K4 & K5). rewrite K1, K2, K3, K4, K5. repeat (split; [auto; fail|]). 
  split; [exact (nth_error_In _ _ N1)|]. split; [auto|]. split; [apply (index_out _ ns); rewrite <- J1; exact N1|]. split; [exact I2|].
  split; [exact (nth_error_In _ _ N2)|]. split; [auto|]. apply (index_out _ ns). rewrite <- J2. exact N2.
Qed.

Lemma subst_id a b n : f_bodies n = [] -> ~ In a (f_in n) -> subst_node a b n = n.
Proof.
  destruct n as [nm op dom at_ ins outs bodies]. cbn [f_bodies f_in subst_node]. intros -> H. cbn [map]. f_equal.
  induction ins as [|t l IH]; cbn [map]; auto. f_equal; [|apply IH; cbn in H; intros K; apply H; right; exact K].
  unfold sub. destruct (String.eqb_spec t a); auto. exfalso. apply H. left. auto.
Qed.
Lemma lookup_find key at_ : find_attr key at_ = lookup key at_.
Proof. induction at_ as [|[k v] l IH]; cbn; [reflexivity|]. rewrite IH. reflexivity. Qed.
Lemma pair_in l a b : pair l a b -> In a l /\ In b l.
Proof. intros [-> | ->]; cbn; auto. Qed.
Lemma pair_only l a b t : pair l a b -> In t l -> t = a \/ t = b.
Proof. intros [-> | ->] [<-|[<-|[]]]; auto. Qed.
Lemma one_datum {A} (t : tensor A) : shape t = [] -> wf t -> exists a, data t = [a].
Proof. intros S W. unfold wf in W. rewrite S in W. cbn in W. destruct (data t) as [|a [|b l]]; cbn in W; try lia. eauto. Qed.
Lemma plain_view_closed ops ns : plain ops ns -> closed (view ns).
Proof.
  intros [P _] o x H. unfold view in H. destruct (nth_error ns o) as [n|] eqn:E; cbn in H; [|destruct H]. apply in_map_iff in H. destruct H as (t & <- & H). cbn.
  destruct (String.eqb_spec t "") as [->|]; [|discriminate]. exfalso. exact (P n (nth_error_In _ _ E) H).
Qed.
Lemma node_is ns n o : In n ns -> f_out n = [o] -> node_at ns (f_op n) (f_in n) o (f_attrs n).
Proof. intros H E. exists n. auto 6. Qed.
(** the operator of a node with one output and no body *)
Lemma holds_plain {V} (op_rel : string -> string -> list (string * attr) -> nat -> list V -> list (list V -> list V -> Prop) -> list V -> Prop) (r : env V) n o :
  f_bodies n = [] -> f_out n = [o] -> o <> "" -> holds op_rel r n -> exists vs, op_rel (f_op n) (f_dom n) (f_attrs n) 1 (map r (f_in n)) [] vs /\ nth_error vs 0 = Some (r o).
Proof.
  intros B O N H. apply holds_eq in H. rewrite B, O in H. destruct H as (vs & H & Pr). exists vs. split; [exact H|exact (Pr 0 o eq_refl N)].
Qed.
Lemma is_op_value op_rel op rel (r : env (tensor R)) n o : is_op op_rel op rel -> f_op n = op -> f_bodies n = [] -> f_out n = [o] -> o <> "" ->
  holds op_rel r n -> rel (f_attrs n) (map r (f_in n)) (r o).
Proof.
  intros I <- B O N H. destruct (holds_plain op_rel r n o B O N H) as (vs & H1 & H2). apply I in H1. destruct H1 as (w & -> & H1). cbn in H2. injection H2 as <-. exact H1.
Qed.

Section Leaky.
Variable op_rel : string -> string -> list (string * attr) -> nat -> list (tensor R) -> list (list (tensor R) -> list (tensor R) -> Prop) -> list (tensor R) -> Prop.
Hypothesis OE : op_ext op_rel.
Variable cval : nat -> tensor R.
Hypothesis CW : forall id, wf (cval id).
Hypothesis M : relu_means op_rel cval.
Variable name : nat -> string.
Hypothesis name_inj : forall i j, name i = name j -> i = j.
Variables (gi go : list string) (s0 : state) (rk0 : string -> nat).
Let ns0 := s_nodes s0.
Let graph_of (s : state) : fgraph := FGraph (s_nodes s) gi go.
Hypothesis W0 : WW rk0 (graph_of s0).
Hypothesis PL : plain ["Maximum"; "Mul"; "Const"] ns0.
Hypothesis SC : forall x m y id, leaky_group ns0 x m y id -> shape (cval id) = [].
Hypothesis CH : forall x m y id x' m' y' id', leaky_group ns0 x m y id -> leaky_group ns0 x' m' y' id' -> x <> y'.
Hypothesis OUT : forall x m y id, leaky_group ns0 x m y id -> ~ In y go /\ ~ In m go.

Record info (m : match_result) (mx ml cn : fnode) (c mo x1 x2 y : string) (id : nat) : Prop := {
  i_max : op_of ns0 m "max" = Some mx; i_mul : op_of ns0 m "mul" = Some ml; i_alpha : op_of ns0 m "alpha" = Some cn;
  i_x1 : tensor_of m "max_input" = Some x1; i_x2 : tensor_of m "mul_input" = Some x2;
  i_opmax : f_op mx = "Maximum"; i_opmul : f_op ml = "Mul"; i_opc : f_op cn = "Const";
  i_inmax : pair (f_in mx) mo x1; i_inmul : pair (f_in ml) c x2; i_inc : f_in cn = [];
  i_outmax : f_out mx = [y]; i_outmul : f_out ml = [mo]; i_outc : f_out cn = [c];
  i_named : y <> "" /\ mo <> "" /\ c <> "" /\ x1 <> "";
  i_bodies : f_bodies mx = [] /\ f_bodies ml = [] /\ f_bodies cn = [];
  i_id : lookup "value" (f_attrs cn) = Some (ATensor id);
  i_in : In mx ns0 /\ In ml ns0 /\ In cn ns0 }.
Definition P (m : match_result) (s : state) : Prop :=
  exists mx ml cn c mo x1 x2 y id, info m mx ml cn c mo x1 x2 y id /\ (x1 = x2 -> In mx (s_nodes s) /\ In ml (s_nodes s) /\ In cn (s_nodes s)).
Definition C (m m' : match_result) : Prop := op_of ns0 m "max" <> op_of ns0 m' "max".

Lemma info_group m mx ml cn c mo x y id : info m mx ml cn c mo x x y id -> leaky_group ns0 x mo y id.
Proof.
  intros I. destruct I. exists c, (f_in ml), (f_in mx), (f_attrs ml), (f_attrs mx), (f_attrs cn).
  destruct i_in0 as (H1 & H2 & H3). split; [rewrite <- i_opmax0; apply node_is; auto|]. split; [auto|]. split; [rewrite <- i_opmul0; apply node_is; auto|]. split; [auto|].
  split; [|auto]. rewrite <- i_opc0, <- i_inc0. apply node_is; auto.
Qed.
Lemma match_P o m : (exists bs, fits (view ns0) true leaky_pattern (Some o) None bs /\ m = fold_left add_binding bs (MatchResult [] [])) -> P m s0 /\ op_of ns0 m "max" = nth_error ns0 o.
Proof.
  intros H. apply leaky_match in H. destruct H as (mx & ml & cn & c & mo & x1 & x2 & N & H1 & H2 & H3 & H4 & H5 & H6 & H7 & H8 & H9 & H10 & H11 & H12 & H13 & H14).
  assert (Hx : In mx ns0) by exact (nth_error_In _ _ N). destruct PL as [PL1 PL2].
  destruct (PL2 mx Hx) as (Bx & (y & Oy & Ny) & _); [rewrite H6; cbn; auto|].
  destruct (PL2 ml H8) as (Bl & (mo' & Om & Nm) & _); [rewrite H9; cbn; auto|].
  destruct (PL2 cn H12) as (Bc & (c' & Oc & Nc) & Ic); [rewrite H13; cbn; auto|].
  rewrite Om in H10. destruct H10 as [<-|[]]. rewrite Oc in H14. destruct H14 as [<-|[]]. destruct (Ic H13) as (Inc & id & Eid).
  split; [|congruence]. exists mx, ml, cn, c', mo', x1, x2, y, id. split.
  - constructor; auto. split; auto. split; auto. split; auto. intros ->. apply (PL1 mx Hx). apply pair_in in H7. tauto.
  - intros _. unfold ns0 in *. auto.
Qed.
Lemma plan_is m mx ml cn c mo x1 x2 y id s : info m mx ml cn c mo x1 x2 y id ->
  leaky_plan cval ns0 s m = (if String.eqb x1 x2 then
    match cval id with
    | Tensor [] (a :: _) => if Rle_dec 1 a then Some None else Some (Some (Action "LeakyRelu" [("alpha", ATensor id)] [x1] y [mx; ml]))
    | _ => None end else Some None).
Proof.
  intros I. destruct I. unfold leaky_plan. rewrite i_max0, i_mul0, i_x3, i_x4. cbn [bind]. destruct (String.eqb x1 x2); auto.
  rewrite i_alpha0. cbn [bind]. unfold const_id. rewrite lookup_find, i_id0. cbn [bind]. destruct (cval id) as [[|] [|a l]]; auto.
  destruct (Rle_dec 1 a); auto. rewrite i_outmax0. reflexivity.
Qed.
Lemma plan_some_l rk s m : WW rk (graph_of s) -> P m s -> leaky_plan cval ns0 s m <> None.
Proof.
  intros _ (mx & ml & cn & c & mo & x1 & x2 & y & id & I & _). rewrite (plan_is m mx ml cn c mo x1 x2 y id s I). destruct (String.eqb_spec x1 x2) as [<-|]; [|discriminate].
  assert (S := SC _ _ _ _ (info_group _ _ _ _ _ _ _ _ _ I)). destruct (one_datum (cval id) S (CW id)) as (a & Ea). destruct (cval id) as [sh d]. cbn in *. subst sh d.
  destruct (Rle_dec 1 a); discriminate.
Qed.
Lemma plan_info m s a : P m s -> leaky_plan cval ns0 s m = Some (Some a) -> exists mx ml cn c mo x y id al,
  info m mx ml cn c mo x x y id /\ In mx (s_nodes s) /\ In ml (s_nodes s) /\ In cn (s_nodes s) /\ cval id = Tensor [] [al] /\ (al < 1)%R /\
  a = Action "LeakyRelu" [("alpha", ATensor id)] [x] y [mx; ml].
Proof.
  intros (mx & ml & cn & c & mo & x1 & x2 & y & id & I & L) E. rewrite (plan_is m mx ml cn c mo x1 x2 y id s I) in E. destruct (String.eqb_spec x1 x2) as [<-|]; [|discriminate E].
  assert (S := SC _ _ _ _ (info_group _ _ _ _ _ _ _ _ _ I)). destruct (one_datum (cval id) S (CW id)) as (al & Ea).
  assert (Ec : cval id = Tensor [] [al]) by (destruct (cval id); cbn in *; subst; reflexivity). rewrite Ec in E. destruct (Rle_dec 1 al) as [|N]; [discriminate E|].
  destruct (L eq_refl) as (L1 & L2 & L3). exists mx, ml, cn, c, mo, x1, y, id, al. repeat (split; [auto; fail|]). split; [lra|]. congruence.
Qed.
Lemma plan_sound_l rk s m a : WW rk (graph_of s) -> P m s -> leaky_plan cval ns0 s m = Some (Some a) ->
  exists root, sound_action rk (graph_of s) a root /\
    forall r, all_hold op_rel r (s_nodes s) -> True -> op_rel (a_op a) "" (a_attrs a) 1 (map r (a_ins a)) [] [r (a_out a)].
Proof.
  intros W H E. destruct (plan_info m s a H E) as (mx & ml & cn & c & mo & x & y & id & al & I & L1 & L2 & L3 & Ec & Lt & ->). exists mx. assert (Gr := info_group _ _ _ _ _ _ _ _ _ I). destruct I.
  destruct i_named0 as (Ny & Nm & Nc & Nx). destruct i_bodies0 as (Bx & Bl & Bc). destruct (OUT _ _ _ _ Gr) as [Oy Om]. cbn [a_op a_attrs a_ins a_out a_del].
  assert (Ix : In x (fv_node mx)) by (rewrite fv_node_eq; apply in_app_iff; left; apply pair_in in i_inmax0; tauto).
  split.
  - constructor; cbn [a_op a_attrs a_ins a_out a_del graph_of f_nodes f_outs]; auto.
    + left. reflexivity.
    + intros d [<-|[<-|[]]]; [exists mx|exists ml]; auto.
    + exists (f_name ml). intros d [<-|[<-|[]]]; auto.
    + intros d o [<-|[<-|[]]] Ho; [rewrite i_outmax0 in Ho|rewrite i_outmul0 in Ho]; destruct Ho as [<-|[]]; auto.
    + intros t [<-|[]]. split; auto. split.
      * destruct (in_dec string_dec x (defs (FGraph (s_nodes s) gi go))) as [K|K]; auto. right. apply in_fv_graph. split; auto. right. right. exists mx. auto.
      * apply (g_acyclic _ _ (W _ (within_refl _)) mx x y); auto. rewrite i_outmax0. left. reflexivity.
  - intros r Hr _. apply (m_leaky _ _ M). exists (r y). split; auto. exists (r x), al. cbn [map]. split; auto. split.
    + exists id. cbn [lookup]. rewrite Ec. auto.
    + assert (V1 := is_op_value op_rel "Const" _ r cn c (m_const _ _ M) i_opc0 Bc i_outc0 Nc (Hr cn L3)). destruct V1 as (_ & id' & E1 & V1). rewrite i_id0 in E1. injection E1 as <-.
      assert (V2 := is_op_value op_rel "Mul" _ r ml mo (m_mul _ _ M) i_opmul0 Bl i_outmul0 Nm (Hr ml L2)). destruct V2 as (a1 & b1 & E2 & V2).
      assert (V3 := is_op_value op_rel "Maximum" _ r mx y (m_maximum _ _ M) i_opmax0 Bx i_outmax0 Ny (Hr mx L1)). destruct V3 as (a2 & b2 & E3 & V3).
      apply (leaky_value (cval id) al (r x) (r mo) (r y)); [rewrite Ec; reflexivity|rewrite Ec; reflexivity|exact Lt| |].
      * rewrite <- V1. destruct i_inmul0 as [Q|Q]; rewrite Q in E2; cbn in E2; injection E2 as <- <-; auto.
      * destruct i_inmax0 as [Q|Q]; rewrite Q in E3; cbn in E3; injection E3 as <- <-; auto.
Qed.
Lemma plan_keeps_l rk s m a nm s' m' : WW rk (graph_of s) -> P m s -> leaky_plan cval ns0 s m = Some (Some a) -> fresh_for nm (graph_of s) ->
  fuse nm a s = Some s' -> C m m' -> P m' s -> P m' s'.
Proof.
  intros W H E F Fu Cm (mx' & ml' & cn' & c' & mo' & x1' & x2' & y' & id' & I' & L'). destruct (plan_sound_l rk s m a W H E) as (root & SA & _).
  destruct (fuse_ok _ op_rel OE rk s gi go a nm root W F SA) as (s1 & E1 & _ & _ & _ & _ & K1 & K2 & _). rewrite E1 in Fu. injection Fu as <-. clear root SA E1.
  destruct (plan_info m s a H E) as (mx & ml & cn & c & mo & x & y & id & al & I & L1 & L2 & L3 & Ec & Lt & ->). cbn [a_out a_del map] in K1, K2.
  exists mx', ml', cn', c', mo', x1', x2', y', id'. split; auto. intros <-. destruct (L' eq_refl) as (L1' & L2' & L3'). clear L'.
  assert (Gr := info_group _ _ _ _ _ _ _ _ _ I). assert (Gr' := info_group _ _ _ _ _ _ _ _ _ I'). assert (Nxy := CH _ _ _ _ _ _ _ _ Gr' Gr).
  destruct I, I'. unfold C in Cm. rewrite i_max0, i_max1 in Cm. destruct i_named0 as (Ny & Nm & Nc & Nx). destruct i_named1 as (Ny' & Nm' & Nc' & Nx'). destruct i_bodies1 as (Bx & Bl & Bc).
  assert (Dx : ~ In (f_name mx') [f_name mx; f_name ml]).
  { intros [Q|[Q|[]]]; apply (node_of_name rk (graph_of s)) in Q; auto; subst; [apply Cm; reflexivity|congruence]. }
  assert (Nmy : mo' <> y).
  { intros ->. assert (mx = ml') by (apply (node_of_out rk (graph_of s) mx ml' y); auto; [rewrite i_outmax0|rewrite i_outmul1]; left; reflexivity). subst. congruence. }
  assert (Ncy : c' <> y).
  { intros ->. assert (mx = cn') by (apply (node_of_out rk (graph_of s) mx cn' y); auto; [rewrite i_outmax0|rewrite i_outc1]; left; reflexivity). subst. congruence. }
  split; [|split].
  - assert (Q := K1 mx' L1' Dx). rewrite subst_id in Q; auto. intros K. destruct (pair_only _ _ _ _ i_inmax1 K); congruence.
  - assert (Q := K2 ml' mx' mo' L2' L1'). rewrite subst_id in Q; auto; [apply Q; auto; [rewrite i_outmul1; left; reflexivity|apply pair_in in i_inmax1; tauto]|].
    intros K. destruct (pair_only _ _ _ _ i_inmul1 K); congruence.
  - assert (Q := K1 cn' L3'). rewrite subst_id in Q; auto; [apply Q|rewrite i_inc1; intros []].
    intros [K|[K|[]]]; apply (node_of_name rk (graph_of s)) in K; auto; subst; congruence.
Qed.

Hypothesis FR : forall i, fresh_for (name i) (graph_of s0).
Hypothesis DET : deterministic op_rel.
Lemma matches_apart o ms : match_ops (view ns0) true leaky_pattern o = Some ms -> NoDup o -> ForallOrdPairs C (map snd ms).
Proof.
  intros E N. destruct (match_ops_inv _ _ _ _ E) as (I1 & I2 & I3). specialize (I3 N). clear E I2 N o.
  induction ms as [|[o m] ms IH]; cbn; constructor.
  - apply Forall_forall. intros m' Hm'. apply in_map_iff in Hm'. destruct Hm' as ([o' m''] & E & Hm'). cbn in E. subst m''.
    destruct (match_P o m (I1 o m (or_introl eq_refl))) as [_ E1]. destruct (match_P o' m' (I1 o' m' (or_intror Hm'))) as [(mx & ? & ? & ? & ? & ? & ? & ? & ? & Inf & _) E2].
    unfold C. rewrite E1, E2. rewrite (i_max _ _ _ _ _ _ _ _ _ _ Inf) in E2. intros K. cbn in I3. inversion I3 as [|? ? N1 N2]; subst. apply N1. apply in_map_iff. exists (o', m'). split; auto. cbn.
    assert (NN : NoDup ns0) by (apply (NoDup_map_inv f_name); exact (g_names _ _ (W0 _ (within_refl _)))).
    symmetry. apply (proj1 (NoDup_nth_error ns0) NN); [apply nth_error_Some; rewrite K, <- E2; discriminate|exact K].
  - apply IH; [intros; apply I1; right; auto|]. cbn in I3. inversion I3; auto.
Qed.
Theorem leaky_ok opset : exists k s', rewrite_leakyrelu cval name opset s0 = Some (k, s') /\ valid (graph_of s') /\ same_results op_rel (graph_of s0) (graph_of s').
Proof.
  unfold rewrite_leakyrelu. destruct (Nat.ltb opset 6).
  { exists 0, s0. split; auto. split; [exists rk0; exact W0|]. intros r args res H res'. split; [|intros ->; exact H].
    intros H'. apply (graph_function _ op_rel OE DET (graph_of s0) (ex_intro _ rk0 W0) r args res' res); auto. }
  unfold run_pattern. fold ns0. assert (Cl := match_ops_some (view ns0) leaky_pattern (seq 0 (length ns0)) (plain_view_closed _ _ PL)).
  destruct (match_ops (view ns0) true leaky_pattern (seq 0 (length ns0))) as [ms|] eqn:E; [|contradiction]. destruct (match_ops_inv _ _ _ _ E) as (I1 & _ & _).
  destruct (run_ok (tensor R) op_rel OE name name_inj gi go (leaky_plan cval ns0) (fun _ _ => True) 0 P C plan_some_l plan_sound_l (fun rk s m a nm s' m' A B E F _ => plan_keeps_l rk s m a nm s' m' A B E F) (fun _ _ _ _ _ _ _ _ _ _ _ _ _ _ => I) (fun _ => True) (fun _ _ _ _ _ _ _ _ _ _ _ _ _ => I) (map snd ms) 0 s0)
    as (k' & s' & R1 & _ & W' & _ & FV & DF & AH & _).
  - auto.
  - eauto.
  - intros i _. apply FR.
  - apply (matches_apart _ _ E). apply seq_NoDup.
  - apply Forall_forall. intros m Hm. apply in_map_iff in Hm. destruct Hm as ([o m'] & <- & Hm). apply (match_P o). apply I1. exact Hm.
  - exact I.
  - exists k', s'. split; auto. split; [exact W'|]. intros r args res H.
    assert (H' : body_rel op_rel r (graph_of s') args res).
    { apply body_rel_eq in H. destruct H as (r0 & A & B & Hh & D). cbn [graph_of f_ins f_outs f_nodes] in *.
      apply (behaves _ op_rel OE rk0 (s_nodes s0) (s_nodes s') gi go (fun _ => True) W0 W' FV) with (r0 := r0); auto.
      intros r1 Hr1 _. destruct (AH r1 Hr1 I) as (r' & R2 & R3 & _). exists r'. split; auto. intros t Ht. apply R2. intros i _ ->. destruct (FR i) as (_ & N1 & N2).
      destruct Ht as [Ht|Ht]; [apply N1; apply defs_alldefs; exact Ht|apply N2; exact Ht]. }
    intros res'. split; [|intros ->; exact H']. intros H2. exact (graph_function _ op_rel OE DET (graph_of s') W' r args res' res H2 H').
Qed.
End Leaky.
