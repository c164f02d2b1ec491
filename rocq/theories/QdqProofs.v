(** Removing a DequantizeLinear/QuantizeLinear pair. *)
From Coq Require Import String List Arith ZArith Bool Lia Reals.
From Verif Require Import FGraph FGraphSpec FGraphProofs IdentityModel IdentityProofs ApplyOptProofs ExecSpec ExecProofs DeadProofs RewriteProofs BypassProofs.
From Verif Require Import Tensor OnnxSpec TensorProofs FoldModel NNSpec PushSpec SwitchModel SwitchSpec SwitchProofs SwitchProofs2 SwitchProofs3 PoolModel PoolProofs QuantSpec QuantProofs QdqModel QdqSpec.
Import ListNotations.
Local Open Scope nat_scope.
Local Open Scope string_scope.
Local Open Scope list_scope.

(** ** Tensors *)
Lemma params_axis axis s z x x' ax ax' (ix : list nat) : shape x' = shape x -> params_ok axis s z x ax -> params_ok axis s z x' ax' ->
  param ax s ix = param ax' s ix /\ param ax z ix = param ax' z ix.
Proof.
  intros Sx (_ & _ & Sz & [P|[P _]]) (_ & _ & _ & [P'|[P' _]]); unfold param; rewrite Sz.
  - rewrite P; auto.
  - rewrite P; auto.
  - rewrite P'; auto.
  - rewrite Sx in P'. assert (ax = ax') by congruence. subst. auto.
Qed.
Lemma params_shape axis s z x x' ax : shape x' = shape x -> params_ok axis s z x ax -> params_ok axis s z x' ax.
Proof. intro E. unfold params_ok. now rewrite E. Qed.
Lemma deq_qua_rel ar axis s z x t y : deq_rel ar axis s z x t -> (qua_rel ar axis s z t y <-> y = x).
Proof.
  intros (ax & P & Wx & Wt & St & D). split.
  - intros (ax' & P' & _ & Wy & Sy & Q). apply tensor_ext; auto; [congruence|]. rewrite Sy. intros ix I.
    destruct (Q ix I) as (lo & hi & sv & zv & a & q & E1 & E2 & O & E3 & E4 & E5). rewrite St in I.
    destruct (D ix I) as (lo' & hi' & sv' & zv' & q' & F1 & F2 & O' & F3 & F4 & F5).
    destruct (params_axis axis s z t x ax' ax ix (eq_sym St) P' P) as [A B]. rewrite A, F1 in E1. rewrite B, F2 in E2. inversion E1; subst sv'. inversion E2; subst lo' hi' zv'. clear E1 E2.
    rewrite F5 in E3. inversion E3; subst a. apply (deq_qua ar) in E5; auto. subst q'. now rewrite E4, F3.
  - intros ->. exists ax. split; [apply (params_shape _ _ _ x); auto|]. split; auto. split; auto. split; auto. rewrite St. intros ix I.
    destruct (D ix I) as (lo & hi & sv & zv & q & F1 & F2 & O & F3 & F4 & F5). exists lo, hi, sv, zv, (deq ar sv zv q), q.
    split; auto. split; auto. split; auto. split; auto. split; auto. apply (deq_qua ar); auto.
Qed.

(** ** Removing a node in one call *)
Section Call.
Variable V : Type.
Variable op_rel : string -> string -> list (string * attr) -> nat -> list V -> list (list V -> list V -> Prop) -> list V -> Prop.
Hypothesis ext : op_ext op_rel.
Notation holds := (holds op_rel). Notation body_rel := (body_rel op_rel). Notation all_hold := (all_hold op_rel). Notation env := (env V).
Section Remove.
Variables (rk : string -> nat) (l1 : list fnode) (d : fnode) (l2 : list fnode) (gi go : list string).
Let g := FGraph (l1 ++ d :: l2) gi go.
Let g' := FGraph (l1 ++ l2) gi go.
Hypothesis H : WW rk g.
Hypothesis Hr : forall m t, In m (l1 ++ l2) -> In t (fv_node m) -> t <> "" -> ~ In t (f_out d).
Hypothesis Ho : forall o, In o go -> ~ In o (f_out d).
Let G : good rk g := H g (within_refl _).
Lemma removed_new t : In t (nonempty (f_out d)) -> ~ In t (f_ins g) /\ forall m, In m (l1 ++ l2) -> ~ In t (f_out m).
Proof.
  intros Ht. destruct (alldefs_split _ _ _ _ _ (g_ssa _ _ G)) as (S1 & S2 & S3).
  assert (K : ~ In t (alldefs (FGraph (l1 ++ l2) gi go))).
  { apply S3. apply alldefs_in_node. left. apply in_nonempty. exact Ht. }
  apply in_nonempty in Ht. split.
  - intro Q. apply K. apply alldefs_in. left. tauto.
  - intros m Hm Q. apply K. apply alldefs_in. right. exists m. split; auto. apply alldefs_in_node. tauto.
Qed.
Lemma removed_defs t : In t (defs g) <-> In t (defs g') \/ In t (nonempty (f_out d)).
Proof. unfold g, g'. rewrite defs_split, in_nonempty. tauto. Qed.
Lemma remove_forth (r0 : env) args res : body_rel r0 g args res -> body_rel r0 g' args res.
Proof.
  rewrite !body_rel_eq. cbn [g g' f_ins f_outs f_nodes] in *. intros (r' & A & B & C & D). exists (fun t => if mem t (nonempty (f_out d)) then r0 t else r' t).
  assert (Fr : forall t, ~ In t (nonempty (f_out d)) -> (if mem t (nonempty (f_out d)) then r0 t else r' t) = r' t).
  { intros t Ht. apply mem_false in Ht. now rewrite Ht. }
  apply all_hold_app in C. destruct C as [C1 C2]. split; [|split; [|split]].
  - intros t Ht. destruct (mem t (nonempty (f_out d))) eqn:E; auto. apply A. intro K. apply removed_defs in K. apply mem_false in E. tauto.
  - rewrite <- B. apply map_ext_in. intros t Ht. apply Fr. intro K. apply (proj1 (removed_new t K)). exact Ht.
  - intros m Hm. eapply holds_agree; [exact ext| | |apply C2; exact Hm].
    + intros t Ht. symmetry. apply Fr. intro K. apply in_nonempty in K. apply (Hr m t Hm Ht); tauto.
    + intros t Ht Ne. symmetry. apply Fr. intro K. apply (proj2 (removed_new t K) m Hm). exact Ht.
  - rewrite <- D. apply map_ext_in. intros t Ht. apply Fr. intro K. apply in_nonempty in K. apply (Ho t Ht). tauto.
Qed.
Lemma remove_back (r0 : env) args res :
  (forall r : env, (forall t, ~ In t (defs g') -> r t = r0 t) -> map r gi = args -> all_hold r (l1 ++ l2) -> exists r', (forall t, ~ In t (nonempty (f_out d)) -> r' t = r t) /\ holds r' d) ->
  body_rel r0 g' args res -> body_rel r0 g args res.
Proof.
  intros Hx. rewrite !body_rel_eq. cbn [g g' f_ins f_outs f_nodes] in *. intros (r1 & A & B & C & D). destruct (Hx r1 A B C) as (r' & F & Hd). exists r'. split; [|split; [|split]].
  - intros t Ht. rewrite F; [apply A|]; intro K; apply Ht, removed_defs; auto.
  - rewrite <- B. apply map_ext_in. intros t Ht. apply F. intro K. apply (proj1 (removed_new t K)). exact Ht.
  - apply all_hold_app. split; [exact Hd|]. intros m Hm. eapply holds_agree; [exact ext| | |apply C; exact Hm].
    + intros t Ht. symmetry. apply F. intro K. apply in_nonempty in K. apply (Hr m t Hm Ht); tauto.
    + intros t Ht Ne. symmetry. apply F. intro K. apply (proj2 (removed_new t K) m Hm). exact Ht.
  - rewrite <- D. apply map_ext_in. intros t Ht. apply F. intro K. apply in_nonempty in K. apply (Ho t Ht). tauto.
Qed.
End Remove.
End Call.

(** ** The graph *)
Lemma producer_in t g d : producer t g = Some d -> In d (f_nodes g) /\ In t (f_out d).
Proof. intro H. apply find_some in H. destruct H as [H K]. split; auto. now apply mem_in. Qed.
Lemma no_axis n : has_attr "axis" n = false -> attr_int "axis" (f_attrs n) = None.
Proof.
  unfold has_attr, attr_int, lookup_attr. intro H. destruct (find (fun p => String.eqb (fst p) "axis") (f_attrs n)) as [[k a]|] eqn:E; auto. exfalso.
  apply find_some in E. destruct E as [E1 E2]. assert (K : existsb (fun p => String.eqb (fst p) "axis") (f_attrs n) = true) by (apply existsb_exists; eauto). congruence.
Qed.
Lemma subst_node_id a b nm op dom at_ ins outs : ~ In a ins -> subst_node a b (FNode nm op dom at_ ins outs []) = FNode nm op dom at_ ins outs [].
Proof. intro H. cbn [subst_node map]. now rewrite map_sub_id. Qed.
Section Pair.
Variable op_rel : string -> string -> list (string * attr) -> nat -> list V -> list (list V -> list V -> Prop) -> list V -> Prop.
Hypothesis ext : op_ext op_rel.
Variable ar : arithmetic.
Hypothesis M : qdq_means op_rel ar.
Notation holds := (holds op_rel). Notation body_rel := (body_rel op_rel). Notation all_hold := (all_hold op_rel). Notation env := (env V).
Lemma holds_q r nm dom at_ t s z y : y <> "" -> (holds r (FNode nm "QuantizeLinear" dom at_ [t; s; z] [y] []) <-> qua_rel ar (int_attr "axis" at_ 1) (r s) (r z) (r t) (r y)).
Proof. intro Ny. destruct (q_quant _ _ M) as [other Mq]. apply (SwitchProofs3.holds_one op_rel "QuantizeLinear" _ r nm dom at_ t [s; z] y Ny Mq). Qed.
Lemma holds_d r nm dom at_ t s z y : y <> "" -> (holds r (FNode nm "DequantizeLinear" dom at_ [t; s; z] [y] []) <-> deq_rel ar (int_attr "axis" at_ 1) (r s) (r z) (r t) (r y)).
Proof. intro Ny. destruct (q_dequant _ _ M) as [other Mq]. apply (SwitchProofs3.holds_one op_rel "DequantizeLinear" _ r nm dom at_ t [s; z] y Ny Mq). Qed.

Lemma remove_pair_ok g q t s z y : valid g -> In q (f_nodes g) -> f_op q = "QuantizeLinear" -> f_in q = [t; s; z] -> f_out q = [y] -> f_bodies q = [] -> y <> "" ->
  (forall d, producer t g = Some d -> f_op d = "DequantizeLinear" -> f_out d = [t] /\ t <> "" /\ f_bodies d = [] /\ exists x s' z', f_in d = [x; s'; z'] /\ x <> "") ->
  exists g' changed, remove_pair g q = Some (g', changed) /\ valid g' /\ f_ins g' = f_ins g /\
  forall r0 args res, (body_rel r0 g args res -> body_rel r0 g' args res) /\
    ((forall r d, producer t g = Some d -> f_op d = "DequantizeLinear" -> (forall u, ~ In u (defs g') -> r u = r0 u) -> map r (f_ins g') = args -> all_hold r (f_nodes g') -> exists w, holds (IdentityProofs.upd V r t w) d) ->
     body_rel r0 g' args res -> body_rel r0 g args res).
Proof.
  intros [rk W] Hq Oq Iq Out Bq Ny Hd. assert (G := W g (within_refl _)). unfold remove_pair.
  assert (Id : exists g' changed, Some (g, false) = Some (g', changed) /\ valid g' /\ f_ins g' = f_ins g /\ forall r0 args res, (body_rel r0 g args res -> body_rel r0 g' args res) /\
    ((forall r d, producer t g = Some d -> f_op d = "DequantizeLinear" -> (forall u, ~ In u (defs g') -> r u = r0 u) -> map r (f_ins g') = args -> all_hold r (f_nodes g') -> exists w, holds (IdentityProofs.upd V r t w) d) -> body_rel r0 g' args res -> body_rel r0 g args res)).
  { exists g, false. split; auto. split; [exists rk; exact W|]. split; auto. }
  destruct (has_attr "axis" q) eqn:Ax; [apply Id|]. rewrite Iq. cbn [head]. destruct (producer t g) as [d|] eqn:Pd; [|apply Id].
  destruct (String.eqb_spec (f_op d) "DequantizeLinear") as [Od|]; [|apply Id]. destruct (same_params q d) eqn:Sp; [|apply Id]. cbn [negb]. rewrite Out. cbn [head].
  destruct (Hd d eq_refl Od) as (Ot & Nt & Bd & x & s' & z' & Idn & Nx). clear Hd. rewrite Ot, Idn. cbn [head].
  unfold same_params in Sp. rewrite Iq, Idn in Sp. cbn [tl] in Sp. rewrite (no_axis q Ax) in Sp.
  destruct (attr_int "axis" (f_attrs d)) as [a|] eqn:Ad; [discriminate|]. cbn [andb] in Sp. destruct (list_eq_dec string_dec [s; z] [s'; z']) as [E|]; [|discriminate]. injection E as <- <-. clear Sp.
  assert (Aq := attr_int_spec "axis" (f_attrs q) 1). rewrite (no_axis q Ax) in Aq. assert (Ad' := attr_int_spec "axis" (f_attrs d) 1). rewrite Ad in Ad'.
  destruct (mem y (f_outs g) || mem t (f_outs g)) eqn:Mo; [apply Id|]. clear Id. apply orb_false_iff in Mo. destruct Mo as [Moy Mot]. apply mem_false in Moy, Mot.
  destruct (producer_in _ _ _ Pd) as [Hd _].
  assert (Rq : forall i, In i [t; s; z] -> rk i < rk y).
  { intros i Hi. apply (g_acyclic _ _ G q); auto; [rewrite fv_node_eq, Iq; apply in_app_iff; auto|rewrite Out; now left]. }
  assert (Rd : forall i, In i [x; s; z] -> rk i < rk t).
  { intros i Hi. apply (g_acyclic _ _ G d); auto; [rewrite fv_node_eq, Idn; apply in_app_iff; auto|rewrite Ot; now left]. }
  assert (Rt := Rq t (or_introl eq_refl)). assert (Rx := Rd x (or_introl eq_refl)).
  assert (Nxy : y <> x) by (intros ->; lia). assert (Nxt : x <> t) by (intros ->; lia). assert (Nty : t <> y) by (intros ->; lia).
  assert (Dy : In y (defs g)) by (apply in_defs; split; auto; right; exists q; rewrite Out; split; auto; now left).
  assert (Dx : In x (defs g) \/ In x (fv_graph g)). { apply (used_defs_or_free g d); auto. rewrite fv_node_eq, Idn. now left. }
  destruct (bypass_valid rk g y x W Nxy Ny Nx Dy Dx) as (Er & W1 & F1 & U1); [lia|]. rewrite Er.
  destruct q as [qn qo qd qa qi qu qb]. destruct d as [dn do dd da di du db]. cbn [f_op f_in f_out f_bodies f_attrs f_name] in *. subst qo qi qu qb do di du db.
  set (q := FNode qn "QuantizeLinear" qd qa [t; s; z] [y] []) in *. set (d := FNode dn "DequantizeLinear" dd da [x; s; z] [t] []) in *.
  assert (Hq1 : In q (map (subst_node y x) (f_nodes g))).
  { apply in_map_iff. exists q. split; auto. apply subst_node_id. intro K. specialize (Rq y K). lia. }
  assert (Hd1 : In d (map (subst_node y x) (f_nodes g))).
  { apply in_map_iff. exists d. split; auto. apply subst_node_id. intro K. specialize (Rd y K). lia. }
  assert (Eg1 : subst_graph y x g = FGraph (map (subst_node y x) (f_nodes g)) (f_ins g) (f_outs g)) by (destruct g; reflexivity).
  rewrite Eg1 in W1, F1, U1. cbn [f_nodes] in U1. set (ns1 := map (subst_node y x) (f_nodes g)) in *. set (g1 := FGraph ns1 (f_ins g) (f_outs g)) in *.
  assert (Sem : forall r ns, In q ns -> In d ns -> all_hold r ns -> r y = r x).
  { intros r ns Q1 Q2 A. assert (Kq := A q Q1). assert (Kd := A d Q2). apply holds_q in Kq; auto. apply holds_d in Kd; auto. rewrite <- Aq in Kq. rewrite <- Ad' in Kd. now apply (deq_qua_rel _ _ _ _ _ _ (r y) Kd). }
  assert (E1 : equiv op_rel g g1).
  { rewrite <- Eg1. apply (subst_equiv V op_rel ext y x g rk W); auto.
    - intros r A. apply (Sem r (f_nodes g)); auto.
    - intros r A. rewrite Eg1 in A. apply (Sem r ns1); auto. }
  (* the QuantizeLinear *)
  set (g2 := if is_nil (consumers y g1) then drop qn g1 else g1).
  assert (G1 := W1 g1 (within_refl _)).
  assert (S2 : exists ns2, g2 = FGraph ns2 (f_ins g) (f_outs g) /\ WW rk g2 /\ In d ns2 /\ equiv op_rel g1 g2).
  { unfold g2. destruct (is_nil (consumers y g1)); [|exists ns1; split; auto; split; auto; split; auto; apply equiv_refl].
    destruct (in_split _ _ Hq1) as (l1 & l2 & El). assert (Nm := g_names _ _ G1). cbn [g1 f_nodes] in Nm. rewrite El in Nm.
    assert (Ed : drop qn g1 = FGraph (l1 ++ l2) (f_ins g) (f_outs g)). { unfold drop, g1. cbn [f_nodes f_ins f_outs]. rewrite El. rewrite (without_split qn l1 q l2); auto. }
    rewrite Ed. unfold g1 in W1 |- *. rewrite El in W1 |- *.
    assert (Hr : forall m u, In m (l1 ++ l2) -> In u (fv_node m) -> u <> "" -> ~ In u (f_out q)).
    { intros m u Hm Hu Nu [<-|[]]. destruct (U1 m y) as [K _]; auto. rewrite El. apply in_app_iff in Hm. apply in_app_iff. destruct Hm; auto. right. now right. }
    assert (Hgo : forall o, In o (f_outs g) -> ~ In o (f_out q)) by (intros o Ho [<-|[]]; auto).
    assert (Hdl : In d (l1 ++ l2)). { rewrite El in Hd1. apply in_app_iff in Hd1. apply in_app_iff. destruct Hd1 as [K|[K|K]]; auto. discriminate K. }
    exists (l1 ++ l2). split; auto. destruct (remove_valid rk l1 q l2 _ _ W1 Hr Hgo) as [W2 _]. split; [exact W2|]. split; auto.
    apply (remove_equiv V op_rel ext rk l1 q l2 _ _ W1 Hr Hgo). intros r A. exists (IdentityProofs.upd V r y (r x)). split.
    - intros u Hu. apply upd_other. intros ->. apply Hu. apply in_nonempty. split; auto. now left.
    - assert (Kd := A d Hdl). apply holds_d in Kd; auto. apply holds_q; auto. rewrite <- Aq. rewrite <- Ad' in Kd.
      rewrite upd_same. assert (Ne : forall i, In i [t; s; z] -> i <> y) by (intros i Hi ->; specialize (Rq y Hi); lia).
      rewrite !upd_other by (apply Ne; cbn; auto). apply (deq_qua_rel _ _ _ _ _ _ (r x) Kd). reflexivity. }
  destruct S2 as (ns2 & Eg2 & W2 & Hd2 & E2). assert (E12 : equiv op_rel g g2) by (eapply equiv_trans; [exact E1|exact E2]).
  (* the DequantizeLinear *)
  destruct (is_nil (consumers t g2)) eqn:Ct.
  2:{ exists g2, true. split; auto. split; [exists rk; exact W2|]. split; [rewrite Eg2; reflexivity|]. intros r0 args res. split; intros; apply E12; auto. }
  assert (G2 := W2 g2 (within_refl _)). destruct (in_split _ _ Hd2) as (l1 & l2 & El). rewrite Eg2 in *. assert (Nm := g_names _ _ G2). cbn [f_nodes] in Nm. rewrite El in Nm, W2, G2, Ct, E12 |- *. clear Eg2 g2 E2.
  assert (Ed : drop dn (FGraph (l1 ++ d :: l2) (f_ins g) (f_outs g)) = FGraph (l1 ++ l2) (f_ins g) (f_outs g)).
  { unfold drop. cbn [f_nodes f_ins f_outs]. rewrite (without_split dn l1 d l2); auto. }
  assert (Hr : forall m u, In m (l1 ++ l2) -> In u (fv_node m) -> u <> "" -> ~ In u (f_out d)).
  { intros m u Hm Hu Nu [<-|[]]. assert (Hm' : In m (l1 ++ d :: l2)) by (apply in_app_iff in Hm; apply in_app_iff; destruct Hm; auto; right; now right).
    assert (Dt : In t (defs (FGraph (l1 ++ d :: l2) (f_ins g) (f_outs g)))). { apply in_defs. split; auto. right. exists d. split; [cbn [f_nodes]; apply in_app_iff; right; now left|now left]. }
    destruct (proj1 (consumers_some t) m) as (c & K1 & K2); auto.
    { apply (WW_closed rk _ m W2). exact Hm'. }
    { intros h b Hb Hh Hi. apply (good_not_nested rk _ m b t G2 Hm' Hb); auto. apply (within_alldefs b h); auto. apply alldefs_in. auto. }
    destruct (consumers t (FGraph (l1 ++ d :: l2) (f_ins g) (f_outs g))) as [|c' cs] eqn:Cc; [|discriminate].
    assert (Hc : In c []). { rewrite <- Cc. cbn [consumers]. apply in_concat. exists (consumers_node t m). split; auto. now apply in_map. } destruct Hc. }
  assert (Hgo : forall o, In o (f_outs g) -> ~ In o (f_out d)) by (intros o Ho [<-|[]]; auto).
  destruct (remove_valid rk l1 d l2 _ _ W2 Hr Hgo) as [W3 _].
  exists (FGraph (l1 ++ l2) (f_ins g) (f_outs g)), true. cbn [f_name]. split; [f_equal; f_equal; exact Ed|]. split; [exists rk; exact W3|]. split; auto. intros r0 args res. split.
  - intro B. apply (remove_forth V op_rel ext rk l1 d l2 _ _ W2 Hr Hgo). now apply E12.
  - intros Hx B. apply E12. apply (remove_back V op_rel ext rk l1 d l2 _ _ W2 Hr Hgo); auto. intros r A1 A2 A3.
    destruct (Hx r d eq_refl eq_refl A1 A2 A3) as [w Hw]. exists (IdentityProofs.upd V r t w). split; [|exact Hw]. intros u Hu. apply upd_other. intros ->. apply Hu. apply in_nonempty. split; auto. now left.
Qed.
End Pair.
