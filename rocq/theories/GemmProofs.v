(** C59: one match. *)
From Coq Require Import String List Bool Arith Lia ZArith Reals Lra.
From Verif Require Import FGraph FGraphProofs FGraphSpec IdentityModel IdentityProofs ApplyOptProofs RewriteProofs Tensor OnnxSpec PushSpec TensorProofs MatchModel MatchSpec MatchProofs
  RewModel RewSpec RewMatch RewValues RewProofs RewProofs2 RewProofs3 DetProofs GemmSpec GemmValues GemmMatch.
Import ListNotations.
Local Open Scope string_scope. Local Open Scope list_scope. Local Open Scope nat_scope.

Lemma now_is rk s gi go n c : WW rk (FGraph (s_nodes s) gi go) -> In c (s_nodes s) -> f_name c = f_name n -> now s n = c.
Proof.
  intros W H E. unfold now. destruct (find (fun d => String.eqb (f_name d) (f_name n)) (s_nodes s)) as [d|] eqn:F.
  - apply find_some in F. destruct F as [F1 F2]. apply String.eqb_eq in F2. apply (node_of_name rk (FGraph (s_nodes s) gi go)); auto. congruence.
  - exfalso. apply (find_none _ _ F) in H. rewrite E, String.eqb_refl in H. discriminate H.
Qed.

Lemma fuse_shape nm a s s' t sh : fuse nm a s = Some s' -> s_shape s' t = Some sh ->
  (t = port0 nm /\ s_shape s (a_out a) = Some sh) \/ (t <> port0 nm /\ s_shape s t = Some sh).
Proof.
  unfold fuse. destruct (replace_all _ _ _) as [ns|]; [|discriminate]. cbv zeta. destruct (existsb _ _); [discriminate|]. intros E. injection E as <-. cbn [s_shape].
  unfold drop, put. destruct (mem t _); [discriminate|]. destruct (String.eqb_spec t (port0 nm)); auto.
Qed.

(** the tensor that is taken over has no shape afterwards *)
Lemma fuse_gone nm a s s' d : fuse nm a s = Some s' -> In d (a_del a) -> f_out d = [a_out a] -> a_out a <> port0 nm -> a_out a <> "" -> s_shape s' (a_out a) = None.
Proof.
  intros E Hd Od Ny N0. unfold fuse in E. destruct (replace_all _ _ _) as [ns|] eqn:R; [|discriminate E]. cbv zeta in E. destruct (existsb _ _) in E; [discriminate E|]. injection E as <-. cbn [s_shape].
  unfold drop. assert (K : mem (a_out a) (concat (map f_out (filter (safe (map f_name (a_del a)) ns) (a_del a)))) = true); [|rewrite K; reflexivity].
  apply mem_in, in_concat_map. exists d. split; [|rewrite Od; left; reflexivity]. apply filter_In. split; auto. unfold safe. rewrite Od. cbn [forallb]. rewrite andb_true_r.
  unfold replace_all in R. destruct (String.eqb_spec (a_out a) (port0 nm)) as [|_]; [contradiction|]. destruct (existsb _ _) in R; [discriminate R|]. injection R as <-.
  apply forallb_forall. intros c Hc. apply in_map_iff in Hc. destruct Hc as (c0 & <- & Hc). assert (U := proj1 (uses_subst (a_out a) (port0 nm) Ny N0) c0).
  destruct (subst_node (a_out a) (port0 nm) c0) as [nm1 op1 dom1 at1 in1 out1 b1]. cbn [uses_node f_in f_bodies] in *. apply orb_false_iff in U. destruct U as [-> ->]. reflexivity.
Qed.

Section Gemm.
Variable op_rel : string -> string -> list (string * attr) -> nat -> list (tensor R) -> list (list (tensor R) -> list (tensor R) -> Prop) -> list (tensor R) -> Prop.
Hypothesis OE : op_ext op_rel.
Variable cval : nat -> tensor R.
Hypothesis CW : forall id, wf (cval id).
Hypothesis M : gemm_means op_rel cval.
Variables (gi go : list string) (s0 : state) (rk0 : string -> nat).
Let ns0 := s_nodes s0.
Let graph_of (s : state) : fgraph := FGraph (s_nodes s) gi go.
Hypothesis W0 : WW rk0 (graph_of s0).
Hypothesis OK : gemm_ok cval go (s_nodes s0) (s_shape s0).
Variable name : nat -> string.
Variable k0 : nat.
Hypothesis FR : forall i, k0 <= i -> fresh_for (name i) (graph_of s0).
Definition new (t : string) : Prop := exists i, k0 <= i /\ t = port0 (name i).
Lemma new_out t n : new t -> In n ns0 -> ~ In t (f_out n).
Proof.
  intros (i & Hi & ->) Hn K. destruct (FR i Hi) as (_ & F2 & _). apply F2. apply defs_alldefs. apply in_defs. split; [apply port0_named|]. right. exists n. auto.
Qed.
Lemma new_in t n : new t -> In n ns0 -> ~ In t (f_in n).
Proof.
  intros (i & Hi & ->) Hn K. destruct (FR i Hi) as (_ & F2 & F3). set (t := port0 (name i)) in *.
  destruct (in_dec string_dec t (defs (graph_of s0))) as [D|D]; [apply F2; apply defs_alldefs; exact D|]. apply F3. apply in_fv_graph. split; auto. right. right. exists n. split; auto.
  rewrite fv_node_eq. apply in_app_iff. auto.
Qed.
Lemma new_named t : new t -> t <> "".
Proof. intros (i & _ & ->). apply port0_named. Qed.

(** a constant factor: the Mul, the name of the constant, the Const, its value *)
Notation fac := (option (fnode * string * fnode * nat)).
Definition fid (o : fac) : option nat := match o with Some (_, _, _, id) => Some id | None => None end.
Definition sd (m : match_result) (nm l u : string) (o : fac) : Prop :=
  match o with
  | None => get_op_named m nm = None /\ l = u
  | Some (mul, k, cn, id) => get_op_named m nm <> None /\ op_of ns0 m nm = Some cn /\ In mul ns0 /\ In cn ns0 /\ f_op mul = "Mul" /\ f_op cn = "Const" /\
      f_out mul = [l] /\ f_out cn = [k] /\ pair (f_in mul) k u /\ f_in cn = [] /\ f_bodies mul = [] /\ f_bodies cn = [] /\ l <> "" /\ k <> "" /\
      lookup "value" (f_attrs cn) = Some (ATensor id)
  end.
Definition alive (s : state) (o : fac) : Prop := match o with None => True | Some (mul, _, cn, _) => In mul (s_nodes s) /\ In cn (s_nodes s) end.
Record ginfo (m : match_result) (add mm : fnode) (l r ab c y : string) (oa ob : fac) : Prop := {
  q_add : op_of ns0 m "add" = Some add; q_mm : op_of ns0 m "matmul" = Some mm; q_c : tensor_of m "C" = Some c;
  q_opadd : In (f_op add) sum_ops; q_opmm : f_op mm = "MatMul";
  q_inadd : pair (f_in add) l r; q_inmm : length (f_in mm) = 2;
  q_outadd : f_out add = [y]; q_outmm : f_out mm = [ab];
  q_named : y <> "" /\ ab <> "" /\ c <> "" /\ ~ In "" (f_in mm);
  q_bodies : f_bodies add = [] /\ f_bodies mm = [];
  q_alpha : sd m "alpha" l ab oa; q_beta : sd m "beta" r c ob;
  q_in : In add ns0 /\ In mm ns0 }.
(** the product as it is now: other inputs *)
Definition same_node (n n' : fnode) : Prop :=
  f_name n' = f_name n /\ f_op n' = f_op n /\ f_attrs n' = f_attrs n /\ f_out n' = f_out n /\ f_bodies n' = f_bodies n /\ length (f_in n') = length (f_in n) /\ (~ In "" (f_in n) -> ~ In "" (f_in n')).
Definition GP (m : match_result) (s : state) : Prop :=
  exists add mm l r ab c y oa ob, ginfo m add mm l r ab c y oa ob /\ same_node mm (now s mm) /\
    (forall t sh, t = ab \/ t = c -> s_shape s t = Some sh -> s_shape s0 t = Some sh) /\
    (In add (s_nodes s) /\ alive s oa /\ alive s ob /\ In (now s mm) (s_nodes s) \/ s_shape s c = None).
Definition GC (m m' : match_result) : Prop := op_of ns0 m "add" <> op_of ns0 m' "add".

Lemma sd_times m nm l u o : sd m nm l u o -> times ns0 l u (fid o).
Proof.
  destruct o as [[[[mul k] cn] id]|]; cbn [sd fid times]; [|tauto].
  intros (_ & _ & I1 & I2 & O1 & O2 & F1 & F2 & P1 & P2 & B1 & B2 & N1 & N2 & L). exists k, (f_in mul), (f_attrs mul), (f_attrs cn).
  split; [rewrite <- O1; apply node_is; auto|]. split; auto. split; [rewrite <- O2, <- P2; apply node_is; auto|exact L].
Qed.
Lemma ginfo_group m add mm l r ab c y oa ob : ginfo m add mm l r ab c y oa ob -> gemm_group ns0 ab c y (fid oa) (fid ob).
Proof.
  intros I. destruct I. destruct q_in0 as [H1 H2]. exists (f_op add), (f_in add), (f_attrs add), l, r, (f_in mm), (f_attrs mm).
  split; [exact q_opadd0|]. split; [apply node_is; auto|]. split; [exact q_inadd0|]. split; [exact (sd_times _ _ _ _ _ q_alpha0)|]. split; [exact (sd_times _ _ _ _ _ q_beta0)|].
  rewrite <- q_opmm0. apply node_is; auto.
Qed.
Lemma side_sd m nm l u : side ns0 m nm l u -> l <> "" -> exists o, sd m nm l u o.
Proof.
  intros H Nl. destruct (k_plain _ _ _ _ OK) as [PL1 PL2]. destruct H as [[H1 H2]|(mul & k & cn & H1 & H2 & H3 & H4 & H5 & H6 & H7 & H8 & H9)]; [exists None; split; auto|].
  destruct (PL2 mul H3) as (B1 & (l' & O1 & N1) & _); [rewrite H4; cbn; auto 6|]. destruct (PL2 cn H7) as (B2 & (k' & O2 & N2) & I2); [rewrite H8; cbn; auto 6|].
  destruct (I2 H8) as (I3 & id & L). rewrite O1 in H5. destruct H5 as [->|[]]. rewrite O2 in H9. destruct H9 as [->|[]].
  exists (Some (mul, k, cn, id)). cbn [sd]. auto 20.
Qed.
Lemma match_GP p o m : In p gemm_patterns -> (exists bs, fits (view ns0) true p (Some o) None bs /\ m = fold_left add_binding bs (MatchResult [] [])) ->
  GP m s0 /\ op_of ns0 m "add" = nth_error ns0 o.
Proof.
  intros Hp H. apply gemm_match in H; auto. destruct H as (add & mm & l & r & ab & c & N & H1 & H2 & H3 & H4 & H5 & H6 & H7 & H8 & H9 & H10).
  assert (Ha : In add ns0) by exact (nth_error_In _ _ N). destruct (k_plain _ _ _ _ OK) as [PL1 PL2]. fold ns0 in PL1, PL2.
  destruct (PL2 add Ha) as (Bx & (y & Oy & Ny) & _); [unfold sum_ops in H2; cbn in H2 |- *; tauto|].
  destruct (PL2 mm H5) as (Bl & (ab' & Om & Nm) & _); [rewrite H6; cbn; auto 8|]. rewrite Om in H7. destruct H7 as [->|[]].
  assert (Nl : l <> "" /\ r <> "") by (split; intros ->; apply (PL1 add Ha); apply pair_in in H3; tauto).
  destruct (side_sd m _ _ _ H9) as (oa & Sa); [tauto|]. destruct (side_sd m _ _ _ H10) as (ob & Sb); [tauto|].
  split; [|congruence]. exists add, mm, l, r, ab, c, y, oa, ob. assert (Nw : now s0 mm = mm) by (apply (now_is rk0 s0 gi go); auto). split.
  - constructor; auto.
    + exact (proj1 (k_matmul _ _ _ _ OK mm H5 H6)).
    + split; auto. split; auto. split; [|apply PL1; auto]. destruct ob as [[[[mul k] cn] id]|]; cbn [sd] in Sb; [|destruct Sb; subst; tauto].
      intros ->. apply (PL1 mul); [tauto|]. destruct Sb as (_ & _ & _ & _ & _ & _ & _ & _ & P1 & _). apply pair_in in P1. tauto.
  - rewrite Nw. split; [unfold same_node; auto 10|]. split; [auto|]. left.
    split; [exact Ha|]. split; [destruct oa as [[[[mul k] cn] id]|]; cbn in *; [unfold ns0 in *; tauto|exact I]|]. split; [destruct ob as [[[[mul k] cn] id]|]; cbn in *; [unfold ns0 in *; tauto|exact I]|].
    exact H5.
Qed.

(** ** the plan *)
Definition sel (nm : string) (o : fac) (at_ : list (string * attr)) : Prop :=
  match o with None => at_ = [] | Some (_, _, _, id) => at_ = [(nm, ATensor id)] /\ (shape (cval id) = [] \/ shape (cval id) = [1]) end.
Lemma sel_skip nm o at_ key l : sel nm o at_ -> nm <> key -> lookup key (at_ ++ l) = lookup key l.
Proof.
  destruct o as [[[[mul k] cn] id]|]; cbn [sel]; [intros [-> _] N|intros -> _; reflexivity]. cbn [app lookup]. destruct (String.eqb_spec nm key); [contradiction|reflexivity].
Qed.
Lemma scale_cases m nm l u o : sd m nm l u o -> (forall id, fid o = Some id -> hd 0 (shape (cval id)) = 1 -> shape (cval id) = [1]) ->
  scale_attr cval ns0 m nm = Some None \/ exists at_, scale_attr cval ns0 m nm = Some (Some at_) /\ sel nm o at_.
Proof.
  intros H K. unfold scale_attr. destruct o as [[[[mul k] cn] id]|]; cbn [sd] in H.
  - destruct H as (G & O1 & H). destruct (get_op_named m nm) as [g|]; [|contradiction]. rewrite O1. cbn [bind].
    assert (L : lookup "value" (f_attrs cn) = Some (ATensor id)) by tauto. unfold const_id. rewrite lookup_find, L. cbn [bind].
    specialize (K id eq_refl). destruct (shape (cval id)) as [|d [|d' sh]] eqn:E.
    + right. eexists. split; [reflexivity|]. cbn. auto.
    + destruct (Nat.eqb_spec d 1) as [->|]; [|auto]. right. eexists. split; [reflexivity|]. cbn. auto.
    + destruct (Nat.eqb_spec d 1) as [->|]; [|auto]. discriminate (K eq_refl).
  - destruct H as [-> _]. right. exists []. cbn. auto.
Qed.
Record detail (s : state) (m : match_result) (act : action) (add mm mm' : fnode) (l r ab c y : string) (oa ob : fac) (a b : string) (za zb : Z) (sa sb : list (string * attr)) (csh absh : list Z) : Prop := {
  d_act : act = Action "Gemm" (sa ++ sb ++ [("transA", AInt za); ("transB", AInt zb)]) [a; b; c] y [add; mm];
  d_sa : sel "alpha" oa sa; d_sb : sel "beta" ob sb;
  d_ta : lookup "transpose_a" (f_attrs mm) = Some (AInt za); d_tb : lookup "transpose_b" (f_attrs mm) = Some (AInt zb);
  d_in : f_in mm' = [a; b];
  d_c : s_shape s c = Some csh; d_ab : s_shape s ab = Some absh; d_known : existsb (Z.eqb (-1)) (csh ++ absh) = false;
  d_ra : rank_is s a 2 = true; d_rb : rank_is s b 2 = true; d_comp : compatible (rev csh) (rev absh) = Some true }.
Lemma plan_cases s m add mm l r ab c y oa ob : ginfo m add mm l r ab c y oa ob -> same_node mm (now s mm) ->
  (forall t sh, t = ab \/ t = c -> s_shape s t = Some sh -> s_shape s0 t = Some sh) ->
  gemm_plan cval ns0 s m = Some None \/
  exists act a b za zb sa sb csh absh, gemm_plan cval ns0 s m = Some (Some act) /\ detail s m act add mm (now s mm) l r ab c y oa ob a b za zb sa sb csh absh.
Proof.
  intros I SN SH. set (mm' := now s mm) in *. assert (Gr := ginfo_group _ _ _ _ _ _ _ _ _ _ I). destruct I. destruct SN as (E1 & E2 & E3 & E4 & E5 & E6 & E7).
  unfold gemm_plan. rewrite q_mm0. cbn [bind]. fold mm'. rewrite q_inmm0 in E6.
  destruct (f_in mm') as [|a [|b [|? ?]]] eqn:Ei; try discriminate E6.
  destruct (negb _); [left; reflexivity|]. unfold gemm_attr.
  destruct (scale_cases m "alpha" l ab oa q_alpha0) as [->|(sa & -> & Sa)]; [intros id Eid; apply (k_factor _ _ _ _ OK _ _ _ _ _ id Gr); auto|left; reflexivity|]. cbn [bind].
  destruct (scale_cases m "beta" r c ob q_beta0) as [->|(sb & -> & Sb)]; [intros id Eid; apply (k_factor _ _ _ _ OK _ _ _ _ _ id Gr); auto|left; reflexivity|]. cbn [bind].
  unfold transpose_attrs. rewrite E3, (lookup_find "transpose_a"), (lookup_find "transpose_b"). destruct (k_matmul _ _ _ _ OK mm (proj2 q_in0) q_opmm0) as [_ [[T1 T2]|(za & zb & T1 & T2)]]; (rewrite T1; rewrite ?T2; cbn [bind]); [left; reflexivity|].
  rewrite q_add0, q_c0. cbn [bind hd_error]. rewrite E4, q_outmm0. cbn [hd_error bind].
  destruct (s_shape s c) as [csh|] eqn:Ec; [|left; reflexivity]. destruct (s_shape s ab) as [absh|] eqn:Eab; [|left; reflexivity].
  destruct (existsb (Z.eqb (-1)) (csh ++ absh)) eqn:Ex; [left; reflexivity|]. destruct (rank_is s a 2) eqn:Ra; [|left; reflexivity]. destruct (rank_is s b 2) eqn:Rb; [|left; reflexivity]. cbn [andb negb].
  assert (Cs : compatible (rev csh) (rev absh) <> None).
  { apply compatible_some. rewrite !rev_length. apply (k_rank _ _ _ _ OK ab c y _ _ csh absh Gr); auto. }
  destruct (compatible (rev csh) (rev absh)) as [[|]|] eqn:Cp; [|left; reflexivity|contradiction]. cbn [bind negb]. rewrite q_outadd0. cbn [hd_error bind]. right.
  eexists. exists a, b, za, zb, sa, sb, csh, absh. split; [reflexivity|]. constructor; auto.
Qed.
Lemma GP_plan_some rk s m : WW rk (graph_of s) -> GP m s -> gemm_plan cval ns0 s m <> None.
Proof.
  intros W (add & mm & l & r & ab & c & y & oa & ob & I & SN & SH & _).
  destruct (plan_cases s m add mm l r ab c y oa ob I SN SH) as [-> | (act & a & b & za & zb & sa & sb & csh & absh & -> & _)]; discriminate.
Qed.
Lemma GP_info rk s m act : WW rk (graph_of s) -> GP m s -> gemm_plan cval ns0 s m = Some (Some act) ->
  exists add mm mm' l r ab c y oa ob a b za zb sa sb csh absh, ginfo m add mm l r ab c y oa ob /\
    In add (s_nodes s) /\ alive s oa /\ alive s ob /\ In mm' (s_nodes s) /\ same_node mm mm' /\ detail s m act add mm mm' l r ab c y oa ob a b za zb sa sb csh absh.
Proof.
  intros W (add & mm & l & r & ab & c & y & oa & ob & I & SN & SH & L) E.
  destruct (plan_cases s m add mm l r ab c y oa ob I SN SH) as [E'|(act' & a & b & za & zb & sa & sb & csh & absh & E' & D)]; rewrite E in E'; [discriminate E'|]. injection E' as <-.
  destruct L as [(Ha & Aa & Ab & Hm)|L]; [|destruct D; congruence].
  exists add, mm, (now s mm), l, r, ab, c, y, oa, ob, a, b, za, zb, sa, sb, csh, absh. auto 10.
Qed.

(** ** values *)
Lemma side_value s m nm l u o (r : env (tensor R)) : sd m nm l u o -> alive s o -> all_hold op_rel r (s_nodes s) ->
  exists a, forall at_, sel nm o at_ ->
    scaled (match fid o with Some id => Some (cval id) | None => None end) a (r u) (r l) /\ (o = None /\ a = 1%R \/ exists id, at_ = [(nm, ATensor id)] /\ data (cval id) = [a]).
Proof.
  destruct o as [[[[mul k] cn] id]|]; cbn [sd alive fid sel scaled].
  2: { intros [_ ->] _ _. exists 1%R. intros at_ _. auto. }
  intros (_ & _ & _ & _ & O1 & O2 & F1 & F2 & P1 & P2 & B1 & B2 & N1 & N2 & L) [A1 A2] Hr.
  assert (V1 := is_op_value op_rel "Const" _ r cn k (g_const _ _ M) O2 B2 F2 N2 (Hr cn A2)). destruct V1 as (_ & id' & E1 & V1). rewrite L in E1. injection E1 as <-.
  assert (V2 := is_op_value op_rel "Mul" _ r mul l (g_mul _ _ M) O1 B1 F1 N1 (Hr mul A1)). destruct V2 as (a1 & b1 & E2 & V2).
  destruct (data (cval id)) as [|a d] eqn:D.
  { exists 0%R. intros at_ [_ K]. exfalso. assert (Q := CW id). unfold wf in Q. rewrite D in Q. destruct K as [K|K]; rewrite K in Q; discriminate Q. }
  exists a. intros at_ [-> K]. assert (D' : d = []). { assert (Q := CW id). unfold wf in Q. rewrite D in Q. destruct K as [K|K]; rewrite K in Q; cbn in Q; destruct d; auto; discriminate Q. } subst d.
  split; [|right; exists id; auto]. split; [exact K|]. split; [reflexivity|]. rewrite <- V1. destruct P1 as [Q|Q]; rewrite Q in E2; cbn in E2; injection E2 as <- <-; auto.
Qed.
Lemma scaled_wf o a x y : scaled o a x y -> wf y -> wf x.
Proof. destruct o as [c|]; cbn; [|intros [-> _]; auto]. intros (_ & _ & [H|H]) _; destruct H as (W1 & W2 & _); auto. Qed.
Lemma ew_wf f (x y z : tensor R) : elementwise_rel f x y z -> wf x /\ wf y.
Proof. intros (A & B & _). auto. Qed.
Lemma GP_sound rk s m act : WW rk (graph_of s) -> GP m s -> gemm_plan cval ns0 s m = Some (Some act) ->
  exists root, sound_action rk (graph_of s) act root /\
    forall r, all_hold op_rel r (s_nodes s) -> well_shaped (s_shape s) r -> op_rel (a_op act) "" (a_attrs act) 1 (map r (a_ins act)) [] [r (a_out act)].
Proof.
  intros W H E. destruct (GP_info rk s m act W H E) as (add & mm & mm' & l & r & ab & c & y & oa & ob & a & b & za & zb & sa & sb & csh & absh & I & Ha & Aa & Ab & Hm & SN & D). exists add.
  assert (Gr := ginfo_group _ _ _ _ _ _ _ _ _ _ I). destruct I, D. subst act. destruct (k_out _ _ _ _ OK _ _ _ _ _ Gr) as [Oy Oab]. destruct q_named0 as (Ny & Nab & Nc & Nmm). destruct q_bodies0 as [B1 B2].
  destruct SN as (E1 & E2 & E3 & E4 & E5 & E6 & E7). assert (AC := g_acyclic _ _ (W _ (within_refl _))). cbn [graph_of f_nodes] in AC.
  assert (Fa : forall t, In t (f_in add) -> In t (fv_node add)) by (intros t Ht; rewrite fv_node_eq; apply in_app_iff; auto).
  assert (Fm : forall t, In t (f_in mm') -> In t (fv_node mm')) by (intros t Ht; rewrite fv_node_eq; apply in_app_iff; auto).
  assert (SR : forall nm t u o, sd m nm t u o -> alive s o -> In t (f_in add) -> rk u <= rk t /\ rk t < rk y /\ exists n, In n (s_nodes s) /\ In u (fv_node n)).
  { intros nm t u o S1 A1 Ht. assert (L1 : rk t < rk y) by (apply (AC add t y); auto; rewrite q_outadd0; left; reflexivity).
    destruct o as [[[[mul k] cn] id]|]; cbn [sd alive] in S1, A1.
    - destruct S1 as (_ & _ & _ & _ & _ & _ & F1 & _ & P1 & _ & _ & _ & N1 & _). assert (Iu : In u (fv_node mul)) by (rewrite fv_node_eq; apply in_app_iff; left; apply pair_in in P1; tauto).
      split; [|split; [exact L1|exists mul; tauto]]. apply Nat.lt_le_incl. apply (AC mul u t); auto; [tauto|]. rewrite F1. left. reflexivity.
    - destruct S1 as [_ <-]. split; [lia|]. split; [exact L1|]. exists add. auto. }
  assert (DF : forall t, (exists n, In n (s_nodes s) /\ In t (fv_node n)) -> t <> "" -> In t (defs (graph_of s)) \/ In t (fv_graph (graph_of s))).
  { intros t (n & Hn & Ht) Nt. destruct (in_dec string_dec t (defs (graph_of s))) as [K|K]; auto. right. apply in_fv_graph. split; auto. right. right. exists n. auto. }
  cbn [a_op a_attrs a_ins a_out a_del]. apply pair_in in q_inadd0 as Pa. destruct Pa as [Pl Pr].
  destruct (SR _ _ _ _ q_alpha0 Aa Pl) as (La1 & La2 & La3). destruct (SR _ _ _ _ q_beta0 Ab Pr) as (Lb1 & Lb2 & Lb3).
  assert (Nab' : ~ In "" (f_in mm')) by auto.
  split.
  - constructor; cbn [a_op a_attrs a_ins a_out a_del graph_of f_nodes f_outs]; auto.
    + left. reflexivity.
    + intros d [<-|[<-|[]]]; [exists add|exists mm']; auto.
    + exists (f_name mm). intros d [<-|[<-|[]]]; auto.
    + intros d o [<-|[<-|[]]] Ho; [rewrite q_outadd0 in Ho|rewrite q_outmm0 in Ho]; destruct Ho as [<-|[]]; auto.
    + assert (Rm : forall t, In t (f_in mm') -> t <> "" /\ (In t (defs (graph_of s)) \/ In t (fv_graph (graph_of s))) /\ rk t < rk y).
      { intros t Ht. assert (Nt : t <> "") by (intros ->; auto). split; auto. split; [apply DF; eauto|]. assert (rk t < rk ab) by (apply (AC mm' t ab); auto; rewrite E4, q_outmm0; left; reflexivity). lia. }
      rewrite d_in0 in Rm. intros t [<-|[<-|[<-|[]]]]; [apply Rm; left; reflexivity|apply Rm; right; left; reflexivity|]. split; auto. split; [apply DF; eauto|]. lia.
  - intros rr Hr WS. cbn [map].
    destruct (side_value s m "alpha" l ab oa rr q_alpha0 Aa Hr) as (al & Va). destruct (Va sa d_sa0) as [Va1 Va2]. destruct (side_value s m "beta" r c ob rr q_beta0 Ab Hr) as (be & Vb). destruct (Vb sb d_sb0) as [Vb1 Vb2].
    destruct (holds_plain op_rel rr mm' ab) as (vs & Hv & Nv); [rewrite E5; exact B2|rewrite E4; exact q_outmm0|exact Nab|apply Hr; exact Hm|].
    rewrite E2, q_opmm0, d_in0, E3 in Hv. destruct (g_matmul _ _ M _ _ _ _ Hv) as (xa & xb & w & Ei & Ew & MM). cbn [map] in Ei. injection Ei as <- <-. subst vs. cbn in Nv. injection Nv as ->.
    assert (RK : forall t, rank_is s t 2 = true -> length (shape (rr t)) = 2).
    { intros t Ht. unfold rank_is in Ht. destruct (s_shape s t) as [sh|] eqn:Et; [|discriminate Ht]. apply Nat.eqb_eq in Ht. rewrite <- Ht. symmetry. apply conforms_length. apply WS. exact Et. }
    specialize (MM (negb (Z.eqb za 0)) (negb (Z.eqb zb 0)) (ex_intro _ za (conj d_ta0 eq_refl)) (ex_intro _ zb (conj d_tb0 eq_refl)) (RK a d_ra0) (RK b d_rb0)).
    assert (Wp : wf (rr ab) /\ length (shape (rr ab)) = 2) by (destruct MM as (? & ? & ? & _ & _ & Wp & Sp & _); rewrite Sp; auto). destruct Wp as [Wp Sp].
    assert (El : length (shape (rr l)) = 2). { destruct (scaled_in _ _ _ _ Va1) as (_ & Q & _); [right; left; intros K; rewrite K in Sp; discriminate Sp|exact Wp|rewrite Q; exact Sp]. }
    assert (SUM : elementwise_rel Rplus (rr l) (rr r) (rr y) \/ elementwise_rel Rplus (rr r) (rr l) (rr y)).
    { assert (BIN : binary Rplus (f_attrs add) (map rr (f_in add)) (rr y) -> elementwise_rel Rplus (rr l) (rr r) (rr y) \/ elementwise_rel Rplus (rr r) (rr l) (rr y)).
      { intros (u & v & Eu & Hu). destruct q_inadd0 as [Q|Q]; rewrite Q in Eu; cbn in Eu; injection Eu as <- <-; auto. }
      destruct q_opadd0 as [K|[K|[K|[]]]]; symmetry in K.
      - apply BIN. exact (is_op_value op_rel "Add" _ rr add y (g_add _ _ M) K B1 q_outadd0 Ny (Hr add Ha)).
      - apply BIN. exact (is_op_value op_rel "AddV2" _ rr add y (g_addv2 _ _ M) K B1 q_outadd0 Ny (Hr add Ha)).
      - destruct (holds_plain op_rel rr add y B1 q_outadd0 Ny (Hr add Ha)) as (vs & Hv' & Nv). rewrite K in Hv'. destruct (g_bias _ _ M _ _ _ _ Hv') as (u & v & w & Eu & Ew & Lb & Hu).
        subst vs. cbn in Nv. injection Nv as ->. destruct q_inadd0 as [Q|Q]; rewrite Q in Eu; cbn in Eu; injection Eu as <- <-; [left; apply Hu; exact El|]. exfalso. lia. }
    assert (Wc : wf (rr c)) by (apply (scaled_wf _ _ _ _ Vb1); destruct SUM as [Q|Q]; apply ew_wf in Q; tauto).
    apply (g_gemm _ _ M) with (ta := negb (Z.eqb za 0)) (tb := negb (Z.eqb zb 0)) (al := al) (be := be).
    + exists za. split; auto. rewrite (sel_skip _ _ _ _ _ d_sa0), (sel_skip _ _ _ _ _ d_sb0) by discriminate. reflexivity.
    + exists zb. split; auto. rewrite (sel_skip _ _ _ _ _ d_sa0), (sel_skip _ _ _ _ _ d_sb0) by discriminate. reflexivity.
    + destruct Va2 as [[En ->]|(id & Es & Da)].
      * left. split; [|reflexivity]. rewrite En in d_sa0. cbn [sel] in d_sa0. rewrite d_sa0. cbn [app]. rewrite (sel_skip _ _ _ _ _ d_sb0) by discriminate. reflexivity.
      * right. exists id. rewrite Es. split; [reflexivity|exact Da].
    + destruct Vb2 as [[En ->]|(id & Es & Db)].
      * left. split; [|reflexivity]. rewrite (sel_skip _ _ _ _ _ d_sa0) by discriminate. rewrite En in d_sb0. cbn [sel] in d_sb0. rewrite d_sb0. reflexivity.
      * right. exists id. split; [|exact Db]. rewrite (sel_skip _ _ _ _ _ d_sa0) by discriminate. rewrite Es. reflexivity.
    + apply (gemm_value _ _ _ _ al be (rr a) (rr b) (rr c) (rr ab) (rr l) (rr r) (rr y) MM Va1 Vb1 Wc); [|exact SUM].
      apply (compatible_into csh absh); auto; apply WS; assumption.
Qed.

(** ** later matches *)
Lemma same_subst n n' a b : same_node n n' -> f_bodies n = [] -> b <> "" -> same_node n (subst_node a b n').
Proof.
  intros (E1 & E2 & E3 & E4 & E5 & E6 & E7) B Nb. destruct n' as [nm op dom at_ ins outs bodies]. cbn [f_name f_op f_attrs f_out f_bodies f_in] in *. unfold same_node. cbn [subst_node f_name f_op f_attrs f_out f_bodies f_in].
  split; auto. split; auto. split; auto. split; auto. rewrite E5, B. split; [reflexivity|]. split; [rewrite map_length; exact E6|]. intros N K. apply in_map_iff in K. destruct K as (t & Et & Ht).
  unfold sub in Et. destruct (String.eqb t a); [apply Nb; exact Et|]. subst t. exact (E7 N Ht).
Qed.
Lemma GP_keeps rk s m act nm s' m' : WW rk (graph_of s) -> GP m s -> gemm_plan cval ns0 s m = Some (Some act) -> fresh_for nm (graph_of s) ->
  (exists i, k0 <= i /\ nm = name i) -> fuse nm act s = Some s' -> GC m m' -> GP m' s -> GP m' s'.
Proof.
  intros W H E F NW Fu Cm (add' & mx & l' & r' & ab' & c' & y' & oa' & ob' & I' & SN' & SH' & L').
  destruct (GP_sound rk s m act W H E) as (root & SA & _). assert (Fu' := Fu).
  destruct (fuse_ok _ op_rel OE rk s gi go act nm root W F SA) as (s1 & E1 & (rk1 & W1 & _) & _ & _ & _ & K1 & K2 & _ & K4). rewrite E1 in Fu. injection Fu as <-.
  destruct (GP_info rk s m act W H E) as (add & mm & mm1 & l & r & ab & c & y & oa & ob & a & b & za & zb & sa & sb & csh & absh & I & Ha & Aa & Ab & Hm & SN & D).
  assert (Gr := ginfo_group _ _ _ _ _ _ _ _ _ _ I). 
  assert (Nnew : new (port0 nm)) by (destruct NW as (i & Hi & ->); exists i; auto).
  assert (Old : forall t, t = ab' \/ t = c' -> t <> port0 nm).
  { intros t Ht ->. destruct Ht as [Ht|Ht].
    - apply (new_out _ mx Nnew); [exact (proj2 (q_in _ _ _ _ _ _ _ _ _ _ I'))|]. rewrite (q_outmm _ _ _ _ _ _ _ _ _ _ I'), Ht. left. reflexivity.
    - assert (Q := q_beta _ _ _ _ _ _ _ _ _ _ I'). destruct ob' as [[[[mul k] cn] id]|]; cbn [sd] in Q.
      + destruct Q as (_ & _ & I1 & _ & _ & _ & _ & _ & P1 & _). apply (new_in _ mul Nnew I1). rewrite Ht. apply pair_in in P1. tauto.
      + destruct Q as [_ Q]. apply (new_in _ add' Nnew); [exact (proj1 (q_in _ _ _ _ _ _ _ _ _ _ I'))|]. rewrite Ht, <- Q. assert (P1 := q_inadd _ _ _ _ _ _ _ _ _ _ I'). apply pair_in in P1. tauto. }
  assert (SH1 : forall t sh, t = ab' \/ t = c' -> s_shape s1 t = Some sh -> s_shape s0 t = Some sh).
  { intros t sh Ht Et. apply (fuse_shape _ _ _ _ _ _ Fu') in Et. destruct Et as [[-> _]|[_ Et]]; [destruct (Old _ Ht eq_refl)|apply SH'; auto]. }
  assert (SN1 : same_node mx (now s1 mx)).
  { unfold now. destruct (find (fun d => String.eqb (f_name d) (f_name mx)) (s_nodes s1)) as [d|] eqn:Fd; [|unfold same_node; auto 10].
    apply find_some in Fd. destruct Fd as [Fd1 Fd2]. apply String.eqb_eq in Fd2. destruct (K4 d Fd1) as [->|(n0 & Hn0 & ->)].
    - exfalso. destruct NW as (i & Hi & ->). destruct (FR i Hi) as (F1 & _). apply F1. cbn [new_node f_name] in Fd2. rewrite Fd2. apply in_map. exact (proj2 (q_in _ _ _ _ _ _ _ _ _ _ I')).
    - rewrite f_name_subst in Fd2. assert (Q := now_is rk s gi go mx n0 W Hn0 Fd2). rewrite Q in SN'. apply same_subst; auto; [exact (proj2 (q_bodies _ _ _ _ _ _ _ _ _ _ I'))|apply port0_named]. }
  assert (GG : s_shape s1 (a_out act) = None).
  { destruct D. subst act. cbn [a_out a_del] in *. apply (fuse_gone nm _ s s1 add Fu'); cbn [a_out a_del]; [left; reflexivity|exact (q_outadd _ _ _ _ _ _ _ _ _ _ I)| |].
    - intros Q. apply (new_out y add); [rewrite Q; exact Nnew|exact (proj1 (q_in _ _ _ _ _ _ _ _ _ _ I))|rewrite (q_outadd _ _ _ _ _ _ _ _ _ _ I); left; reflexivity].
    - exact (proj1 (q_named _ _ _ _ _ _ _ _ _ _ I)). }
  exists add', mx, l', r', ab', c', y', oa', ob'. split; [exact I'|]. split; [exact SN1|]. split; [exact SH1|].
  destruct L' as [(Ha' & Aa' & Ab' & Hm')|L'].
  2: { right. destruct (s_shape s1 c') as [sh|] eqn:Q; auto. apply (fuse_shape _ _ _ _ _ _ Fu') in Q. destruct Q as [[Q _]|[_ Q]]; [destruct (Old c' (or_intror eq_refl) Q)|congruence]. }
  destruct (string_dec c' (a_out act)) as [Q|Ncy]; [right; rewrite Q; exact GG|]. left. set (mm' := now s mx) in *.
  clear root SA E1 SN1 SH1 GG. destruct D. subst act. cbn [a_out a_del map] in K1, K2. cbn [a_out] in Ncy. clear d_sa0 d_sb0 d_ta0 d_tb0 d_in0 d_c0 d_ab0 d_known0 d_ra0 d_rb0 d_comp0 H.
  destruct I, I'. unfold GC in Cm. rewrite q_add0, q_add1 in Cm. destruct q_named0 as (Ny & Nab & Nc & Nmm). destruct q_named1 as (Ny' & Nab' & Nc' & Nmm'). destruct q_bodies1 as [B1' B2'].
  destruct SN as (S1 & S2 & S3 & S4 & S5 & S6 & S7).
  (** nodes that are not sums or products stay *)
  assert (Oadd : In (f_op add) sum_ops) by auto.
  assert (Not : forall n, In n (s_nodes s) -> f_op n <> f_op add -> f_op n <> "MatMul" -> ~ In (f_name n) [f_name add; f_name mm]).
  { intros n Hn N1 N2 [Q|[Q|[]]]; [|rewrite <- S1 in Q]; apply (node_of_name rk (graph_of s)) in Q; auto; subst n; [apply N1; reflexivity|]. apply N2. congruence. }
  assert (Out : forall n t, In n (s_nodes s) -> f_out n = [t] -> ~ In (f_op n) sum_ops -> t <> y).
  { intros n t Hn Ho No ->. assert (add = n) by (apply (node_of_out rk (graph_of s) add n y); auto; [rewrite q_outadd0|rewrite Ho]; left; reflexivity). subst n. contradiction. }
  assert (NM : ~ In "Mul" sum_ops /\ ~ In "Const" sum_ops /\ ~ In "MatMul" sum_ops) by (unfold sum_ops; repeat split; intros [K|[K|[K|[]]]]; discriminate K). destruct NM as (NM1 & NM2 & NM3).
  assert (SK : forall nm0 t u o, sd m' nm0 t u o -> alive s o -> u <> y -> alive s1 o /\ t <> y).
  { intros nm0 t u o S0 A0 Nu. destruct o as [[[[mul k] cn] id]|]; cbn [sd alive] in *; [|destruct S0 as [_ ->]; auto].
    destruct S0 as (_ & _ & _ & _ & O1 & O2 & F1 & F2 & P1 & P2 & Bb1 & Bb2 & N1 & N2 & L). destruct A0 as [A1 A2].
    assert (Nk : k <> y) by (apply (Out cn); auto; rewrite O2; exact NM2).
    split; [|apply (Out mul); auto; rewrite O1; exact NM1]. split.
    - assert (Q := K1 mul A1). rewrite subst_id in Q; [apply Q| |]; auto.
      + apply Not; auto; rewrite O1; [intros K; rewrite <- K in Oadd; contradiction|discriminate].
      + intros K. destruct (pair_only _ _ _ _ P1 K); congruence.
    - assert (Q := K1 cn A2). rewrite subst_id in Q; [apply Q| |]; auto.
      + apply Not; auto; rewrite O2; [intros K; rewrite <- K in Oadd; contradiction|discriminate].
      + rewrite P2. intros []. }
  assert (Nab1 : ab' <> y). { destruct SN' as (T1 & T2 & T3 & T4 & T5 & T6 & T7). apply (Out mm'); auto; [congruence|]. rewrite T2, q_opmm1. exact NM3. }
  destruct (SK _ _ _ _ q_alpha1 Aa' Nab1) as [Aa1 Nl]. destruct (SK _ _ _ _ q_beta1 Ab' Ncy) as [Ab1 Nr].
  assert (Dadd : ~ In (f_name add') [f_name add; f_name mm]).
  { intros [Q|[Q|[]]]; [|rewrite <- S1 in Q]; apply (node_of_name rk (graph_of s)) in Q; auto; subst add'; [apply Cm; congruence|]. rewrite S2, q_opmm0 in q_opadd1. contradiction. }
  split; [|split; [exact Aa1|split; [exact Ab1|]]].
  - assert (Q := K1 add' Ha' Dadd). rewrite subst_id in Q; auto. intros K. destruct (pair_only _ _ _ _ q_inadd1 K); congruence.
  - assert (Q : In (subst_node y (port0 nm) mm') (s_nodes s1)); [|rewrite (now_is rk1 s1 gi go mx (subst_node y (port0 nm) mm') W1 Q); [exact Q|rewrite f_name_subst; exact (proj1 SN')]].
    destruct SN' as (T1 & T2 & T3 & T4 & T5 & T6 & T7). assert (Io : In ab' (f_out mm')) by (rewrite T4, q_outmm1; left; reflexivity).
    destruct oa' as [[[[mul k] cn] id]|]; cbn [sd alive] in q_alpha1, Aa'.
    + destruct q_alpha1 as (_ & _ & _ & _ & O1 & O2 & F1 & F2 & P1 & P2 & _). apply (K2 mm' mul ab'); auto; [tauto|apply pair_in in P1; tauto|].
      apply Not; [tauto| |]; rewrite O1; [intros K; rewrite <- K in Oadd; contradiction|discriminate].
    + destruct q_alpha1 as [_ ->]. apply (K2 mm' add' ab'); auto. apply pair_in in q_inadd1. tauto.
Qed.
Lemma T_keeps rk s m act nm s' (r : env (tensor R)) : WW rk (graph_of s) -> GP m s -> gemm_plan cval ns0 s m = Some (Some act) -> fresh_for nm (graph_of s) ->
  fuse nm act s = Some s' -> all_hold op_rel r (s_nodes s) -> well_shaped (s_shape s) r -> well_shaped (s_shape s') (set_env (tensor R) r (port0 nm) (r (a_out act))).
Proof.
  intros _ _ _ _ Fu _ WS t sh Et. apply (fuse_shape _ _ _ _ _ _ Fu) in Et. unfold set_env. destruct Et as [[-> Et]|[Nt Et]].
  - rewrite String.eqb_refl. apply WS. exact Et.
  - destruct (String.eqb_spec t (port0 nm)); [contradiction|]. apply WS. exact Et.
Qed.
Lemma matches_apart_g p o ms : In p gemm_patterns -> match_ops (view ns0) true p o = Some ms -> NoDup o -> ForallOrdPairs GC (map snd ms).
Proof.
  intros Hp E N. destruct (match_ops_inv _ _ _ _ E) as (I1 & I2 & I3). specialize (I3 N). clear E I2 N o.
  induction ms as [|[o m] ms IH]; cbn; constructor.
  - apply Forall_forall. intros m' Hm'. apply in_map_iff in Hm'. destruct Hm' as ([o' m''] & E & Hm'). cbn in E. subst m''.
    destruct (match_GP p o m Hp (I1 o m (or_introl eq_refl))) as [_ E1]. destruct (match_GP p o' m' Hp (I1 o' m' (or_intror Hm'))) as [(add & mm & l & r & ab & c & y & oa & ob & Inf & _) E2].
    unfold GC. rewrite E1, E2. rewrite (q_add _ _ _ _ _ _ _ _ _ _ Inf) in E2. intros K. cbn in I3. inversion I3 as [|? ? N1 N2]; subst. apply N1. apply in_map_iff. exists (o', m'). split; auto. cbn.
    assert (NN : NoDup ns0) by (apply (NoDup_map_inv f_name); exact (g_names _ _ (W0 _ (within_refl _)))).
    symmetry. apply (proj1 (NoDup_nth_error ns0) NN); [apply nth_error_Some; rewrite K, <- E2; discriminate|exact K].
  - apply IH; [intros; apply I1; right; auto|]. cbn in I3. inversion I3; auto.
Qed.
End Gemm.
