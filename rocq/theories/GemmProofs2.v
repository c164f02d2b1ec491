(** C59: what the matches of one pattern leave for the next pattern, and all patterns together. *)
From Coq Require Import String List Bool Arith Lia ZArith Reals Lra.
From Verif Require Import FGraph FGraphProofs FGraphSpec IdentityModel IdentityProofs ApplyOptProofs RewriteProofs Tensor OnnxSpec PushSpec TensorProofs MatchModel MatchSpec MatchProofs
  RewModel RewSpec RewMatch RewValues RewProofs RewProofs2 RewProofs3 DetProofs GemmSpec GemmValues GemmMatch GemmProofs.
Import ListNotations.
Local Open Scope string_scope. Local Open Scope list_scope. Local Open Scope nat_scope.

Section Step.
Variable op_rel : string -> string -> list (string * attr) -> nat -> list (tensor R) -> list (list (tensor R) -> list (tensor R) -> Prop) -> list (tensor R) -> Prop.
Hypothesis OE : op_ext op_rel.
Variable cval : nat -> tensor R.
Hypothesis CW : forall id, wf (cval id).
Hypothesis M : gemm_means op_rel cval.
Variable name : nat -> string.
Hypothesis name_inj : forall i j, name i = name j -> i = j.
Variables (gi go : list string) (s0 : state) (rk0 : string -> nat) (k0 : nat).
Let ns0 := s_nodes s0.
Let graph_of (s : state) : fgraph := FGraph (s_nodes s) gi go.
Hypothesis W0 : WW rk0 (graph_of s0).
Hypothesis OK : gemm_ok cval go (s_nodes s0) (s_shape s0).
Hypothesis FR : forall i, k0 <= i -> fresh_for (name i) (graph_of s0).

Notation new := (new name k0).
Let nout := new_out gi go s0 name k0 FR.
Let nin := new_in gi go s0 name k0 FR.
Definition root (t : string) : Prop := exists ab c al be, gemm_group ns0 ab c t al be.
Definition comes (f : string -> string) (n0 n : fnode) : Prop :=
  f_op n = f_op n0 /\ f_attrs n = f_attrs n0 /\ f_out n = f_out n0 /\ f_in n = map f (f_in n0) /\ (f_bodies n0 = [] -> f_bodies n = []).
(** what is known about the shapes of its inputs was known before *)
Definition shaped (s : state) (f : string -> string) (n0 : fnode) : Prop := forall t sh, In t (f_in n0) -> s_shape s (f t) = Some sh -> s_shape s0 t = Some sh.
Definition GI (s : state) : Prop :=
  exists f, (forall t, f t = t \/ root t /\ new (f t)) /\
    (forall n, In n (s_nodes s) -> (f_op n = "Gemm" /\ ~ In "" (f_in n)) \/ exists n0, In n0 ns0 /\ comes f n0 n /\ shaped s f n0).
Lemma GI_start : GI s0.
Proof.
  exists (fun t => t). split; [auto|]. intros n Hn. right. exists n. split; auto. split; [unfold comes; rewrite map_id; auto|]. intros t sh _ H. exact H.
Qed.
Lemma GI_keeps rk s m act nm s' : WW rk (graph_of s) -> GP s0 m s -> gemm_plan cval ns0 s m = Some (Some act) -> fresh_for nm (graph_of s) -> (exists i, k0 <= i /\ nm = name i) ->
  fuse nm act s = Some s' -> GI s -> GI s'.
Proof.
  intros W H E F (i & Hi & ->) Fu (f & F1 & F2). assert (Fu' := Fu).
  destruct (GP_sound op_rel cval CW M gi go s0 OK rk s m act W H E) as (rt & SA & _).
  destruct (fuse_ok _ op_rel OE rk s gi go act (name i) rt W F SA) as (s1 & E1 & _ & _ & _ & _ & _ & _ & _ & K4). rewrite E1 in Fu. injection Fu as <-. clear E1.
  destruct (GP_info cval gi go s0 OK rk s m act W H E) as (add & mm & mm1 & l & r & ab & c & y & oa & ob & a & b & za & zb & sa & sb & csh & absh & I & Ha & Aa & Ab & Hm & SN & D).
  assert (Gr := ginfo_group s0 _ _ _ _ _ _ _ _ _ _ I). destruct D. subst act. cbn [a_out] in K4. set (y' := port0 (name i)) in *.
  assert (Ny : new y') by (exists i; auto). assert (Ry : root y) by (exists ab, c, (fid oa), (fid ob); exact Gr).
  assert (Oy : ~ new y). { intros K. apply (nout y add K); [exact (proj1 (q_in _ _ _ _ _ _ _ _ _ _ _ I))|]. rewrite (q_outadd _ _ _ _ _ _ _ _ _ _ _ I). left. reflexivity. }
  exists (fun t => sub y y' (f t)). split.
  - intros t. unfold sub. destruct (String.eqb_spec (f t) y) as [Q|Q]; [|apply F1]. right. split; auto. destruct (F1 t) as [P|[P P']]; [rewrite Q in P; subst t; exact Ry|exact P].
  - intros n Hn. destruct (K4 n Hn) as [->|(n1 & Hn1 & ->)].
    + left. split; [reflexivity|]. cbn [new_node f_in a_ins]. intros K. destruct (sa_ins _ _ _ _ SA "" K) as [Q _]. apply Q. reflexivity.
    + destruct (F2 n1 Hn1) as [[O1 O2]|(n0 & Hn0 & (C1 & C2 & C3 & C4 & C5) & Sh)].
      * left. destruct n1 as [nm1 op1 dom1 at1 in1 out1 b1]. cbn [subst_node f_op f_in] in *. split; auto. intros K. apply in_map_iff in K. destruct K as (t & Et & Ht). unfold sub in Et.
        destruct (String.eqb t y); [apply (new_named _ _ y' Ny); exact Et|subst; auto].
      * right. exists n0. split; auto. split.
        2: { intros t sh Ht Et. unfold sub in Et. destruct (String.eqb_spec (f t) y) as [Q|Q].
             - apply Sh; auto. rewrite Q. apply (fuse_shape _ _ _ _ _ _ Fu') in Et. cbn [a_out] in Et. fold y' in Et. destruct Et as [[_ Et]|[Et _]]; [exact Et|destruct (Et eq_refl)].
             - apply Sh; auto. apply (fuse_shape _ _ _ _ _ _ Fu') in Et. fold y' in Et. destruct Et as [[Et _]|[_ Et]]; [|exact Et]. exfalso. destruct F as (_ & N2 & N3). fold y' in N2, N3.
               destruct (in_dec string_dec y' (defs (graph_of s))) as [K|K]; [apply N2; apply defs_alldefs; exact K|]. apply N3. apply in_fv_graph. split; auto. right. right. exists n1. split; auto.
               rewrite fv_node_eq. apply in_app_iff. left. rewrite C4, <- Et. apply in_map. exact Ht. }
        destruct n1 as [nm1 op1 dom1 at1 in1 out1 b1]. cbn [f_op f_attrs f_out f_in f_bodies] in *. unfold comes. cbn [subst_node f_op f_attrs f_out f_in f_bodies].
        split; auto. split; auto. split; auto. split; [rewrite C4, map_map; reflexivity|]. intros B. rewrite (C5 B). reflexivity.
Qed.

(** groups that are found later were there before *)
Lemma pair_map f (i : list string) l r : pair (map f i) l r -> exists l0 r0, pair i l0 r0 /\ f l0 = l /\ f r0 = r.
Proof.
  intros [H|H]; destruct i as [|u [|v [|? ?]]]; try discriminate H; cbn in H; injection H as <- <-; [exists u, v|exists v, u]; unfold pair; auto.
Qed.
Section After.
Variable s : state.
Variable f : string -> string.
Hypothesis F1 : forall t, f t = t \/ root t /\ new (f t).
Hypothesis F2 : forall n, In n (s_nodes s) -> (f_op n = "Gemm" /\ ~ In "" (f_in n)) \/ exists n0, In n0 ns0 /\ comes f n0 n /\ shaped s f n0.
Lemma node_before op i t at_ : op <> "Gemm" -> node_at (s_nodes s) op i t at_ -> exists i0, node_at ns0 op i0 t at_ /\ i = map f i0 /\ forall u sh, In u i0 -> s_shape s (f u) = Some sh -> s_shape s0 u = Some sh.
Proof.
  intros N (n & Hn & O & E & Q & A). destruct (F2 n Hn) as [[K _]|(n0 & Hn0 & (C1 & C2 & C3 & C4 & C5) & Sh)]; [congruence|].
  exists (f_in n0). split; [exists n0; split; auto; split; [congruence|]; split; auto; split; congruence|]. split; [congruence|exact Sh].
Qed.
Lemma old_of op i t at_ t0 : node_at ns0 op i t at_ -> f t0 = t -> t0 = t.
Proof.
  intros (n & Hn & O & E & Q & A) H. destruct (F1 t0) as [K|[_ K]]; [congruence|]. rewrite H in K. exfalso. apply (nout t n K Hn). rewrite Q. left. reflexivity.
Qed.
Lemma group_before ab c y al be : gemm_group (s_nodes s) ab c y al be -> exists c0, gemm_group ns0 ab c0 y al be /\
  (forall sh, s_shape s ab = Some sh -> s_shape s0 ab = Some sh) /\ (forall sh, s_shape s c = Some sh -> s_shape s0 c0 = Some sh).
Proof.
  intros (op & i & at_ & l & r & i' & at' & O & N1 & P1 & T1 & T2 & N2).
  assert (No : op <> "Gemm") by (intros ->; destruct O as [O|[O|[O|[]]]]; discriminate O).
  apply node_before in N1; auto. destruct N1 as (i0 & N1 & -> & Sh1). apply node_before in N2; [|discriminate]. destruct N2 as (i0' & N2 & -> & Sh2).
  destruct (pair_map _ _ _ _ P1) as (l0 & r0 & P2 & El & Er).
  apply pair_in in P2 as Pi. destruct Pi as [Pl Pr].
  assert (A : times ns0 l ab al /\ l0 = l /\ forall sh, s_shape s ab = Some sh -> s_shape s0 ab = Some sh).
  { destruct al as [id|]; cbn [times] in T1 |- *.
    - destruct T1 as (k & j & at1 & at2 & M1 & Q1 & M2 & L). apply node_before in M1; [|discriminate]. destruct M1 as (j0 & M1 & -> & Sh3). apply node_before in M2; [|discriminate]. destruct M2 as (j2 & M2 & E2 & _). destruct j2; [|discriminate E2].
      destruct (pair_map _ _ _ _ Q1) as (k1 & ab1 & Q2 & Ek & Eab). assert (Eab' := Eab). apply (old_of _ _ _ _ _ M2) in Ek. apply (old_of _ _ _ _ _ N2) in Eab. subst k1 ab1.
      split; [exists k, j0, at1, at2; auto|]. split; [exact (old_of _ _ _ _ _ M1 El)|]. intros sh Hs. apply Sh3; [apply pair_in in Q2; tauto|]. rewrite Eab'. exact Hs.
    - subst l. assert (l0 = ab) by exact (old_of _ _ _ _ _ N2 El). subst l0. split; auto. split; auto. intros sh Hs. apply Sh1; [exact Pl|]. rewrite El. exact Hs. }
  destruct A as (A & -> & ShA).
  assert (B : exists c0, times ns0 r0 c0 be /\ forall sh, s_shape s c = Some sh -> s_shape s0 c0 = Some sh).
  { destruct be as [id|]; cbn [times] in T2 |- *; [|exists r0; split; auto; intros sh Hs; apply Sh1; [exact Pr|congruence]].
    destruct T2 as (k & j & at1 & at2 & M1 & Q1 & M2 & L). apply node_before in M1; [|discriminate]. destruct M1 as (j0 & M1 & -> & Sh3). apply node_before in M2; [|discriminate]. destruct M2 as (j2 & M2 & E2 & _). destruct j2; [|discriminate E2].
    destruct (pair_map _ _ _ _ Q1) as (k1 & c1 & Q2 & Ek & Ec). apply (old_of _ _ _ _ _ M2) in Ek. apply (old_of _ _ _ _ _ M1) in Er. subst k1 r0. exists c1. split; [exists k, j0, at1, at2; auto|]. intros sh Hs. apply Sh3; [apply pair_in in Q2; tauto|congruence]. }
  destruct B as (c0 & B & ShB).
  exists c0. split; [exists op, i0, at_, l, r0, i0', at'; auto 10|auto].
Qed.
End After.
Lemma GI_ok s : GI s -> gemm_ok cval go (s_nodes s) (s_shape s).
Proof.
  intros (f & F1 & F2). assert (GB := fun ab c y al be => group_before s f F1 F2 ab c y al be). destruct (k_plain _ _ _ _ OK) as [PL1 PL2]. fold ns0 in PL1, PL2. constructor.
  - split.
    + intros n Hn K. destruct (F2 n Hn) as [[_ Q]|(n0 & Hn0 & (C1 & C2 & C3 & C4 & C5) & Sh)]; [contradiction|]. rewrite C4 in K. apply in_map_iff in K. destruct K as (t & Et & Ht).
      destruct (F1 t) as [Q|[_ Q]]; [|exact (new_named _ _ _ Q Et)]. rewrite Q in Et. subst t. exact (PL1 n0 Hn0 Ht).
    + intros n Hn Ho. destruct (F2 n Hn) as [[Q _]|(n0 & Hn0 & (C1 & C2 & C3 & C4 & C5) & Sh)]; [exfalso; rewrite Q in Ho; unfold gemm_ops in Ho; cbn in Ho; repeat (destruct Ho as [Ho|Ho]; [discriminate Ho|]); exact Ho|].
      rewrite C1 in Ho. destruct (PL2 n0 Hn0 Ho) as (B & O & Cn). split; auto. split; [rewrite C3; exact O|]. rewrite C1, C2, C4. intros Q. destruct (Cn Q) as [Q1 Q2]. rewrite Q1. auto.
  - intros ab c y al be G. destruct (GB _ _ _ _ _ G) as (c0 & G0 & _). exact (k_out _ _ _ _ OK _ _ _ _ _ G0).
  - intros ab c y al be id G. destruct (GB _ _ _ _ _ G) as (c0 & G0 & _). exact (k_factor _ _ _ _ OK _ _ _ _ _ id G0).
  - intros ab c y al be sh sh' G Ec Eab. destruct (GB _ _ _ _ _ G) as (c0 & G0 & S1 & S2). apply (k_rank _ _ _ _ OK _ _ _ _ _ sh sh' G0); auto.
  - intros n Hn Ho. destruct (F2 n Hn) as [[Q _]|(n0 & Hn0 & (C1 & C2 & C3 & C4 & C5) & Sh)]; [congruence|]. rewrite C4, C2, map_length. apply (k_matmul _ _ _ _ OK); auto. congruence.
Qed.
Lemma pattern_ok p : In p gemm_patterns ->
  exists k' s', run_pattern name p (gemm_plan cval) k0 s0 = Some (k', s') /\ k0 <= k' /\ (exists rk, WW rk (graph_of s')) /\ (forall i, k' <= i -> fresh_for (name i) (graph_of s')) /\
    (forall t, In t (fv_graph (graph_of s')) -> In t (fv_graph (graph_of s0))) /\
    (forall r, all_hold op_rel r (s_nodes s0) -> well_shaped (s_shape s0) r -> exists r', (forall t, (forall i, k0 <= i -> t <> port0 (name i)) -> r' t = r t) /\
       all_hold op_rel r' (s_nodes s') /\ well_shaped (s_shape s') r') /\ gemm_ok cval go (s_nodes s') (s_shape s').
Proof.
  intros Hp. unfold run_pattern. fold ns0. assert (Cl := match_ops_some (view ns0) p (seq 0 (length ns0)) (plain_view_closed _ _ (k_plain _ _ _ _ OK))).
  destruct (match_ops (view ns0) true p (seq 0 (length ns0))) as [ms|] eqn:E; [|contradiction]. destruct (match_ops_inv _ _ _ _ E) as (I1 & _ & _).
  destruct (run_ok (tensor R) op_rel OE name name_inj gi go (gemm_plan cval ns0) (fun r s => well_shaped (s_shape s) r) k0 (GP s0) (GC s0)
     (fun rk s m => GP_plan_some cval gi go s0 OK rk s m) (fun rk s m a => GP_sound op_rel cval CW M gi go s0 OK rk s m a) (fun rk s m a nm s' m' => GP_keeps op_rel OE cval CW M gi go s0 OK name k0 FR rk s m a nm s' m')
     (fun rk s m a nm s' r => T_keeps op_rel cval gi go s0 rk s m a nm s' r) GI GI_keeps (map snd ms) k0 s0) as (k' & s' & R1 & Le & W' & F' & FV & DF & AH & II).
  - lia.
  - exists rk0. exact W0.
  - intros i Hi. apply FR. exact Hi.
  - apply (matches_apart_g cval gi go s0 rk0 W0 OK p _ _ Hp E). apply seq_NoDup.
  - apply Forall_forall. intros m Hm. apply in_map_iff in Hm. destruct Hm as ([o m'] & <- & Hm). apply (match_GP cval gi go s0 rk0 W0 OK p o _ Hp). apply I1. exact Hm.
  - exact GI_start.
  - exists k', s'. split; auto. split; auto. split; [exact W'|]. split; [exact F'|]. split; [exact FV|]. split; [|apply GI_ok; exact II].
    intros r Hr WS. destruct (AH r Hr WS) as (r' & R2 & R3 & R4). exists r'. split; [|auto]. intros t Ht. apply R2. intros i Hi. apply Ht. lia.
Qed.
End Step.

Section All.
Variable op_rel : string -> string -> list (string * attr) -> nat -> list (tensor R) -> list (list (tensor R) -> list (tensor R) -> Prop) -> list (tensor R) -> Prop.
Hypothesis OE : op_ext op_rel.
Variable cval : nat -> tensor R.
Hypothesis CW : forall id, wf (cval id).
Hypothesis M : gemm_means op_rel cval.
Variable name : nat -> string.
Hypothesis name_inj : forall i j, name i = name j -> i = j.
Variables (gi go : list string).
Let graph_of (s : state) : fgraph := FGraph (s_nodes s) gi go.
Lemma patterns_ok ps : (forall p, In p ps -> In p gemm_patterns) -> forall k s, (exists rk, WW rk (graph_of s)) -> gemm_ok cval go (s_nodes s) (s_shape s) -> (forall i, k <= i -> fresh_for (name i) (graph_of s)) ->
  exists k' s', run_patterns cval name ps k s = Some (k', s') /\ k <= k' /\ (exists rk, WW rk (graph_of s')) /\
    (forall t, In t (fv_graph (graph_of s')) -> In t (fv_graph (graph_of s))) /\
    (forall r, all_hold op_rel r (s_nodes s) -> well_shaped (s_shape s) r -> exists r', (forall t, (forall i, k <= i -> t <> port0 (name i)) -> r' t = r t) /\
       all_hold op_rel r' (s_nodes s') /\ well_shaped (s_shape s') r').
Proof.
  induction ps as [|p ps IH]; intros Hp k s [rk W] K F.
  - exists k, s. cbn [run_patterns]. split; auto. split; auto. split; [eauto|]. split; auto. intros r Hr WS. exists r. auto.
  - cbn [run_patterns]. destruct (pattern_ok op_rel OE cval CW M name name_inj gi go s rk k W K F p (Hp p (or_introl eq_refl))) as (k1 & s1 & -> & L1 & W1 & F1 & FV1 & AH1 & K1).
    destruct (IH (fun q H => Hp q (or_intror H)) k1 s1 W1 K1 F1) as (k' & s' & E & L2 & W2 & FV2 & AH2). exists k', s'. split; auto. split; [lia|]. split; auto. split; [auto|].
    intros r Hr WS. destruct (AH1 r Hr WS) as (r1 & R1 & R2 & R3). destruct (AH2 r1 R2 R3) as (r2 & Q1 & Q2 & Q3). exists r2. split; [|auto]. intros t Ht. rewrite Q1; [apply R1; exact Ht|]. intros i Hi. apply Ht. lia.
Qed.
Hypothesis DET : deterministic op_rel.
Theorem gemm_all opset s : valid (graph_of s) -> gemm_ok cval go (s_nodes s) (s_shape s) -> (forall i, fresh_for (name i) (graph_of s)) ->
  exists k s', rewrite_gemm cval name opset s = Some (k, s') /\ valid (graph_of s') /\
    forall r args r1 res, run_with op_rel r (graph_of s) args r1 res -> well_shaped (s_shape s) r1 -> forall res', body_rel op_rel r (graph_of s') args res' <-> res' = res.
Proof.
  intros V0 K F. unfold rewrite_gemm. destruct (Nat.leb opset 6).
  { exists 0, s. split; auto. split; auto. intros r args r1 res (A & B & C & D) _ res'. assert (H : body_rel op_rel r (graph_of s) args res) by (apply body_rel_eq; exists r1; auto).
    split; [|intros ->; exact H]. intros H'. exact (graph_function _ op_rel OE DET (graph_of s) V0 r args res' res H' H). }
  destruct V0 as [rk W]. destruct (patterns_ok gemm_patterns (fun p H => H) 0 s (ex_intro _ rk W) K (fun i _ => F i)) as (k' & s' & E & _ & W' & FV & AH).
  exists k', s'. split; auto. split; [exact W'|]. intros r args r1 res (A & B & C & D) WS.
  assert (H' : body_rel op_rel r (graph_of s') args res).
  { apply (behaves _ op_rel OE rk (s_nodes s) (s_nodes s') gi go (fun r => well_shaped (s_shape s) r) W W' FV) with (r0 := r1); auto.
    intros r2 Hr2 WS2. destruct (AH r2 Hr2 WS2) as (r' & R2 & R3 & _). exists r'. split; auto. intros t Ht. apply R2. intros i _ ->. destruct (F i) as (_ & N1 & N2).
    destruct Ht as [Ht|Ht]; [apply N1; apply defs_alldefs; exact Ht|apply N2; exact Ht]. }
  intros res'. split; [|intros ->; exact H']. intros H2. exact (graph_function _ op_rel OE DET (graph_of s') W' r args res' res H2 H').
Qed.
End All.
