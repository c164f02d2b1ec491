(** A node inserted on the output of another one, whose own result may change: graph.py:1343-1383
    insert_node_on_output together with a change of the producer.  Validity and meaning of the graph. *)
From Coq Require Import String List Arith ZArith Bool Lia.
From Verif Require Import FGraph FGraphSpec FGraphProofs IdentityModel IdentityProofs ApplyOptProofs ExecSpec ExecProofs DeadProofs RewriteProofs SwitchProofs.
Import ListNotations.
Local Open Scope string_scope.
Local Open Scope list_scope.

(** n (output y) becomes n' (output y), m computes y' and everything else reads y' where it read y *)
Definition split_graph (y y' : string) (l1 : list fnode) (n' : fnode) (l2 : list fnode) (m : fnode) (gi go : list string) : fgraph :=
  FGraph (map (subst_node y y') l1 ++ n' :: map (subst_node y y') l2 ++ [m]) gi go.

Record splittable (rk : string -> nat) (l1 : list fnode) (n : fnode) (l2 : list fnode) (gi go : list string) (n' m : fnode) (y y' : string) : Prop := {
  s_valid : WW rk (FGraph (l1 ++ n :: l2) gi go);
  s_out : f_out n = [y]; s_y : y <> ""; s_y' : y' <> "";
  s_go : ~ In y go;
  s_fresh : ~ In y' (alldefs (FGraph (l1 ++ n :: l2) gi go)) /\ ~ In y' (fv_graph (FGraph (l1 ++ n :: l2) gi go));
  s_outs : f_out n' = [y] /\ f_out m = [y'];
  s_bodies : f_bodies n = [] /\ f_bodies n' = [] /\ f_bodies m = [];
  s_name : f_name n' = f_name n;
  s_mname : ~ In (f_name m) (map f_name (l1 ++ n :: l2));
  s_in : forall i, In i (f_in n') -> rk i < rk y /\ (In i (defs (FGraph (l1 ++ n :: l2) gi go)) \/ In i (fv_graph (FGraph (l1 ++ n :: l2) gi go)));
  s_min : forall i, In i (f_in m) -> rk i <= rk y /\ (In i (defs (FGraph (l1 ++ n :: l2) gi go)) \/ In i (fv_graph (FGraph (l1 ++ n :: l2) gi go))) }.

Section Split.
Variables (rk : string -> nat) (l1 : list fnode) (n : fnode) (l2 : list fnode) (gi go : list string) (n' m : fnode) (y y' : string).
Hypothesis X : splittable rk l1 n l2 gi go n' m y y'.
Let g := FGraph (l1 ++ n :: l2) gi go.
Let G : good rk g := s_valid _ _ _ _ _ _ _ _ _ _ X g (within_refl g).

Lemma s_def : In y (defs g).
Proof. apply in_defs. split; [apply (s_y _ _ _ _ _ _ _ _ _ _ X)|right]. exists n. split; [unfold g; cbn [f_nodes]; apply in_app_iff; right; now left|]. rewrite (s_out _ _ _ _ _ _ _ _ _ _ X). now left. Qed.
Lemma s_neq : y <> y'.
Proof. intro E. apply (proj1 (s_fresh _ _ _ _ _ _ _ _ _ _ X)). rewrite <- E. apply defs_alldefs, s_def. Qed.
(** outputs of the other nodes are other names *)
Lemma s_other k o : In k (l1 ++ l2) -> In o (f_out k) -> o <> "" -> o <> y /\ o <> y'.
Proof.
  intros Hk Ho No. assert (S : NoDup (alldefs (FGraph (l1 ++ n :: l2) gi go))) by (apply (g_ssa _ _ G)).
  destruct (alldefs_split l1 n l2 gi go S) as (_ & _ & D). split; intros ->.
  - apply (D y). { apply alldefs_in_node. left. rewrite (s_out _ _ _ _ _ _ _ _ _ _ X). split; auto. now left. }
    apply alldefs_in. right. exists k. split; auto. apply alldefs_in_node. auto.
  - apply (proj1 (s_fresh _ _ _ _ _ _ _ _ _ _ X)). apply alldefs_in. right. exists k. split; [|apply alldefs_in_node; auto].
    cbn [f_nodes]. apply in_app_iff. apply in_app_iff in Hk. cbn [In]. tauto.
Qed.
Lemma s_nested k b : In k (l1 ++ n :: l2) -> In b (f_bodies k) -> ~ In y (alldefs b) /\ ~ In y' (alldefs b) /\ ~ In y' (fv_graph b).
Proof.
  intros Hk Hb. split; [|split].
  - apply (good_not_nested rk g k b y G Hk Hb). left. apply s_def.
  - intro K. apply (proj1 (s_fresh _ _ _ _ _ _ _ _ _ _ X)). apply alldefs_in. right. exists k. split; auto. apply alldefs_in_node. eauto.
  - intro K. destruct (used_defs_or_free g k y' Hk (fv_body k b y' Hb K)) as [Q|Q].
    + apply (proj1 (s_fresh _ _ _ _ _ _ _ _ _ _ X)). now apply defs_alldefs.
    + now apply (proj2 (s_fresh _ _ _ _ _ _ _ _ _ _ X)).
Qed.
Lemma s_unread k : In k (l1 ++ n :: l2) -> ~ In y' (fv_node k).
Proof.
  intros Hk K. destruct (used_defs_or_free g k y' Hk K) as [Q|Q].
  - apply (proj1 (s_fresh _ _ _ _ _ _ _ _ _ _ X)). now apply defs_alldefs.
  - now apply (proj2 (s_fresh _ _ _ _ _ _ _ _ _ _ X)).
Qed.

Lemma split_valid : exists RK, WW RK (split_graph y y' l1 n' l2 m gi go) /\
  (forall v, In v (fv_graph (split_graph y y' l1 n' l2 m gi go)) -> In v (fv_graph g)).
Proof.
  assert (NE := s_neq). assert (Dy := s_def). destruct (s_bodies _ _ _ _ _ _ _ _ _ _ X) as (B1 & B2 & B3). destruct (s_outs _ _ _ _ _ _ _ _ _ _ X) as [O1 O2].
  assert (Ny := s_y _ _ _ _ _ _ _ _ _ _ X). assert (Ny' := s_y' _ _ _ _ _ _ _ _ _ _ X). assert (Oy := s_out _ _ _ _ _ _ _ _ _ _ X).
  destruct (s_fresh _ _ _ _ _ _ _ _ _ _ X) as [Fr1 Fr2].
  set (m0 := FNode (f_name m) "" "" [] [] [y'] []).
  set (g0 := FGraph ((l1 ++ n :: l2) ++ [m0]) gi go).
  assert (W0 : WW (add_rank rk m0) g0).
  { apply (add_valid rk (l1 ++ n :: l2) m0 []); rewrite ?app_nil_r.
    - exact (s_valid _ _ _ _ _ _ _ _ _ _ X).
    - reflexivity.
    - exact (s_mname _ _ _ _ _ _ _ _ _ _ X).
    - cbn [f_out m0]. apply NoDup_filter. repeat constructor. intros [].
    - intros o Ho _. cbn [f_out m0 In f_in] in *. destruct Ho as [<-|[]]. auto.
    - intros t []. }
  assert (Ra : forall v, v <> y' -> add_rank rk m0 v = rk v).
  { intros v Hv. unfold add_rank. destruct (mem v (nonempty (f_out m0))) eqn:E; auto. apply mem_in, in_nonempty in E. cbn [f_out m0 In] in E. destruct E as [[E|[]] _]. congruence. }
  set (RK := fun v => if String.eqb v y' then 2 * rk y + 1 else 2 * rk v).
  assert (Ry : RK y' = 2 * rk y + 1) by (unfold RK; now rewrite String.eqb_refl).
  assert (Ro : forall v, v <> y' -> RK v = 2 * rk v). { intros v A. unfold RK. destruct (String.eqb_spec v y'); congruence. }
  assert (Nd0 : forall k, In k (f_nodes g0) -> k = m0 \/ In k (l1 ++ n :: l2)).
  { intros k Hk. unfold g0 in Hk. cbn [f_nodes] in Hk. apply in_app_iff in Hk. cbn [In] in Hk. intuition. }
  assert (W1 : WW RK g0).
  { apply (rerank_top (add_rank rk m0)); [exact W0| |].
    - intros k v o Hk Hv Ho No. destruct (Nd0 k Hk) as [->|Hk']; [destruct Hv|].
      assert (R := g_acyclic _ _ G k v o Hk' Hv Ho No).
      assert (v <> y') by (intros ->; exact (s_unread k Hk' Hv)).
      assert (o <> y'). { intros ->. apply Fr1. apply alldefs_in. right. exists k. split; auto. apply alldefs_in_node. auto. }
      rewrite !Ro by auto. lia.
    - intros k b v o Hk Hb Ho Hv R. destruct (Nd0 k Hk) as [->|Hk']; [destruct Hb|].
      destruct (s_nested k b Hk' Hb) as (K1 & K2 & K3). assert (o <> y') by congruence. assert (v <> y') by (intros ->; tauto).
      rewrite !Ra in R by auto. rewrite !Ro by auto. lia. }
  assert (Dy0 : In y (defs g0) /\ In y' (defs g0)).
  { split; apply in_defs; (split; [assumption|right]).
    - exists n. split; [|rewrite Oy; now left]. unfold g0. cbn [f_nodes]. rewrite !in_app_iff. left. right. now left.
    - exists m0. split; [|now left]. unfold g0. cbn [f_nodes]. apply in_app_iff. right. now left. }
  destruct (subst_valid RK RK y y' g0 W1 NE Ny Ny' (proj1 Dy0) (or_introl (proj2 Dy0))) as [W2 F2].
  { intros k v o Hk Hv Ho No. destruct (Nd0 k Hk) as [->|Hk']; [destruct Hv|]. assert (R := g_acyclic _ _ G k v o Hk' Hv Ho No).
    assert (v <> y') by (intros ->; exact (s_unread k Hk' Hv)).
    assert (o <> y'). { intros ->. apply Fr1. apply alldefs_in. right. exists k. split; auto. apply alldefs_in_node. auto. }
    unfold sub. rewrite (Ro o) by auto. destruct (String.eqb_spec v y) as [->|]; [rewrite Ry; lia|rewrite Ro by auto; lia]. }
  { intros v o Ho Ho' R. assert (o <> y') by (intros ->; tauto). rewrite (Ro o) in * by auto. unfold sub. destruct (String.eqb_spec v y) as [->|]; [rewrite Ry; rewrite Ro in R by auto; lia|].
    exact R. }
  assert (Es : subst_graph y y' g0 = FGraph (map (subst_node y y') l1 ++ subst_node y y' n :: (map (subst_node y y') l2 ++ [m0])) gi go).
  { unfold g0. cbn [subst_graph]. rewrite !map_app. cbn [map]. rewrite <- app_assoc. reflexivity. }
  assert (D2 : forall v, In v (defs (subst_graph y y' g0)) <-> In v (defs g) \/ v = y').
  { intro v. rewrite defs_subst. unfold g0, g. rewrite !in_defs. cbn [f_ins f_nodes]. split.
    - intros [Nv [H|(k & Hk & H)]]; [left; auto|]. destruct (Nd0 k Hk) as [->|Hk']; [right; cbn in H; destruct H as [H|[]]; auto|]. left. eauto.
    - intros [[Nv [H|(k & Hk & H)]]| ->]; (split; [assumption|]); auto.
      + right. exists k. split; auto. apply in_app_iff. auto.
      + right. exists m0. split; [apply in_app_iff; right; now left|now left]. }
  assert (F2' : forall v, In v (fv_graph g) -> v <> y' -> In v (defs (subst_graph y y' g0)) \/ In v (fv_graph (subst_graph y y' g0)) \/ (v = "" \/ ~ In v (alldefs (subst_graph y y' g0)))).
  { intros v Hv Nv. right. right. right. rewrite (proj2 (alldefs_subst y y')). unfold g0. intro K. apply alldefs_in in K. cbn [f_ins f_nodes] in K.
    apply (g_scope _ _ G v Hv). apply alldefs_in. destruct K as [K|(k & Hk & K)]; [left; exact K|]. destruct (Nd0 k Hk) as [->|Hk'].
    - apply alldefs_in_node in K. cbn in K. destruct K as [[[K|[]] _]|(b & [] & _)]. congruence.
    - right. eauto. }
  (* replace n, then m0; read names are defined or free *)
  assert (Rep : forall RK0 k1 a a' k2, WW RK0 (FGraph (k1 ++ a :: k2) gi go) -> f_name a' = f_name a -> f_out a' = f_out a -> f_bodies a' = [] ->
     (forall t, In t (f_in a') -> In t (defs (FGraph (k1 ++ a :: k2) gi go)) \/ ~ In t (alldefs (FGraph (k1 ++ a :: k2) gi go))) ->
     (forall t o, In t (f_in a') -> In o (f_out a) -> o <> "" -> RK0 t < RK0 o) ->
     WW RK0 (FGraph (k1 ++ a' :: k2) gi go)).
  { intros RK0 k1 a a' k2 W Ea1 Ea2 Ea3 Hi Hr. assert (G0 := W _ (within_refl _)).
    assert (Rest : forall z, In z (k1 ++ a' :: k2) -> z = a' \/ In z (k1 ++ a :: k2)).
    { intros z Hz. rewrite in_app_iff in *. cbn [In] in *. destruct Hz as [Hz|[Hz|Hz]]; auto. }
    assert (DF : defs (FGraph (k1 ++ a' :: k2) gi go) = defs (FGraph (k1 ++ a :: k2) gi go)).
    { unfold defs. cbn [f_ins f_nodes]. rewrite !map_app. cbn [map]. now rewrite Ea2. }
    assert (Dn : incl (alldefs_node a') (alldefs_node a)). { intros t. rewrite !alldefs_in_node, Ea3, Ea2. cbn. firstorder. }
    assert (Dnd : NoDup (alldefs_node a) -> NoDup (alldefs_node a')).
    { destruct a as [n1 n2 n3 n4 n5 n6 n7], a' as [x1 x2 x3 x4 x5 x6 x7]. cbn in *. subst. cbn. rewrite app_nil_r. intro Q. apply NoDup_app_inv in Q. tauto. }
    assert (Fn' : forall t, In t (fv_node a') -> In t (f_in a')). { intro t. rewrite fv_node_eq, Ea3. cbn. now rewrite app_nil_r. }
    assert (AD : forall t, In t (alldefs (FGraph (k1 ++ a' :: k2) gi go)) -> In t (alldefs (FGraph (k1 ++ a :: k2) gi go))).
    { intros t K. cbn [alldefs] in *. rewrite !map_app, !concat_app in *. cbn [map concat] in *. rewrite !in_app_iff in *. destruct K as [K|[K|[K|K]]]; auto. }
    apply WW_top.
    - constructor.
      + rewrite DF. apply (g_outs _ _ G0).
      + assert (S := g_ssa _ _ G0). cbn [alldefs] in *. rewrite !map_app, !concat_app in *. cbn [map concat] in *.
        apply NoDup_app_inv in S. destruct S as (S1 & S2 & S3). apply NoDup_app_inv in S2. destruct S2 as (S4 & S5 & S6).
        apply NoDup_app_inv in S5. destruct S5 as (S7 & S8 & S9).
        apply NoDup_app_intro; auto.
        * apply NoDup_app_intro; auto.
          -- apply NoDup_app_intro; auto.
          -- intros t Ht K. apply (S6 t Ht). rewrite in_app_iff in *. destruct K; auto.
        * intros t Ht K. apply (S3 t Ht). rewrite !in_app_iff in *. destruct K as [K|[K|K]]; auto.
      + intros t Ht K. apply AD in K. apply in_fv_graph in Ht. rewrite DF in Ht. destruct Ht as [Nd Ht]. cbn [f_nodes f_ins f_outs] in Ht.
        destruct Ht as [Ht|[Ht|(z & Hz & Ht)]].
        * apply (g_scope _ _ G0 t); auto. apply in_fv_graph. auto.
        * apply (g_scope _ _ G0 t); auto. apply in_fv_graph. auto.
        * destruct (Rest z Hz) as [->|Hz']; [|apply (g_scope _ _ G0 t); auto; apply in_fv_graph; cbn [f_nodes]; eauto 6].
          destruct (Hi t (Fn' t Ht)); tauto.
      + assert (N := g_names _ _ G0). cbn [f_nodes] in *. rewrite map_app in *. cbn [map] in *. now rewrite Ea1.
      + intros z t o Hz Ht Ho No. destruct (Rest z Hz) as [->|Hz']; [rewrite Ea2 in Ho; apply Hr; auto|apply (g_acyclic _ _ G0 z); auto].
      + apply (g_noself _ _ G0).
    - intros z b Hz Hb. destruct (Rest z Hz) as [->|Hz']; [rewrite Ea3 in Hb; destruct Hb|]. exact (WW_body RK0 _ z b W Hz' Hb). }
  rewrite Es in W2.
  assert (K2 : forall t, In t (defs g) \/ In t (fv_graph g) -> In t (defs (subst_graph y y' g0)) \/ ~ In t (alldefs (subst_graph y y' g0))).
  { intros t [Ht|Ht]; [left; apply D2; auto|]. right. rewrite (proj2 (alldefs_subst y y')). unfold g0. intro K. apply alldefs_in in K. cbn [f_ins f_nodes] in K.
    apply (g_scope _ _ G t Ht). apply alldefs_in. destruct K as [K|(k & Hk & K)]; [left; exact K|]. destruct (Nd0 k Hk) as [->|Hk'].
    - apply alldefs_in_node in K. cbn in K. destruct K as [[[K|[]] _]|(b & [] & _)]. subst t. contradiction.
    - right. eauto. }
  assert (In' : forall i, In i (f_in n') \/ In i (f_in m) -> i <> y').
  { intros i Hi ->. destruct Hi as [Hi|Hi]; [apply (s_in _ _ _ _ _ _ _ _ _ _ X) in Hi|apply (s_min _ _ _ _ _ _ _ _ _ _ X) in Hi]; destruct Hi as [_ [Hi|Hi]]; [apply Fr1; now apply defs_alldefs|contradiction|apply Fr1; now apply defs_alldefs|contradiction]. }
  assert (W3 : WW RK (FGraph (map (subst_node y y') l1 ++ n' :: (map (subst_node y y') l2 ++ [m0])) gi go)).
  { apply (Rep RK _ (subst_node y y' n)); auto.
    - rewrite (s_name _ _ _ _ _ _ _ _ _ _ X). destruct n; reflexivity.
    - rewrite f_out_subst. congruence.
    - intros t Ht. rewrite <- Es. apply K2. apply (s_in _ _ _ _ _ _ _ _ _ _ X t Ht).
    - intros t o Ht Ho No. rewrite f_out_subst, Oy in Ho. destruct Ho as [<-|[]]. rewrite !Ro by auto. destruct (s_in _ _ _ _ _ _ _ _ _ _ X t Ht) as [R _]. lia. }
  assert (Df3 : defs (FGraph (map (subst_node y y') l1 ++ n' :: (map (subst_node y y') l2 ++ [m0])) gi go) = defs (subst_graph y y' g0)).
  { rewrite Es. unfold defs. cbn [f_ins f_nodes]. rewrite !map_app. cbn [map]. now rewrite f_out_subst, O1, Oy. }
  assert (Ad3 : forall t, In t (alldefs (FGraph (map (subst_node y y') l1 ++ n' :: (map (subst_node y y') l2 ++ [m0])) gi go)) -> In t (alldefs (subst_graph y y' g0))).
  { intros t K. rewrite Es. apply alldefs_in in K. apply alldefs_in. destruct K as [K|(k & Hk & K)]; [left; exact K|right]. cbn [f_nodes] in *. rewrite in_app_iff in Hk. cbn [In] in Hk.
    destruct Hk as [Hk|[<-|Hk]].
    - exists k. split; auto. rewrite in_app_iff. auto.
    - exists (subst_node y y' n). split; [rewrite in_app_iff; right; now left|]. apply alldefs_in_node. apply alldefs_in_node in K. rewrite B2, O1 in K. rewrite f_out_subst, Oy.
      destruct K as [K|(b & [] & _)]. left. exact K.
    - exists k. split; auto. rewrite in_app_iff. right. right. exact Hk. }
  assert (Sh : split_graph y y' l1 n' l2 m gi go = FGraph ((map (subst_node y y') l1 ++ n' :: map (subst_node y y') l2) ++ m :: []) gi go).
  { unfold split_graph. rewrite <- app_assoc. reflexivity. }
  assert (Sh0 : FGraph (map (subst_node y y') l1 ++ n' :: (map (subst_node y y') l2 ++ [m0])) gi go = FGraph ((map (subst_node y y') l1 ++ n' :: map (subst_node y y') l2) ++ m0 :: []) gi go).
  { rewrite <- app_assoc. reflexivity. }
  assert (W4 : WW RK (split_graph y y' l1 n' l2 m gi go)).
  { rewrite Sh. apply (Rep RK _ m0); rewrite <- ?Sh0; auto.
    - intros t Ht. rewrite Df3. destruct (K2 t) as [Q|Q]; [apply (s_min _ _ _ _ _ _ _ _ _ _ X t Ht)|auto|auto].
    - intros t o Ht Ho No. cbn [f_out m0 In] in Ho. destruct Ho as [<-|[]]. rewrite Ry. rewrite Ro by auto. destruct (s_min _ _ _ _ _ _ _ _ _ _ X t Ht) as [R _]. lia. }
  exists RK. split; [exact W4|].
  intros v Hv. apply in_fv_graph in Hv. destruct Hv as [Nv Hv].
  assert (Nv' : ~ In v (defs g) /\ v <> y').
  { assert (Df4 : defs (split_graph y y' l1 n' l2 m gi go) = defs (subst_graph y y' g0)).
    { rewrite <- Df3. unfold split_graph, defs. cbn [f_ins f_nodes]. rewrite !map_app. cbn [map]. rewrite !map_app. cbn [map]. rewrite O2. reflexivity. }
    rewrite Df4, D2 in Nv. tauto. }
  cbn [split_graph f_ins f_outs f_nodes] in Hv. destruct Hv as [Hv|[Hv|(k & Hk & Hv)]].
  - apply in_fv_graph. split; [tauto|]. left. exact Hv.
  - apply in_fv_graph. split; [tauto|]. right. left. exact Hv.
  - assert (Md : In k (map (subst_node y y') (l1 ++ l2)) \/ k = n' \/ k = m).
    { rewrite map_app. rewrite !in_app_iff in *. cbn [In] in Hk. rewrite in_app_iff in Hk. cbn [In] in Hk. intuition. }
    destruct Md as [Md|[-> | ->]].
    + apply in_map_iff in Md. destruct Md as (k0 & <- & Hk0).
      assert (Hk1 : In k0 (l1 ++ n :: l2)) by (rewrite in_app_iff in *; cbn [In]; tauto).
      destruct (proj1 (fv_subst_ind y y' NE Ny) k0 (WW_closed rk g k0 (s_valid _ _ _ _ _ _ _ _ _ _ X) Hk1) v Hv) as [_ [E|E]]; [tauto|].
      apply in_fv_graph. split; [tauto|]. right. right. eauto.
    + rewrite fv_node_eq, B2, app_nil_r in Hv. destruct (s_in _ _ _ _ _ _ _ _ _ _ X v Hv) as [_ [Q|Q]]; tauto.
    + rewrite fv_node_eq, B3, app_nil_r in Hv. destruct (s_min _ _ _ _ _ _ _ _ _ _ X v Hv) as [_ [Q|Q]]; tauto.
Qed.
End Split.

Section Meaning.
Variable V : Type.
Variable op_rel : string -> string -> list (string * attr) -> nat -> list V -> list (list V -> list V -> Prop) -> list V -> Prop.
Hypothesis ext : op_ext op_rel.
Notation holds := (holds op_rel). Notation body_rel := (body_rel op_rel). Notation all_hold := (all_hold op_rel).
Notation equiv := (equiv op_rel). Notation env := (env V). Notation upd := (upd V).
Variables (rk : string -> nat) (l1 : list fnode) (n : fnode) (l2 : list fnode) (gi go : list string) (n' m : fnode) (y y' : string).
Hypothesis X : splittable rk l1 n l2 gi go n' m y y'.
Let g := FGraph (l1 ++ n :: l2) gi go.
(** one call of the graph: the surrounding values and the arguments *)
Variables (r0 : env) (args : list V).
Definition call (r : env) : Prop := (forall t, ~ In t (defs g) -> t <> y' -> r t = r0 t) /\ map r gi = args.
(** under the equations of the other nodes, the equation of n is that of n' and m together *)
Hypothesis Forw : forall r : env, call r -> all_hold r (l1 ++ l2) -> holds r n ->
  exists u, holds (upd (upd r y' (r y)) y u) n' /\ holds (upd (upd r y' (r y)) y u) m.
Hypothesis Back : forall r : env, call (upd r y (r y')) -> all_hold (upd r y (r y')) (l1 ++ l2) -> holds r n' -> holds r m -> holds (upd r y (r y')) n.

Lemma split_call res : body_rel r0 g args res <-> body_rel r0 (split_graph y y' l1 n' l2 m gi go) args res.
Proof.
  assert (NE := s_neq _ _ _ _ _ _ _ _ _ _ X). assert (Dy := s_def _ _ _ _ _ _ _ _ _ _ X). destruct (s_bodies _ _ _ _ _ _ _ _ _ _ X) as (B1 & B2 & B3). destruct (s_outs _ _ _ _ _ _ _ _ _ _ X) as [O1 O2].
  assert (Ny := s_y _ _ _ _ _ _ _ _ _ _ X). assert (Ny' := s_y' _ _ _ _ _ _ _ _ _ _ X). assert (Oy := s_out _ _ _ _ _ _ _ _ _ _ X).
  destruct (s_fresh _ _ _ _ _ _ _ _ _ _ X) as [Fr1 Fr2].
  assert (G : good rk g) by (apply (s_valid _ _ _ _ _ _ _ _ _ _ X); apply within_refl).
  assert (Inn : forall k, In k (l1 ++ l2) -> In k (l1 ++ n :: l2)). { intros k Hk. rewrite in_app_iff in *. cbn [In]. tauto. }
  assert (Ig : ~ In y gi /\ ~ In y' gi).
  { split; intro K.
    - assert (S := g_ssa _ _ G). unfold g in S. destruct (alldefs_split l1 n l2 gi go S) as (_ & _ & D). apply (D y).
      { apply alldefs_in_node. left. rewrite Oy. split; auto. now left. } apply alldefs_in. left. auto.
    - apply Fr1. apply alldefs_in. left. auto. }
  assert (Io : ~ In y go /\ ~ In y' go).
  { split; [apply (s_go _ _ _ _ _ _ _ _ _ _ X)|]. intro K. apply Fr1. apply defs_alldefs. apply (g_outs _ _ G). exact K. }
  assert (Dx : forall v, In v (defs (split_graph y y' l1 n' l2 m gi go)) <-> In v (defs g) \/ v = y').
  { intro v. unfold split_graph, g. rewrite !in_defs. cbn [f_ins f_nodes]. split.
    - intros [Nv [H|(k & Hk & H)]]; [auto|]. rewrite !in_app_iff in Hk. cbn [In] in Hk. rewrite in_app_iff in Hk. cbn [In] in Hk.
      assert (Hk' : (exists k0, In k0 (l1 ++ l2) /\ k = subst_node y y' k0) \/ k = n' \/ k = m).
      { destruct Hk as [Hk|[Hk|[Hk|[Hk|[]]]]]; auto; apply in_map_iff in Hk; destruct Hk as (k0 & <- & Hk0); left; exists k0; rewrite in_app_iff; auto. }
      destruct Hk' as [(k0 & Hk0 & ->)|[->| ->]].
      + rewrite f_out_subst in H. left. split; auto. right. exists k0. auto.
      + left. split; auto. right. exists n. split; [apply in_app_iff; right; now left|]. congruence.
      + rewrite O2 in H. destruct H as [H|[]]. auto.
    - intros [[Nv [H|(k & Hk & H)]]| ->]; (split; [assumption|]); auto.
      + right. apply in_app_iff in Hk. cbn [In] in Hk. destruct Hk as [Hk|[<-|Hk]].
        * exists (subst_node y y' k). rewrite f_out_subst. split; auto. apply in_app_iff. left. now apply in_map.
        * exists n'. split; [apply in_app_iff; right; now left|congruence].
        * exists (subst_node y y' k). rewrite f_out_subst. split; auto. apply in_app_iff. right. right. apply in_app_iff. left. now apply in_map.
      + right. exists m. split; [|rewrite O2; now left]. apply in_app_iff. right. right. apply in_app_iff. right. now left. }
  (* an other node, before and after *)
  assert (Mid : forall (r r' : env) k, In k (l1 ++ l2) -> (forall v, v <> y -> v <> y' -> r' v = r v) -> r' y' = r y -> (holds r k <-> holds r' (subst_node y y' k))).
  { intros r r' k Hk Ag Et.
    assert (Nst : forall bd, In bd (f_bodies k) -> ~ In y (alldefs bd) /\ ~ In y' (alldefs bd)). { intros bd Hb. destruct (s_nested _ _ _ _ _ _ _ _ _ _ X k bd (Inn k Hk) Hb) as (A & B & _). auto. }
    assert (Cm : closed_node k) by (apply (WW_closed rk g k (s_valid _ _ _ _ _ _ _ _ _ _ X)); apply Inn; exact Hk).
    assert (Nr : ~ In y' (fv_node k)) by (apply (s_unread _ _ _ _ _ _ _ _ _ _ X); auto).
    assert (Ou : forall o, In o (f_out k) -> o <> "" -> o <> y /\ o <> y') by (intros o; apply (s_other _ _ _ _ _ _ _ _ _ _ X k o Hk)).
    assert (Hs := holds_subst V op_rel ext y y' k (upd r y' (r y)) Nst). rewrite upd_same, upd_other in Hs by congruence. specialize (Hs eq_refl).
    split; intro H.
    - apply (holds_agree V op_rel ext (subst_node y y' k) (upd r y' (r y))).
      + intros v Hv. destruct (proj1 (fv_subst_ind y y' NE Ny) k Cm v Hv) as [Vy _]. destruct (string_dec v y') as [->|Vt]; [rewrite upd_same; auto|]. rewrite upd_other by auto. symmetry. auto.
      + intros v Hv Nv. rewrite f_out_subst in Hv. destruct (Ou v Hv Nv). rewrite upd_other by auto. symmetry. auto.
      + apply Hs. apply (holds_agree V op_rel ext k r); auto.
        * intros v Hv. rewrite upd_other; auto. congruence.
        * intros v Hv Nv. destruct (Ou v Hv Nv). rewrite upd_other; auto.
    - apply (holds_agree V op_rel ext k (upd r y' (r y))).
      + intros v Hv. rewrite upd_other; auto. congruence.
      + intros v Hv Nv. destruct (Ou v Hv Nv). rewrite upd_other; auto.
      + apply Hs. apply (holds_agree V op_rel ext (subst_node y y' k) r'); auto.
        * intros v Hv. destruct (proj1 (fv_subst_ind y y' NE Ny) k Cm v Hv) as [Vy _]. destruct (string_dec v y') as [->|Vt]; [rewrite upd_same; auto|]. rewrite upd_other by auto. auto.
        * intros v Hv Nv. rewrite f_out_subst in Hv. destruct (Ou v Hv Nv). rewrite upd_other by auto. auto. }
  assert (Mp : forall (r r' : env) l, (forall v, v <> y -> v <> y' -> r' v = r v) -> ~ In y l -> ~ In y' l -> map r' l = map r l).
  { intros r r' l Ag A B. apply map_ext_in. intros v Hv. apply Ag; congruence. }
  rewrite !body_rel_eq. cbn [split_graph g f_ins f_outs f_nodes]. split.
  - intros (r & E1 & E2 & E3 & E4). apply all_hold_app in E3. destruct E3 as [Hn Hr].
    destruct (Forw r) as (u & Hn' & Hm); auto. { split; auto. } set (r' := upd (upd r y' (r y)) y u) in *.
    assert (Ag : forall v, v <> y -> v <> y' -> r' v = r v). { intros v A B. unfold r'. rewrite !upd_other; auto. }
    exists r'. split; [|split; [|split]].
    + intros v Hv. rewrite Dx in Hv. rewrite Ag; [apply E1; tauto| |]; intros ->; tauto.
    + rewrite (Mp r r'); tauto.
    + assert (Et : r' y' = r y) by (unfold r'; rewrite upd_other, upd_same by congruence; reflexivity).
      intros k Hk. rewrite !in_app_iff in Hk. cbn [In] in Hk. rewrite in_app_iff in Hk. cbn [In] in Hk.
      destruct Hk as [Hk|[<-|[Hk|[<-|[]]]]]; auto; apply in_map_iff in Hk; destruct Hk as (k0 & <- & Hk0); apply (Mid r r'); auto; try apply Hr; rewrite in_app_iff; auto.
    + rewrite (Mp r r'); tauto.
  - intros (r & E1 & E2 & E3 & E4). set (r' := upd r y (r y')).
    assert (Ag : forall v, v <> y -> v <> y' -> r' v = r v). { intros v A B. unfold r'. rewrite !upd_other; auto. }
    assert (C : all_hold r' (l1 ++ l2)).
    { intros k Hk. apply (Mid r' r); auto.
      - intros v A B. symmetry. auto.
      - unfold r'. now rewrite upd_same.
      - apply E3. rewrite !in_app_iff. cbn [In]. rewrite in_app_iff. apply in_app_iff in Hk. destruct Hk as [Hk|Hk]; [left|right; right; left]; now apply in_map. }
    assert (Hn : holds r' n).
    { apply (Back r); auto; [split| |].
      { intros t Ht Nt. fold r'. rewrite Ag; auto; [apply E1; rewrite Dx; tauto|]. intros ->. contradiction. }
      { fold r'. rewrite (Mp r r'); tauto. }
      all: apply E3; rewrite !in_app_iff; cbn [In]; rewrite in_app_iff; cbn [In]; auto. }
    assert (Un : forall k, In k (l1 ++ n :: l2) -> holds r' k). { intros k Hk. apply in_app_iff in Hk. cbn [In] in Hk. destruct Hk as [Hk|[<-|Hk]]; auto; apply C; rewrite in_app_iff; auto. }
    (* y' is not a name of g: give it its outer value *)
    exists (upd r' y' (r0 y')). split; [|split; [|split]].
    + intros v Hv. destruct (string_dec v y') as [->|Vt]; [now rewrite upd_same|]. rewrite upd_other by auto. rewrite Ag; auto; [apply E1; rewrite Dx; tauto|]. intros ->. contradiction.
    + rewrite (Mp r); auto; try tauto. intros v A B. rewrite upd_other by auto. auto.
    + intros k Hk. apply (holds_agree V op_rel ext k r'); [| |apply Un; exact Hk].
      * intros v Hv. rewrite upd_other; auto. intros ->. exact (s_unread _ _ _ _ _ _ _ _ _ _ X k Hk Hv).
      * intros v Hv Nv. rewrite upd_other; auto. intros ->. apply Fr1. apply alldefs_in. right. exists k. split; auto. apply alldefs_in_node. auto.
    + rewrite (Mp r); auto; try tauto. intros v A B. rewrite upd_other by auto. auto.
Qed.
End Meaning.
Lemma split_equiv V op_rel (ext : op_ext op_rel) rk l1 n l2 gi go n' m y y' : splittable rk l1 n l2 gi go n' m y y' ->
  (forall r : env V, all_hold op_rel r (l1 ++ l2) -> holds op_rel r n ->
     exists u, holds op_rel (upd V (upd V r y' (r y)) y u) n' /\ holds op_rel (upd V (upd V r y' (r y)) y u) m) ->
  (forall r : env V, all_hold op_rel (upd V r y (r y')) (l1 ++ l2) -> holds op_rel r n' -> holds op_rel r m -> holds op_rel (upd V r y (r y')) n) ->
  equiv op_rel (FGraph (l1 ++ n :: l2) gi go) (split_graph y y' l1 n' l2 m gi go).
Proof. intros X F B r args res. apply (split_call V op_rel ext rk l1 n l2 gi go n' m y y' X r args); auto. Qed.
