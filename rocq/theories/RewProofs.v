(** C58: replacing a group of nodes by one node that computes the same. *)
From Coq Require Import String List Bool Arith Lia ZArith.
From Verif Require Import FGraph FGraphProofs FGraphSpec IdentityModel IdentityProofs ApplyOptProofs RewriteProofs Tensor MatchModel RewModel.
Import ListNotations.
Local Open Scope string_scope. Local Open Scope list_scope. Local Open Scope nat_scope.

(** ** removing several nodes nobody else reads *)
Lemma NoDup_concat_filter {A} (f : A -> list string) k l : NoDup (concat (map f l)) -> NoDup (concat (map f (filter k l))).
Proof.
  induction l as [|x l IH]; cbn [map concat filter]; auto. intros N. destruct (k x); cbn [map concat].
  - apply NoDup_app_inv in N. destruct N as (N1 & N2 & N3). apply NoDup_app_intro; auto.
    intros y Hy Hy'. apply (N3 y Hy). apply in_concat_map in Hy'. destruct Hy' as (z & Hz & Hy'). apply in_concat_map. apply filter_In in Hz. exists z. tauto.
  - apply IH. apply NoDup_app_inv in N. tauto.
Qed.
Lemma filter_valid rk ns keep gi go : WW rk (FGraph ns gi go) ->
  (forall m d t, In m ns -> keep m = true -> In d ns -> keep d = false -> In t (fv_node m) -> t <> "" -> ~ In t (f_out d)) ->
  (forall o d, In o go -> In d ns -> keep d = false -> ~ In o (f_out d)) ->
  WW rk (FGraph (filter keep ns) gi go) /\
  (forall t, In t (fv_graph (FGraph (filter keep ns) gi go)) -> In t (fv_graph (FGraph ns gi go))).
Proof.
  set (g := FGraph ns gi go). set (g' := FGraph (filter keep ns) gi go). intros H Hr Ho.
  assert (G := H g (within_refl _)).
  assert (Rest : forall m, In m (filter keep ns) -> In m (f_nodes g)) by (intros m Hm; apply filter_In in Hm; tauto).
  assert (Hd : forall t, In t (defs g) -> (forall d, In d ns -> keep d = false -> ~ In t (f_out d)) -> In t (defs g')).
  { intros t Ht Nt. apply in_defs in Ht. apply in_defs. destruct Ht as [N Ht]. split; auto. destruct Ht as [Ht|(n & Hn & Ht)]; [left; exact Ht|].
    right. exists n. split; auto. cbn. apply filter_In. split; auto. destruct (keep n) eqn:K; auto. exfalso. exact (Nt n Hn K Ht). }
  assert (FV : forall t, In t (fv_graph g') -> In t (fv_graph g)).
  { intros t Ht. apply in_fv_graph in Ht. cbn [g' f_ins f_outs f_nodes] in Ht. destruct Ht as [Nd Ht]. apply in_fv_graph.
    cbn [g f_ins f_outs f_nodes].
    assert (K : In t gi \/ In t go \/ (exists n, In n (filter keep ns) /\ In t (fv_node n)) -> ~ In t (defs g)).
    { intros Q Hg. apply Nd. apply Hd; auto. intros d Hd' K. destruct Q as [Q|[Q|(m & Hm & Q)]].
      - exfalso. apply Nd. apply in_defs. apply in_defs in Hg. cbn [g' f_ins]. tauto.
      - exact (Ho t d Q Hd' K).
      - apply filter_In in Hm. apply (Hr m d); try tauto. apply in_defs in Hg. tauto. }
    split; [apply K; exact Ht|]. destruct Ht as [Ht|[Ht|(m & Hm & Ht)]]; auto. right. right. exists m. split; [apply Rest; exact Hm|exact Ht]. }
  assert (AD : forall t, In t (alldefs g') -> In t (alldefs g)).
  { intros t. rewrite !alldefs_in. intros [K|(m & Hm & K)]; [left; exact K|right; exists m; split; [apply Rest; exact Hm|exact K]]. }
  split; [|exact FV]. apply WW_top.
  - constructor.
    + intros o Hoo. apply Hd; [apply (g_outs _ _ G); exact Hoo|]. intros d Hd' K. exact (Ho o d Hoo Hd' K).
    + assert (S := g_ssa _ _ G). cbn [g g' alldefs] in *. apply NoDup_app_inv in S. destruct S as (S1 & S2 & S3). apply NoDup_app_intro; auto;
      [apply NoDup_concat_filter; exact S2|]. intros y Hy Hy'. apply (S3 y Hy). apply in_concat_map in Hy'.
      destruct Hy' as (z & Hz & Hy'). apply in_concat_map. apply filter_In in Hz. exists z. tauto.
    + intros t Ht K. apply (g_scope _ _ G t); auto.
    + assert (N := g_names _ _ G). cbn [g g' f_nodes] in *. clear - N. induction ns as [|n ns IH]; cbn [filter map]; auto.
      cbn [map] in N. inversion N as [|? ? N1 N2]; subst. destruct (keep n); [|auto]. cbn [map]. constructor; auto.
      intros K. apply N1. apply in_map_iff in K. destruct K as (z & E & Hz). apply in_map_iff. exists z. apply filter_In in Hz. tauto.
    + intros n t o Hn. apply (g_acyclic _ _ G n t o). apply Rest. exact Hn.
    + apply (g_noself _ _ G).
  - intros n b Hn Hb. apply (WW_body rk g n b H); [apply Rest; exact Hn|exact Hb].
Qed.

Lemma fv_uses :
  (forall n, closed_node n -> forall x, x <> "" -> In x (fv_node n) -> uses_node x n = true) /\
  (forall g, closed_graph g -> forall x, x <> "" -> In x (fv_graph g) -> uses_graph x g = true).
Proof.
  apply fnode_fgraph_ind.
  - intros nm op dom at_ ins outs bodies IH C x Ne H. rewrite fv_node_eq in H. cbn [f_in f_bodies uses_node] in *.
    apply orb_true_iff. apply in_app_iff in H. destruct H as [H|H]; [left; apply mem_in; exact H|right].
    apply in_concat_map in H. destruct H as (b & Hb & H). apply existsb_exists. exists b. split; auto. apply IH; auto.
    exact (proj1 (closed_node_eq _) C b Hb).
  - intros ns gi go IH C x Ne H. apply in_fv_graph in H. cbn [f_ins f_outs f_nodes uses_graph] in *. apply closed_graph_eq in C.
    destruct C as [C1 C2]. destruct H as [Nd [H|[H|(n & Hn & H)]]].
    + exfalso. apply Nd. apply in_defs. auto.
    + exfalso. apply Nd. apply C1. exact H.
    + apply existsb_exists. exists n. split; [exact Hn|]. apply (IH n Hn (C2 n Hn)); assumption.
Qed.
Lemma uses_subst y y' : y <> y' -> y <> "" ->
  (forall n, uses_node y (subst_node y y' n) = false) /\ (forall g, uses_graph y (subst_graph y y' g) = false).
Proof.
  intros N Ny. apply fnode_fgraph_ind.
  - intros nm op dom at_ ins outs bodies IH. cbn [subst_node uses_node]. apply orb_false_iff. split.
    + apply mem_false. intros K. apply in_map_iff in K. destruct K as (t & E & _). unfold sub in E. destruct (String.eqb_spec t y); congruence.
    + destruct (existsb _ _) eqn:E; auto. apply existsb_exists in E. destruct E as (b & Hb & E). apply in_map_iff in Hb. destruct Hb as (b0 & <- & Hb). rewrite IH in E; auto; discriminate E.
  - intros ns gi go IH. cbn [subst_graph uses_graph]. destruct (existsb _ _) eqn:E; auto. apply existsb_exists in E. destruct E as (b & Hb & E). apply in_map_iff in Hb. destruct Hb as (b0 & <- & Hb). rewrite IH in E; auto; discriminate E.
Qed.
Lemma safe_spec rk ns gi go del n m o : WW rk (FGraph ns gi go) -> safe del ns n = true -> In o (f_out n) -> o <> "" -> In m ns ->
  In o (fv_node m) -> In (f_name m) del.
Proof.
  intros H K Ho No Hm Hf. unfold safe in K. rewrite forallb_forall in K. specialize (K o Ho). rewrite forallb_forall in K. specialize (K m Hm).
  apply andb_true_iff in K. destruct K as [K1 K2]. rewrite fv_node_eq in Hf. apply in_app_iff in Hf. destruct Hf as [Hf|Hf].
  - apply mem_in in Hf. rewrite Hf in K1. apply mem_in. exact K1.
  - exfalso. apply in_concat_map in Hf. destruct Hf as (b & Hb & Hf). assert (C := WW_closed rk _ m H Hm).
    apply negb_true_iff in K2. assert (K : existsb (uses_graph o) (f_bodies m) = true); [|rewrite K in K2; discriminate K2].
    apply existsb_exists. exists b. split; auto. apply fv_uses; auto. exact (proj1 (closed_node_eq _) C b Hb).
Qed.

Lemma f_name_subst a b n : f_name (subst_node a b n) = f_name n.
Proof. destruct n; reflexivity. Qed.
Lemma node_of_out rk g n m o : WW rk g -> In n (f_nodes g) -> In m (f_nodes g) -> In o (f_out n) -> In o (f_out m) -> o <> "" -> n = m.
Proof.
  intros H Hn Hm On Om No. assert (G := H g (within_refl _)). assert (S := g_ssa _ _ G). destruct g as [ns gi go]. cbn [alldefs f_nodes] in *.
  apply NoDup_app_inv in S. destruct S as (_ & S & _). clear - S Hn Hm On Om No. induction ns as [|c ns IH]; [destruct Hn|].
  cbn [map concat] in S. apply NoDup_app_inv in S. destruct S as (_ & S2 & S3).
  assert (K : forall d, In d ns -> In o (f_out d) -> In o (concat (map alldefs_node ns))).
  { intros d Hd Od. apply in_concat_map. exists d. split; auto. apply alldefs_in_node. auto. }
  destruct Hn as [->|Hn], Hm as [->|Hm]; auto.
  - exfalso. apply (S3 o); [apply alldefs_in_node; auto|]. eauto.
  - exfalso. apply (S3 o); [apply alldefs_in_node; auto|]. eauto.
Qed.
Lemma node_of_name rk g n m : WW rk g -> In n (f_nodes g) -> In m (f_nodes g) -> f_name n = f_name m -> n = m.
Proof.
  intros H Hn Hm E. assert (G := H g (within_refl _)). assert (N := g_names _ _ G). clear - N Hn Hm E. induction (f_nodes g) as [|c ns IH]; [destruct Hn|].
  cbn [map] in N. inversion N as [|? ? N1 N2]; subst. destruct Hn as [->|Hn], Hm as [->|Hm]; auto; exfalso; apply N1; apply in_map_iff.
  - exists m. auto.
  - exists n. auto.
Qed.

Section Fuse.
Variable V : Type.
Variable op_rel : string -> string -> list (string * attr) -> nat -> list V -> list (list V -> list V -> Prop) -> list V -> Prop.
Hypothesis OE : op_ext op_rel.
Let holds := holds op_rel.
Let all_hold := all_hold op_rel.

Definition set_env (r : env V) (k : string) (v : V) : env V := fun t => if String.eqb t k then v else r t.
Definition fresh_for (nm : string) (g : fgraph) : Prop :=
  ~ In nm (map f_name (f_nodes g)) /\ ~ In (port0 nm) (alldefs g) /\ ~ In (port0 nm) (fv_graph g).
(** what must be true of a change *)
Record sound_action (rk : string -> nat) (g : fgraph) (a : action) (root : fnode) : Prop := {
  sa_root : In root (f_nodes g);
  sa_out : f_out root = [a_out a];
  sa_named : a_out a <> "";
  sa_rootd : In (f_name root) (map f_name (a_del a));
  sa_del : forall d, In d (a_del a) -> exists c, In c (f_nodes g) /\ f_name c = f_name d /\ f_out c = f_out d;
  sa_two : exists aux, forall d, In d (a_del a) -> f_name d = f_name root \/ f_name d = aux;
  sa_kept : forall d o, In d (a_del a) -> In o (f_out d) -> ~ In o (f_outs g);
  sa_ins : forall t, In t (a_ins a) -> t <> "" /\ (In t (defs g) \/ In t (fv_graph g)) /\ rk t < rk (a_out a) }.
Lemma port0_named nm : port0 nm <> "".
Proof. destruct nm; discriminate. Qed.

Theorem fuse_ok rk s gi go a nm root : let g := FGraph (s_nodes s) gi go in
  WW rk g -> fresh_for nm g -> sound_action rk g a root ->
  exists s', fuse nm a s = Some s' /\
    let g' := FGraph (s_nodes s') gi go in let y' := port0 nm in
    (exists rk', WW rk' g' /\ forall t, t <> y' -> rk' t = rk t) /\
    (forall t, In t (fv_graph g') -> In t (fv_graph g)) /\
    (forall t, In t (defs g') -> t = y' \/ In t (defs g)) /\
    (forall r, all_hold r (s_nodes s) -> op_rel (a_op a) "" (a_attrs a) 1 (map r (a_ins a)) [] [r (a_out a)] ->
       all_hold (set_env r y' (r (a_out a))) (s_nodes s')) /\
    (forall n, In n (s_nodes s) -> ~ In (f_name n) (map f_name (a_del a)) -> In (subst_node (a_out a) y' n) (s_nodes s')) /\
    (forall n c o, In n (s_nodes s) -> In c (s_nodes s) -> In o (f_out n) -> o <> "" -> o <> a_out a -> In o (f_in c) ->
       ~ In (f_name c) (map f_name (a_del a)) -> In (subst_node (a_out a) y' n) (s_nodes s')) /\
    In (new_node nm a) (s_nodes s') /\
    (forall n, In n (s_nodes s') -> n = new_node nm a \/ exists n0, In n0 (s_nodes s) /\ n = subst_node (a_out a) y' n0).
Proof.
  intros g W (F1 & F2 & F3) [A1 A2 A3 A4 A5 (aux & A6) A7 A8]. set (m := new_node nm a). set (y := a_out a) in *. set (y' := port0 nm) in *.
  set (ns := s_nodes s) in *. assert (G := W g (within_refl _)).
  assert (Dy : In y (defs g)) by (apply in_defs; split; auto; right; exists root; split; auto; rewrite A2; left; reflexivity).
  assert (Ny : y <> y') by (intros E; apply F2; rewrite <- E; apply defs_alldefs; exact Dy).
  assert (Ny' : y' <> "") by apply port0_named.
  assert (Iy : ~ In y (a_ins a)) by (intros K; apply A8 in K; lia).
  assert (Iy' : ~ In y' (a_ins a)).
  { intros K. apply A8 in K. destruct K as (_ & [K|K] & _); [apply F2; apply defs_alldefs; exact K|apply F3; exact K]. }
  assert (W1 : WW (add_rank rk m) (FGraph (ns ++ [m]) gi go)).
  { apply add_valid; rewrite ?app_nil_r; auto.
    - cbn. unfold nonempty. cbn. fold y'. destruct (String.eqb_spec y' ""); [contradiction|]. cbn. constructor; [tauto|constructor].
    - intros o [<-|[]] _. auto.
    - intros t Ht. destruct (A8 t Ht) as (_ & [K|K] & _); auto. }
  assert (RE : forall t, t <> y' -> add_rank rk m t = rk t).
  { intros t Nt. unfold add_rank. assert (E : mem t (nonempty (f_out m)) = false); [|rewrite E; reflexivity].
    apply mem_false. intros K. apply in_nonempty in K. destruct K as [[K|[]] _]. apply Nt. symmetry. exact K. }
  assert (RY : add_rank rk m y' <= rk y).
  { unfold add_rank. assert (E : mem y' (nonempty (f_out m)) = true) by (apply mem_in, in_nonempty; split; [left; reflexivity|exact Ny']). rewrite E.
    apply in_rank_le. intros t Ht. apply A8. exact Ht. }
  assert (G1 := W1 _ (within_refl _)).
  assert (D1 : forall t, In t (defs (FGraph (ns ++ [m]) gi go)) <-> t = y' \/ In t (defs g)).
  { intros t. rewrite !in_defs. cbn [f_ins f_nodes g]. split.
    - intros (N & [K|(n & Hn & K)]); [right; auto|]. apply in_app_iff in Hn. destruct Hn as [Hn|[<-|[]]]; [right; eauto 6|]. destruct K as [<-|[]]. left; reflexivity.
    - intros [->|(N & [K|(n & Hn & K)])].
      + split; auto. right. exists m. split; [apply in_app_iff; right; left; reflexivity|left; reflexivity].
      + auto.
      + split; auto. right. exists n. split; auto. apply in_app_iff. auto. }
  assert (Nest : forall n bd, In n (ns ++ [m]) -> In bd (f_bodies n) -> ~ In y (alldefs bd) /\ ~ In y' (alldefs bd)).
  { intros n bd Hn Hb. split; apply (good_not_nested _ _ n bd _ G1 Hn Hb); left; apply D1; auto. }
  (* the substitution *)
  destruct (subst_valid (add_rank rk m) (add_rank rk m) y y' (FGraph (ns ++ [m]) gi go) W1 Ny A3 Ny') as [W2 FV2].
  { apply D1. auto. } { left. apply D1. auto. }
  { intros n t o Hn Ht Ho No. assert (K := g_acyclic _ _ G1 n t o Hn Ht Ho No). unfold sub. destruct (String.eqb_spec t y) as [->|]; auto.
    assert (o <> y').
    { intros ->. cbn [f_nodes] in Hn. apply in_app_iff in Hn. destruct Hn as [Hn|[<-|[]]].
      - apply F2. apply defs_alldefs. apply in_defs. split; auto. right. exists n. auto.
      - rewrite fv_node_eq in Ht. cbn [m new_node f_in f_bodies map concat] in Ht. rewrite app_nil_r in Ht. contradiction. }
    rewrite (RE y), (RE o) in K by auto. rewrite (RE o) by auto. lia. }
  { intros t o Ho Hd K. unfold sub. destruct (String.eqb_spec t y) as [->|]; auto.
    assert (o <> y') by (intros ->; apply Hd; apply D1; auto). rewrite (RE y), (RE o) in K by auto. rewrite (RE o) by auto. lia. }
  cbn [subst_graph] in W2, FV2. set (ns2 := map (subst_node y y') (ns ++ [m])) in *.
  assert (R : replace_all y y' (ns ++ [m]) = Some ns2).
  { unfold replace_all. destruct (String.eqb_spec y y') as [|_]; [contradiction|]. destruct (existsb (circ_node y y') (ns ++ [m])) eqn:E; [|reflexivity].
    apply existsb_exists in E. destruct E as (n & Hn & E). rewrite (proj1 (circ_false y y' Ny')) in E; [discriminate E| |].
    - intros [K1 K2]. apply in_app_iff in Hn. destruct Hn as [Hn|[<-|[]]]; [|contradiction]. apply F2. apply defs_alldefs. apply in_defs. split; auto. right. exists n. auto.
    - intros bd Hb. apply (Nest n bd Hn Hb). }
  assert (In2 : forall n, In n ns2 <-> exists n0, In n0 (ns ++ [m]) /\ n = subst_node y y' n0).
  { intros n. unfold ns2. rewrite in_map_iff. split; intros (n0 & K1 & K2); exists n0; auto. }
  assert (Sm : subst_node y y' m = m).
  { unfold m, new_node. cbn [subst_node map]. f_equal. clear - Iy. induction (a_ins a) as [|t l IH]; cbn [map]; auto.
    f_equal; [|apply IH; cbn in Iy; tauto]. unfold sub. destruct (String.eqb_spec t y); auto. exfalso. apply Iy. left. auto. }
  assert (NoY : forall n, In n ns2 -> ~ In y (fv_node n)).
  { intros n Hn K. apply In2 in Hn. destruct Hn as (n0 & Hn0 & ->).
    destruct (proj1 (fv_subst_ind y y' Ny A3) n0 (WW_closed _ _ n0 W1 Hn0) y K) as [E _]. congruence. }
  assert (Names : map f_name ns2 = map f_name (ns ++ [m])) by apply names_subst.
  unfold fuse. fold ns m y y'. rewrite R. set (del := map f_name (a_del a)) in *. set (gone := filter (safe del ns2) (a_del a)).
  assert (Ex : existsb (fun d => negb (mem (f_name d) (map f_name ns2))) gone = false).
  { destruct (existsb _ gone) eqn:E; [|reflexivity]. apply existsb_exists in E. destruct E as (d & Hd & E). apply filter_In in Hd. destruct Hd as [Hd _].
    destruct (A5 d Hd) as (c & Hc & N & _). rewrite Names in E. rewrite (proj2 (mem_in (f_name d) (map f_name (ns ++ [m])))) in E; [discriminate E|].
    rewrite <- N. apply in_map. apply in_app_iff. auto. }
  rewrite Ex. eexists. split; [reflexivity|]. cbn [s_nodes].
  set (keep := fun n => negb (mem (f_name n) (map f_name gone))).
  assert (Gone : forall n, In n ns2 -> keep n = false -> exists d, In d (a_del a) /\ safe del ns2 d = true /\ f_name n = f_name d /\ f_out n = f_out d).
  { intros n Hn K. unfold keep in K. apply negb_false_iff, mem_in, in_map_iff in K. destruct K as (d & N & Hd). apply filter_In in Hd. destruct Hd as [Hd Sf].
    exists d. split; auto. split; auto. split; auto. destruct (A5 d Hd) as (c & Hc & Nc & Oc). rewrite <- Oc.
    assert (E : n = subst_node y y' c).
    { apply (node_of_name _ _ _ _ W2 Hn); [apply In2; exists c; split; auto; apply in_app_iff; auto|]. rewrite f_name_subst. congruence. }
    rewrite E. apply f_out_subst. }
  assert (RootSafe : forall n, In n ns2 -> f_name n = f_name root -> keep n = false).
  { intros n Hn N. unfold keep. apply negb_false_iff, mem_in. apply in_map_iff in A4. destruct A4 as (d & Nd & Hd). apply in_map_iff. exists d. split; [congruence|].
    apply filter_In. split; auto. destruct (A5 d Hd) as (c & Hc & Nc & Oc). assert (c = root) by (apply (node_of_name rk g); auto; congruence). subst c.
    unfold safe. rewrite <- Oc, A2. cbn [forallb]. rewrite andb_true_r. apply forallb_forall. intros x Hx. assert (NY := NoY x Hx).
    apply andb_true_iff. split.
    - destruct (mem y (f_in x)) eqn:E; [|reflexivity]. exfalso. apply NY. rewrite fv_node_eq. apply in_app_iff. left. apply mem_in. exact E.
    - apply negb_true_iff. destruct (existsb (uses_graph y) (f_bodies x)) eqn:E; [|reflexivity]. exfalso. apply existsb_exists in E. destruct E as (bd & Hb & E).
      apply In2 in Hx. destruct Hx as (x0 & Hx0 & ->). rewrite f_bodies_subst in Hb. apply in_map_iff in Hb. destruct Hb as (b0 & <- & Hb0).
      rewrite (proj2 (uses_subst y y' Ny A3)) in E. discriminate E. }
  destruct (filter_valid (add_rank rk m) ns2 keep gi go W2) as [W3 FV3].
  { intros x d t Hx Kx Hd Kd Ht Nt Ot. destruct (Gone d Hd Kd) as (d0 & Hd0 & Sf & Nd & Od). rewrite Od in Ot.
    assert (K := safe_spec _ ns2 gi go del d0 x t W2 Sf Ot Nt Hx Ht). apply in_map_iff in K. destruct K as (d1 & Nd1 & Hd1).
    destruct (A6 d1 Hd1) as [E1|E1]; [rewrite (RootSafe x Hx) in Kx by congruence; discriminate Kx|].
    destruct (A6 d0 Hd0) as [E0|E0].
    - assert (t = y); [|subst t; exact (NoY x Hx Ht)]. destruct (A5 d0 Hd0) as (c & Hc & Nc & Oc). assert (c = root) by (apply (node_of_name rk g); auto; congruence). subst c.
      rewrite <- Oc, A2 in Ot. destruct Ot as [<-|[]]. reflexivity.
    - assert (x = d) by (apply (node_of_name _ _ _ _ W2 Hx Hd); congruence). subst x. rewrite <- Od in Ot. assert (K := g_acyclic _ _ (W2 _ (within_refl _)) d t t Hd Ht Ot Nt). lia. }
  { intros o d Ho Hd Kd Od. destruct (Gone d Hd Kd) as (d0 & Hd0 & _ & _ & E). rewrite E in Od. exact (A7 d0 o Hd0 Od Ho). }
  assert (FV1 : forall t, In t (fv_graph (FGraph (ns ++ [m]) gi go)) -> In t (fv_graph g)).
  { intros t Ht. apply in_fv_graph in Ht. destruct Ht as [Nd Ht]. cbn [f_ins f_outs f_nodes] in Ht. rewrite D1 in Nd.
    assert (Nt : ~ In t (defs g)) by tauto. destruct Ht as [Ht|[Ht|(n & Hn & Ht)]].
    - apply in_fv_graph. split; auto.
    - apply in_fv_graph. split; auto.
    - apply in_app_iff in Hn. destruct Hn as [Hn|[<-|[]]]; [apply in_fv_graph; split; auto; right; right; exists n; auto|].
      rewrite fv_node_eq in Ht. cbn [m new_node f_in f_bodies map concat] in Ht. rewrite app_nil_r in Ht. destruct (A8 t Ht) as (_ & [K|K] & _); [contradiction|exact K]. }
  split; [exists (add_rank rk m); split; [exact W3|exact RE]|]. split; [intros t Ht; apply FV1, FV2, FV3, Ht|]. split.
  { intros t Ht. apply in_defs in Ht. cbn [f_ins f_nodes] in Ht. destruct Ht as (N & [K|(n & Hn & K)]).
    - right. apply in_defs. auto.
    - apply filter_In in Hn. destruct Hn as [Hn _]. apply In2 in Hn. destruct Hn as (n0 & Hn0 & ->). rewrite f_out_subst in K. apply D1. apply in_defs. split; auto. right. exists n0. auto. }
  split.
  { intros r Hr Op n Hn. apply filter_In in Hn. destruct Hn as [Hn _]. apply In2 in Hn. destruct Hn as (n0 & Hn0 & ->).
    set (r' := set_env r y' (r y)). assert (E1 : r' y' = r y) by (unfold r', set_env; now rewrite String.eqb_refl).
    assert (E2 : forall t, t <> y' -> r' t = r t) by (intros t Nt; unfold r', set_env; destruct (String.eqb_spec t y'); [contradiction|reflexivity]).
    apply (holds_subst V op_rel OE y y' n0 r').
    - intros bd Hb. exact (Nest n0 bd Hn0 Hb).
    - rewrite E1. apply E2. exact Ny.
    - apply in_app_iff in Hn0. destruct Hn0 as [Hn0|[<-|[]]].
      + apply (holds_agree V op_rel OE n0 r r'); [| |exact (Hr n0 Hn0)].
        * intros x Hx. symmetry. apply E2. intros ->. destruct (in_dec string_dec y' (defs g)) as [K|K]; [apply F2; apply defs_alldefs; exact K|].
          apply F3. apply in_fv_graph. split; auto. right. right. exists n0. auto.
        * intros x Hx Nx. symmetry. apply E2. intros ->. apply F2. apply defs_alldefs. apply in_defs. split; auto. right. exists n0. auto.
      + apply holds_eq. cbn [m new_node f_op f_dom f_attrs f_out f_in f_bodies length map]. exists [r y]. split.
        * replace (map r' (a_ins a)) with (map r (a_ins a)); [exact Op|]. apply map_ext_in. intros t Ht. symmetry. apply E2. intros ->. contradiction.
        * intros k o K No. destruct k as [|k]; cbn in K; [|destruct k; discriminate K]. injection K as <-. cbn. fold y'. rewrite E1. reflexivity. }
  assert (Keep : forall n, In n ns -> keep (subst_node y y' n) = true -> In (subst_node y y' n) (filter keep ns2)).
  { intros n Hn K. apply filter_In. split; auto. apply In2. exists n. split; auto. apply in_app_iff. auto. }
  split.
  { intros n Hn Nd. apply Keep; auto. unfold keep. apply negb_true_iff, mem_false. rewrite f_name_subst. intros K. apply Nd. apply in_map_iff in K.
    destruct K as (d & E & Hd). rewrite <- E. apply in_map. apply filter_In in Hd. tauto. }
  split.
  { intros n c o Hn Hc Ho No Noy Ic Nc. apply Keep; auto. destruct (keep (subst_node y y' n)) eqn:K; [reflexivity|]. exfalso.
    assert (Hn2 : In (subst_node y y' n) ns2) by (apply In2; exists n; split; auto; apply in_app_iff; auto).
    destruct (Gone _ Hn2 K) as (d & Hd & Sf & _ & Od). rewrite f_out_subst in Od. rewrite Od in Ho. apply Nc. rewrite <- (f_name_subst y y' c).
    assert (Hc2 : In (subst_node y y' c) ns2) by (apply In2; exists c; split; auto; apply in_app_iff; auto).
    apply (safe_spec _ ns2 gi go del d (subst_node y y' c) o W2 Sf Ho No Hc2). rewrite fv_node_eq, f_in_subst. apply in_app_iff. left. apply in_map_iff.
    exists o. split; auto. unfold sub. destruct (String.eqb_spec o y); [contradiction|reflexivity]. }
  assert (Nm : ~ In (f_name m) del).
  { intros K. unfold del in K. apply in_map_iff in K. destruct K as (d & E & Hd). destruct (A5 d Hd) as (c & Hc & Nc & _). apply F1. change nm with (f_name m). rewrite <- E, <- Nc.
    apply in_map. exact Hc. }
  split.
  { apply filter_In. split; [apply In2; exists m; split; [apply in_app_iff; right; left; reflexivity|symmetry; exact Sm]|]. unfold keep. apply negb_true_iff, mem_false.
    intros K. apply Nm. apply in_map_iff in K. destruct K as (d & E & Hd). change (f_name (new_node nm a)) with (f_name m) in *. rewrite <- E. apply in_map. apply filter_In in Hd. tauto. }
  intros n Hn. apply filter_In in Hn. destruct Hn as [Hn _]. apply In2 in Hn. destruct Hn as (n0 & Hn0 & ->). apply in_app_iff in Hn0.
  destruct Hn0 as [Hn0|[<-|[]]]; [right; exists n0; auto|left; exact Sm].
Qed.
End Fuse.
