(** Lemmas about graph meanings. *)
From Coq Require Import String List Bool ZArith Lia.
From Verif Require Import FGraph.
Import ListNotations.
Local Open Scope string_scope.
Local Open Scope list_scope.

Lemma mem_in x l : mem x l = true <-> In x l.
Proof.
  unfold mem. rewrite existsb_exists. split.
  - intros (y & H & E). apply String.eqb_eq in E. now subst.
  - intro H. exists x. split; auto. apply String.eqb_refl.
Qed.
Lemma mem_false x l : mem x l = false <-> ~ In x l.
Proof. rewrite <- mem_in. destruct (mem x l); split; congruence. Qed.
Lemma in_nonempty x l : In x (nonempty l) <-> In x l /\ x <> "".
Proof.
  unfold nonempty. rewrite filter_In. destruct (String.eqb_spec x ""); cbn; split; intros [A B]; split; congruence.
Qed.
Lemma nonempty_app l l' : nonempty (l ++ l') = nonempty l ++ nonempty l'.
Proof. apply filter_app. Qed.
Lemma in_concat_map {A} (f : A -> list string) l x : In x (concat (map f l)) <-> exists a, In a l /\ In x (f a).
Proof.
  rewrite in_concat. split.
  - intros (y & H & Hx). apply in_map_iff in H. destruct H as (a & <- & Ha). eauto.
  - intros (a & Ha & Hx). exists (f a). split; auto. now apply in_map.
Qed.
Lemma in_defs g x : In x (defs g) <-> x <> "" /\ (In x (f_ins g) \/ exists n, In n (f_nodes g) /\ In x (f_out n)).
Proof. unfold defs. rewrite in_nonempty, in_app_iff, in_concat_map. tauto. Qed.

Lemma closed_node_eq n : closed_node n <-> forall b, In b (f_bodies n) -> closed_graph b.
Proof.
  destruct n as [nm op dom at_ ins outs bodies]. cbn [closed_node f_bodies].
  induction bodies as [|b l IH]; [cbn; tauto|]. rewrite IH. cbn [In]. firstorder (subst; auto).
Qed.
Lemma closed_graph_eq g : closed_graph g <->
  (forall o, In o (f_outs g) -> In o (defs g)) /\ forall n, In n (f_nodes g) -> closed_node n.
Proof.
  destruct g as [ns gi go]. unfold defs. cbn [closed_graph f_outs f_nodes f_ins].
  assert (K : forall l, (fix all (l : list fnode) : Prop := match l with [] => True | n :: l' => closed_node n /\ all l' end) l
     <-> forall n, In n l -> closed_node n).
  { intro l. induction l as [|n l IH]; [cbn; tauto|]. rewrite IH. cbn [In]. firstorder (subst; auto). }
  rewrite K. tauto.
Qed.
Lemma fv_node_eq n : fv_node n = f_in n ++ concat (map fv_graph (f_bodies n)).
Proof. destruct n; reflexivity. Qed.
Lemma in_fv_graph x g : In x (fv_graph g) <->
  ~ In x (defs g) /\ (In x (f_ins g) \/ In x (f_outs g) \/ exists n, In n (f_nodes g) /\ In x (fv_node n)).
Proof.
  destruct g as [ns gi go]. unfold defs. cbn [fv_graph f_outs f_nodes f_ins].
  rewrite filter_In, !in_app_iff, in_concat_map, negb_true_iff, mem_false. tauto.
Qed.

Section S.
Variable V : Type.
Variable op_rel : string -> string -> list (string * attr) -> nat -> list V ->
                  list (list V -> list V -> Prop) -> list V -> Prop.
Hypothesis ext : op_ext op_rel.
Notation holds := (holds op_rel). Notation body_rel := (body_rel op_rel). Notation all_hold := (all_hold op_rel).
Notation equiv := (equiv op_rel). Notation env := (env V).

Lemma equiv_refl g : equiv g g. Proof. intros r a s. tauto. Qed.
Lemma equiv_trans g1 g2 g3 : equiv g1 g2 -> equiv g2 g3 -> equiv g1 g3.
Proof. intros A B r a s. rewrite (A r a s). apply B. Qed.
Lemma equiv_sym g1 g2 : equiv g1 g2 -> equiv g2 g1.
Proof. intros A r a s. symmetry. apply A. Qed.

Definition same_beh (bs bs' : list (list V -> list V -> Prop)) : Prop :=
  Forall2 (fun b b' => forall a r, b a r <-> b' a r) bs bs'.
Lemma same_beh_map {A} (f f' : A -> list V -> list V -> Prop) l :
  (forall x, In x l -> forall a r, f x a r <-> f' x a r) -> same_beh (map f l) (map f' l).
Proof. intro H. induction l; cbn; constructor; [apply H; left; auto|]. apply IHl. intros. apply H. right. auto. Qed.
Lemma same_beh_map2 {A B} (f : A -> list V -> list V -> Prop) (f' : B -> list V -> list V -> Prop) (h : A -> B) l :
  (forall x, In x l -> forall a r, f x a r <-> f' (h x) a r) -> same_beh (map f l) (map f' (map h l)).
Proof. intro H. induction l; cbn; constructor; [apply H; left; auto|]. apply IHl. intros. apply H. right. auto. Qed.
Lemma same_beh_sym bs bs' : same_beh bs bs' -> same_beh bs' bs.
Proof. induction 1; constructor; auto. intros. symmetry. auto. Qed.

(** ** dependence on the names that occur only *)
Lemma produces_agree (r1 r2 : env) outs vs :
  (forall o, In o outs -> o <> "" -> r1 o = r2 o) -> produces r1 outs vs -> produces r2 outs vs.
Proof. intros H P k o E N. rewrite <- H; auto. eapply nth_error_In; eauto. Qed.

Lemma agree_ind :
  (forall n (r1 r2 : env), (forall x, In x (fv_node n) -> r1 x = r2 x) ->
      (forall x, In x (f_out n) -> x <> "" -> r1 x = r2 x) -> holds r1 n -> holds r2 n) /\
  (forall g (r1 r2 : env), (forall x, In x (fv_graph g) -> r1 x = r2 x) ->
      forall a s, body_rel r1 g a s -> body_rel r2 g a s).
Proof.
  apply fnode_fgraph_ind.
  - intros nm op dom at_ ins outs bodies IH r1 r2 H1 H2 H. rewrite holds_eq in *.
    cbn [f_op f_dom f_attrs f_in f_bodies f_out fv_node] in *. destruct H as (vs & A & B). exists vs. split.
    + assert (E : map r1 ins = map r2 ins) by (apply map_ext_in; intros; apply H1; rewrite in_app_iff; auto).
      rewrite <- E. eapply ext; [|exact A]. apply same_beh_map. intros b Hb a s.
      assert (K : forall x, In x (fv_graph b) -> r1 x = r2 x).
      { intros x Hx. apply H1. rewrite in_app_iff, in_concat_map. right. eauto. }
      split; apply IH; auto. intros x Hx. symmetry. auto.
    + eapply produces_agree; eauto.
  - intros ns gi go IH r1 r2 H a s B. apply body_rel_eq in B. destruct B as (r' & A1 & A2 & A3 & A4).
    apply body_rel_eq. set (G := FGraph ns gi go) in *.
    assert (Hagree : forall x, In x (defs G) \/ In x (fv_graph G) ->
              (if mem x (defs G) then r' x else r2 x) = r' x).
    { intros x Hx. destruct (mem x (defs G)) eqn:E; auto. apply mem_false in E.
      destruct Hx as [Hx|Hx]; [contradiction|]. rewrite A1 by auto. symmetry. auto. }
    assert (Hn : forall x, In x (f_outs G) \/ In x (f_ins G) \/ (exists n, In n (f_nodes G) /\ In x (fv_node n)) ->
              In x (defs G) \/ In x (fv_graph G)).
    { intros x Hx. destruct (in_dec string_dec x (defs G)); auto. right. apply in_fv_graph. tauto. }
    exists (fun x => if mem x (defs G) then r' x else r2 x). split; [|split; [|split]].
    + intros t Ht. apply mem_false in Ht. now rewrite Ht.
    + rewrite <- A2. apply map_ext_in. intros x Hx. apply Hagree, Hn. auto.
    + intros n Hin. apply (IH n Hin r'); [| |apply A3; exact Hin].
      * intros x Hx. symmetry. apply Hagree, Hn. eauto.
      * intros x Hx Ne. symmetry. apply Hagree. left. apply in_defs. split; auto. right. eauto.
    + rewrite <- A4. apply map_ext_in. intros x Hx. apply Hagree, Hn. auto.
Qed.
Lemma holds_agree n (r1 r2 : env) : (forall x, In x (fv_node n) -> r1 x = r2 x) ->
      (forall x, In x (f_out n) -> x <> "" -> r1 x = r2 x) -> holds r1 n -> holds r2 n.
Proof. apply agree_ind. Qed.
Lemma body_agree g (r1 r2 : env) : (forall x, In x (fv_graph g) -> r1 x = r2 x) ->
      forall a s, body_rel r1 g a s <-> body_rel r2 g a s.
Proof. intros H a s. split; apply agree_ind; auto. intros. symmetry. auto. Qed.

(** ** a body may be replaced by an equivalent one *)
Lemma holds_bodies (r : env) nm op dom at_ ins outs bodies (h : fgraph -> fgraph) :
  (forall b, In b bodies -> equiv b (h b)) ->
  (holds r (FNode nm op dom at_ ins outs bodies) <-> holds r (FNode nm op dom at_ ins outs (map h bodies))).
Proof.
  intro H. rewrite !holds_eq. cbn [f_op f_dom f_attrs f_in f_bodies f_out].
  assert (K : same_beh (map (body_rel r) bodies) (map (body_rel r) (map h bodies))).
  { apply same_beh_map2. intros b Hb a s. apply H. auto. }
  split; intros (vs & A & B); exists vs; (split; [|exact B]).
  - eapply ext; [exact K|exact A].
  - eapply ext; [apply same_beh_sym; exact K|exact A].
Qed.

(** ** substitution *)
Lemma sub_eq (r : env) a b x : r a = r b -> r (sub a b x) = r x.
Proof. intro E. unfold sub. destruct (String.eqb_spec x a); congruence. Qed.
Lemma f_out_subst a b n : f_out (subst_node a b n) = f_out n.
Proof. destruct n; reflexivity. Qed.
Lemma f_in_subst a b n : f_in (subst_node a b n) = map (sub a b) (f_in n).
Proof. destruct n; reflexivity. Qed.
Lemma f_bodies_subst a b n : f_bodies (subst_node a b n) = map (subst_graph a b) (f_bodies n).
Proof. destruct n; reflexivity. Qed.
Lemma defs_subst a b g : defs (subst_graph a b g) = defs g.
Proof.
  destruct g as [ns gi go]. unfold defs. cbn [subst_graph f_ins f_nodes]. rewrite map_map.
  f_equal. f_equal. f_equal. apply map_ext. apply f_out_subst.
Qed.
Lemma alldefs_in_node x n : In x (alldefs_node n) <->
  (In x (f_out n) /\ x <> "") \/ exists b, In b (f_bodies n) /\ In x (alldefs b).
Proof. destruct n as [n1 n2 n3 n4 n5 n6 n7]. cbn [alldefs_node f_out f_bodies]. rewrite in_app_iff, in_nonempty, in_concat_map. tauto. Qed.
Lemma alldefs_in x g : In x (alldefs g) <->
  (In x (f_ins g) /\ x <> "") \/ exists n, In n (f_nodes g) /\ In x (alldefs_node n).
Proof. destruct g as [g1 g2 g3]. cbn [alldefs f_ins f_nodes]. rewrite in_app_iff, in_nonempty, in_concat_map. tauto. Qed.
Lemma defs_alldefs x g : In x (defs g) -> In x (alldefs g).
Proof.
  rewrite in_defs, alldefs_in. intros [Ne [H|(n & H & Hx)]]; auto. right. exists n. split; auto.
  apply alldefs_in_node. auto.
Qed.

Lemma subst_ind a b :
  (forall n (r : env), (forall bd, In bd (f_bodies n) -> ~ In a (alldefs bd) /\ ~ In b (alldefs bd)) ->
     r a = r b -> (holds r (subst_node a b n) <-> holds r n)) /\
  (forall g (r : env), ~ In a (alldefs g) -> ~ In b (alldefs g) -> r a = r b ->
     forall s t, body_rel r (subst_graph a b g) s t <-> body_rel r g s t).
Proof.
  apply fnode_fgraph_ind.
  - intros nm op dom at_ ins outs bodies IH r Hb E. rewrite !holds_eq.
    cbn [subst_node f_op f_dom f_attrs f_in f_bodies f_out] in *.
    assert (Ei : map r (map (sub a b) ins) = map r ins).
    { rewrite map_map. apply map_ext. intro. now apply sub_eq. }
    assert (K : same_beh (map (body_rel r) bodies) (map (body_rel r) (map (subst_graph a b) bodies))).
    { apply same_beh_map2. intros bd Hbd s t. destruct (Hb bd Hbd). symmetry. now apply IH. }
    rewrite Ei. split; intros (vs & A & B); exists vs; (split; [|exact B]).
    + eapply ext; [apply same_beh_sym; exact K|exact A].
    + eapply ext; [exact K|exact A].
  - intros ns gi go IH r Ha Hb E s t. rewrite !body_rel_eq, defs_subst. cbn [subst_graph f_ins f_nodes f_outs].
    assert (K : forall r' : env, (forall x, ~ In x (defs (FGraph ns gi go)) -> r' x = r x) ->
              (all_hold r' (map (subst_node a b) ns) <-> all_hold r' ns)).
    { intros r' Hr.
      assert (E' : r' a = r' b).
      { rewrite !Hr; auto; intro K; apply defs_alldefs in K; auto. }
      assert (Hn : forall n, In n ns -> (holds r' (subst_node a b n) <-> holds r' n)).
      { intros n Hin. apply IH; auto. intros bd Hbd. split; intro K; [apply Ha|apply Hb];
        apply alldefs_in; right; exists n; (split; [exact Hin|]); apply alldefs_in_node; right; eauto. }
      unfold all_hold. split.
      - intros H n Hin. apply Hn; auto. apply H. now apply in_map.
      - intros H n Hin. apply in_map_iff in Hin. destruct Hin as (m & <- & Hm). apply Hn; auto. }
    split; intros (r' & A & B & C & D); exists r'; (split; [exact A|split; [exact B|split; [|exact D]]]); apply (K r' A); exact C.
Qed.
Lemma holds_subst a b n (r : env) : (forall bd, In bd (f_bodies n) -> ~ In a (alldefs bd) /\ ~ In b (alldefs bd)) ->
     r a = r b -> (holds r (subst_node a b n) <-> holds r n).
Proof. apply subst_ind. Qed.
Lemma body_subst a b g (r : env) : ~ In a (alldefs g) -> ~ In b (alldefs g) -> r a = r b ->
     forall s t, body_rel r (subst_graph a b g) s t <-> body_rel r g s t.
Proof. apply subst_ind. Qed.
End S.

(** ** syntactic facts about substitution *)
Lemma fv_subst_ind a b : a <> b -> a <> "" ->
  (forall n, closed_node n -> forall x, In x (fv_node (subst_node a b n)) -> x <> a /\ (x = b \/ In x (fv_node n))) /\
  (forall g, closed_graph g -> forall x, In x (fv_graph (subst_graph a b g)) -> x <> a /\ (x = b \/ In x (fv_graph g))).
Proof.
  intros Ne Ne0. apply fnode_fgraph_ind.
  - intros nm op dom at_ ins outs bodies IH C x Hx. rewrite fv_node_eq in *. cbn [subst_node f_in f_bodies] in *.
    apply in_app_iff in Hx. rewrite map_map in Hx. destruct Hx as [Hx|Hx].
    + apply in_map_iff in Hx. destruct Hx as (y & <- & Hy). unfold sub. destruct (String.eqb_spec y a).
      * subst. split; auto.
      * split; auto. right. rewrite in_app_iff. auto.
    + apply in_concat_map in Hx. destruct Hx as (bd & Hbd & Hx). rewrite closed_node_eq in C. cbn [f_bodies] in C.
      destruct (IH bd Hbd (C bd Hbd) x Hx) as [A B]. split; auto. destruct B as [B|B]; auto. right.
      rewrite in_app_iff, in_concat_map. right. eauto.
  - intros ns gi go IH C x Hx. apply closed_graph_eq in C. destruct C as [C1 C2].
    apply in_fv_graph in Hx. rewrite defs_subst in Hx. cbn [subst_graph f_ins f_nodes f_outs] in *.
    destruct Hx as [Hd [Hx|[Hx|(n & Hn & Hx)]]].
    + assert (x = "").
      { destruct (string_dec x ""); auto. exfalso. apply Hd. apply in_defs. auto. }
      split; [congruence|]. right. apply in_fv_graph. auto.
    + apply C1 in Hx. contradiction.
    + apply in_map_iff in Hn. destruct Hn as (m & <- & Hm). destruct (IH m Hm (C2 m Hm) x Hx) as [A B].
      split; auto. destruct B as [B|B]; auto. right. apply in_fv_graph. eauto 6.
Qed.
Lemma alldefs_subst a b :
  (forall n, alldefs_node (subst_node a b n) = alldefs_node n) /\ (forall g, alldefs (subst_graph a b g) = alldefs g).
Proof.
  apply fnode_fgraph_ind.
  - intros nm op dom at_ ins outs bodies IH. cbn [subst_node alldefs_node]. f_equal. rewrite map_map. f_equal.
    apply map_ext_in. auto.
  - intros ns gi go IH. cbn [subst_graph alldefs]. f_equal. rewrite map_map. f_equal. apply map_ext_in. auto.
Qed.
Lemma closed_subst a b :
  (forall n, closed_node n -> closed_node (subst_node a b n)) /\ (forall g, closed_graph g -> closed_graph (subst_graph a b g)).
Proof.
  apply fnode_fgraph_ind.
  - intros nm op dom at_ ins outs bodies IH C. rewrite closed_node_eq in *. cbn [subst_node f_bodies] in *.
    intros bd Hbd. apply in_map_iff in Hbd. destruct Hbd as (b0 & <- & H0). auto.
  - intros ns gi go IH C. rewrite closed_graph_eq in *. rewrite defs_subst. destruct C as [C1 C2]. cbn [subst_graph f_nodes f_outs] in *.
    split; auto. intros n Hn. apply in_map_iff in Hn. destruct Hn as (m & <- & Hm). auto.
Qed.
Lemma fv_subst_img a b : a <> "" ->
  (forall n, closed_node n -> (forall bd, In bd (f_bodies n) -> ~ In a (alldefs bd)) ->
     forall x, In x (fv_node (subst_node a b n)) -> exists t, In t (fv_node n) /\ x = sub a b t) /\
  (forall g, closed_graph g -> ~ In a (alldefs g) ->
     forall x, In x (fv_graph (subst_graph a b g)) -> exists t, In t (fv_graph g) /\ x = sub a b t).
Proof.
  intro Na. apply fnode_fgraph_ind.
  - intros nm op dom at_ ins outs bodies IH C Ha x Hx. rewrite fv_node_eq in *. cbn [subst_node f_in f_bodies] in *.
    rewrite map_map in Hx. apply in_app_iff in Hx. destruct Hx as [Hx|Hx].
    + apply in_map_iff in Hx. destruct Hx as (y & <- & Hy). exists y. rewrite in_app_iff. auto.
    + apply in_concat_map in Hx. destruct Hx as (bd & Hbd & Hx). rewrite closed_node_eq in C. cbn [f_bodies] in C.
      destruct (IH bd Hbd (C bd Hbd) (Ha bd Hbd) x Hx) as (t & Ht & E). exists t. split; auto.
      rewrite in_app_iff, in_concat_map. right. eauto.
  - intros ns gi go IH C Ha x Hx. apply closed_graph_eq in C. destruct C as [C1 C2].
    apply in_fv_graph in Hx. rewrite defs_subst in Hx. cbn [subst_graph f_ins f_nodes f_outs] in *.
    destruct Hx as [Hd [Hx|[Hx|(n & Hn & Hx)]]].
    + assert (x = "").
      { destruct (string_dec x ""); auto. exfalso. apply Hd. apply in_defs. auto. }
      subst x. exists "". split; [apply in_fv_graph; auto|]. unfold sub. destruct (String.eqb_spec "" a); congruence.
    + apply C1 in Hx. contradiction.
    + apply in_map_iff in Hn. destruct Hn as (m & <- & Hm).
      destruct (IH m Hm (C2 m Hm)) with (x := x) as (t & Ht & E); auto.
      { intros bd Hbd K. apply Ha. apply alldefs_in. right. exists m. split; auto. apply alldefs_in_node. right. eauto. }
      exists t. split; auto. apply in_fv_graph. split; eauto 6. intro K. unfold sub in E.
      destruct (String.eqb_spec t a) as [->|].
      * apply Ha. now apply defs_alldefs.
      * congruence.
Qed.
