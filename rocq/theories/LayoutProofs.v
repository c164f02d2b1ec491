From Coq Require Import String List Bool Arith ZArith Lia Permutation.
From Verif Require Import FGraph FGraphSpec FGraphProofs IdentityModel IdentityProofs ExecProofs ApplyOptProofs RewriteProofs DeadModel DeadProofs Tensor OnnxSpec TensorProofs
  B2BProofs NNProofs LayoutModel LayoutSpec.
Import ListNotations.
Local Open Scope string_scope.
Local Open Scope list_scope.

Lemma insert_outs nm op at_ x t g : f_outs (insert_on_output nm op at_ x t g) = f_outs g. Proof. reflexivity. Qed.
Lemma insert_ins nm op at_ x t g : f_ins (insert_on_output nm op at_ x t g) = f_ins g. Proof. reflexivity. Qed.
Lemma insert_nodes nm op at_ x t g : f_nodes (insert_on_output nm op at_ x t g) = map (subst_node x t) (f_nodes g) ++ [FNode nm op "" at_ [x] [t] []].
Proof. reflexivity. Qed.
Lemma outs_subst a b ns : concat (map f_out (map (subst_node a b) ns)) = concat (map f_out ns).
Proof. rewrite map_map. f_equal. apply map_ext. intro. apply f_out_subst. Qed.
Lemma insert_defs nm op at_ x t g y : t <> "" -> In y (defs (insert_on_output nm op at_ x t g)) <-> In y (defs g) \/ y = t.
Proof.
  intro Nt. unfold defs. rewrite insert_ins, insert_nodes, map_app, concat_app, outs_subst. cbn [map concat f_out app].
  rewrite !in_nonempty, !in_app_iff. cbn [In]. split; [|intros [[[H|H] Ne]|H]; subst; tauto].
  intros [[H|[H|[H|[]]]] Ne]; subst; tauto.
Qed.
Lemma insert_alldefs nm op at_ x t g y : t <> "" -> In y (alldefs (insert_on_output nm op at_ x t g)) <-> In y (alldefs g) \/ y = t.
Proof.
  intro Nt. rewrite !alldefs_in, insert_ins, insert_nodes. split.
  - intros [H|(n & Hn & H)]; auto. apply in_app_iff in Hn. destruct Hn as [Hn|[<-|[]]].
    + apply in_map_iff in Hn. destruct Hn as (m & <- & Hm). rewrite (proj1 (alldefs_subst x t)) in H. left. right. eauto.
    + cbn in H. rewrite app_nil_r in H. destruct (String.eqb t ""); cbn in H; intuition congruence.
  - intros [[H|(n & Hn & H)]| ->]; auto.
    + right. exists (subst_node x t n). rewrite (proj1 (alldefs_subst x t)), in_app_iff. split; auto. left. now apply in_map.
    + right. exists (FNode nm op "" at_ [x] [t] []). rewrite in_app_iff. cbn [In]. split; auto. apply alldefs_in_node. cbn [f_out In]. auto.
Qed.

(** ** validity *)
Lemma alldefs_named : (forall n, ~ In "" (alldefs_node n)) /\ (forall g, ~ In "" (alldefs g)).
Proof.
  apply fnode_fgraph_ind.
  - intros nm op dom at_ ins outs bodies IH K. apply alldefs_in_node in K. destruct K as [[_ K]|(b & Hb & K)]; [congruence|]. exact (IH b Hb K).
  - intros ns gi go IH K. apply alldefs_in in K. destruct K as [[_ K]|(n & Hn & K)]; [congruence|]. exact (IH n Hn K).
Qed.
Lemma acyclic_WW rk rk' g : WW rk g ->
  (forall h n s o, within g h -> In n (f_nodes h) -> In s (fv_node n) -> In o (f_out n) -> o <> "" -> rk' s < rk' o) -> WW rk' g.
Proof. intros H A h Hh. destruct (H h Hh) as [G1 G2 G3 G4 G5 G6]. constructor; auto. intros. apply (A h n); auto. Qed.
Lemma subst_graph_nodes a b g : subst_graph a b g = FGraph (map (subst_node a b) (f_nodes g)) (f_ins g) (f_outs g).
Proof. destruct g; reflexivity. Qed.
Lemma insert_WW rk nm op at_ x t g : WW rk g -> In x (defs g) -> unused g t -> ~ In nm (map f_name (f_nodes g)) ->
  exists rk', WW rk' (insert_on_output nm op at_ x t g).
Proof.
  intros H Hx (T1 & T2 & Nt) Nn. assert (G := H g (within_refl _)).
  assert (Nx : x <> "") by (apply in_defs in Hx; tauto).
  assert (Nxt : x <> t) by (intro; subst; apply T1; now apply defs_alldefs).
  set (N0 := FNode nm op "" at_ [""] [t] []).
  assert (W1 : WW (add_rank rk N0) (FGraph (f_nodes g ++ N0 :: []) (f_ins g) (f_outs g))).
  { apply add_valid.
    - rewrite app_nil_r. destruct g; exact H.
    - reflexivity.
    - rewrite app_nil_r. exact Nn.
    - cbn. destruct (String.eqb t ""); cbn; repeat constructor; cbn; tauto.
    - rewrite app_nil_r. intros o [<-|[]] _. split; [|split].
      + destruct g; exact T1.
      + destruct g; exact T2.
      + cbn. intros [E|[]]. congruence.
    - cbn. intros s [<-|[]]. auto. }
  set (g1 := FGraph (f_nodes g ++ N0 :: []) (f_ins g) (f_outs g)) in *.
  assert (Dg : forall y, In y (defs g1) <-> In y (defs g) \/ y = t).
  { intro y. rewrite !in_defs. unfold g1. cbn [f_ins f_nodes]. split.
    - intros [Ny [A|(m & Hm & A)]]; auto. apply in_app_iff in Hm. destruct Hm as [Hm|[<-|[]]]; [left; eauto 6|]. cbn in A. destruct A as [A|[]]; auto.
    - intros [[Ny [A|(m & Hm & A)]]| ->]; split; auto.
      + right. exists m. rewrite in_app_iff. auto.
      + right. exists N0. rewrite in_app_iff. cbn. auto. }
  assert (Ag : forall y, In y (alldefs g1) <-> In y (alldefs g) \/ y = t).
  { intro y. rewrite !alldefs_in. unfold g1. cbn [f_ins f_nodes]. split.
    - intros [A|(m & Hm & A)]; auto. apply in_app_iff in Hm. destruct Hm as [Hm|[<-|[]]]; [left; eauto 6|].
      apply alldefs_in_node in A. cbn in A. destruct A as [[[A|[]] _]|(b & [] & _)]. auto.
    - intros [[A|(m & Hm & A)]| ->]; auto.
      + right. exists m. rewrite in_app_iff. auto.
      + right. exists N0. rewrite in_app_iff. cbn [In]. split; auto. apply alldefs_in_node. cbn. auto. }
  set (RK := fun s => if String.eqb s t then 2 * rk x + 1 else if String.eqb s "" then 0 else 2 * rk s).
  assert (Low : forall s o, s <> t -> o <> "" -> o <> t -> rk s < rk o -> RK s < RK o).
  { intros s o Ns No No' L. unfold RK. destruct (String.eqb_spec s t); [congruence|]. destruct (String.eqb_spec o t); [congruence|].
    destruct (String.eqb_spec o ""); [congruence|]. destruct (String.eqb_spec s ""); lia. }
  assert (RKt : RK t = 2 * rk x + 1) by (unfold RK; now rewrite String.eqb_refl).
  assert (RK0 : RK "" = 0) by (unfold RK; destruct (String.eqb_spec "" t); [congruence|reflexivity]).
  assert (W1' : WW RK g1).
  { apply (acyclic_WW _ RK) in W1; auto. intros h n s o Hh Hn Hs Ho No.
    assert (Z : (h = g1 /\ n = N0) \/ exists h0, within g h0 /\ In n (f_nodes h0)).
    { inversion Hh; subst.
      - unfold g1 in Hn. cbn [f_nodes] in Hn. apply in_app_iff in Hn. destruct Hn as [Hn|[<-|[]]]; [right; exists g; split; [constructor|auto]|auto].
      - unfold g1 in H0. cbn [f_nodes] in H0. apply in_app_iff in H0. destruct H0 as [Hm|[<-|[]]]; [|cbn in H1; contradiction].
        right. exists h. split; auto. eapply within_body; eauto. }
    destruct Z as [[-> ->]|(h0 & Hh0 & Hn0)].
    - cbn in Hs, Ho. destruct Hs as [<-|[]]. destruct Ho as [<-|[]]. lia.
    - apply Low; auto.
      + intro E. subst s. destruct (within_fv g h0 n t Hh0 Hn0 Hs); contradiction.
      + intro E. subst o. apply T1. eapply within_alldefs; [exact Hh0|]. apply alldefs_in. right. exists n. split; auto. apply alldefs_in_node. auto.
      + apply (g_acyclic _ _ (H h0 Hh0) n); auto. }
  assert (Sb : forall s o, o <> "" -> o <> t -> RK s < RK o -> RK (sub x t s) < RK o).
  { intros s o No No' L. unfold sub. destruct (String.eqb_spec s x); auto. subst s. revert L. rewrite RKt. unfold RK.
    destruct (String.eqb_spec o t); [congruence|]. destruct (String.eqb_spec o ""); [congruence|].
    destruct (String.eqb_spec x t); [congruence|]. destruct (String.eqb_spec x ""); [congruence|]. lia. }
  destruct (subst_valid RK RK x t g1 W1') as [W2 _]; auto.
  { apply Dg. auto. }
  { left. apply Dg. auto. }
  { intros n s o Hn Hs Ho No. destruct (string_dec o t) as [->|No'].
    - unfold g1 in Hn. cbn [f_nodes] in Hn. apply in_app_iff in Hn. destruct Hn as [Hn|[<-|[]]].
      + exfalso. apply T1. apply alldefs_in. right. exists n. split; auto. apply alldefs_in_node. auto.
      + cbn in Hs. destruct Hs as [<-|[]]. unfold sub. destruct (String.eqb_spec "" x); [congruence|]. lia.
    - apply Sb; auto. apply (g_acyclic _ _ (W1' g1 (within_refl _)) n); auto. }
  { intros s o Ho Nd L. apply Ag in Ho. destruct Ho as [Ho| ->]; [|exfalso; apply Nd, Dg; auto]. apply Sb; auto.
    - intro E. subst o. now apply (proj2 alldefs_named g).
    - congruence. }
  exists RK.
  assert (Eg : subst_graph x t g1 = FGraph (map (subst_node x t) (f_nodes g) ++ N0 :: []) (f_ins g) (f_outs g)).
  { unfold g1. cbn [subst_graph]. rewrite map_app. cbn [map subst_node]. unfold N0. f_equal. f_equal. cbn [subst_node map]. unfold sub.
    destruct (String.eqb_spec "" x); [congruence|]. reflexivity. }
  rewrite Eg in W2. destruct (replace_valid RK _ N0 (FNode nm op "" at_ [x] [t] []) [] _ _ W2) as [W3 _]; auto.
  - intros s [<-|[]]. left. rewrite <- Eg, defs_subst. apply Dg. auto.
  - intros s o [<-|[]] [<-|[]] _. rewrite RKt. unfold RK. destruct (String.eqb_spec x t); [congruence|]. destruct (String.eqb_spec x ""); [congruence|]. lia.
Qed.

(** ** layouts *)
Lemma nchw_transpose {A} (x y : tensor A) : nchw_of x y <-> transpose_rel [0; 3; 1; 2] x y.
Proof.
  split.
  - intros (N & H & W & C & Ex & Ey & Wx & Wy & E). unfold transpose_rel. rewrite Ex, Ey. split; [|split; [|split; [|split]]]; auto.
    + apply (cf_perm 2).
    + intros ix Hi. destruct ix as [|n [|h [|w [|c [|]]]]]; cbn in Hi; try tauto. cbn [pick map nth]. apply E; tauto.
  - intros (P & Wx & Wy & Es & E).
    assert (L : length (shape x) = 4) by (apply is_perm_length in P; auto).
    destruct (shape x) as [|N [|H [|W [|C [|]]]]] eqn:Ex; try discriminate L. exists N, H, W, C. split; [exact Ex|split; [exact Es|split; [auto|split; [auto|]]]].
    intros n h w c Hn Hh Hw Hc. exact (E [n; h; w; c] (conj Hn (conj Hh (conj Hw (conj Hc I))))).
Qed.
Lemma nchw_back {A} (x y : tensor A) : nchw_of x y <-> transpose_rel [0; 2; 3; 1] y x.
Proof.
  rewrite nchw_transpose. split; intro H.
  - apply (transpose_back [0; 3; 1; 2] [0; 2; 3; 1] 4); auto; [|apply (cl_perm 2)]. destruct H as (P & _). apply is_perm_length in P. auto.
  - apply (transpose_back [0; 2; 3; 1] [0; 3; 1; 2] 4); auto; [|apply (cf_perm 2)]. destruct H as (P & _). apply is_perm_length in P. auto.
Qed.
Lemma nchw_fun {A} (x y z : tensor A) : nchw_of x y -> nchw_of x z -> y = z.
Proof. rewrite !nchw_transpose. apply transpose_fun. Qed.
Lemma nchw_inj {A} (x y z : tensor A) : nchw_of x z -> nchw_of y z -> x = y.
Proof. rewrite !nchw_back. apply transpose_fun. Qed.
Lemma nchw_exists {A} (x : tensor A) : wf x -> length (shape x) = 4 -> exists y, nchw_of x y.
Proof. intros W L. destruct (transpose_exists [0; 3; 1; 2] x W) as (y & Hy). { rewrite L. apply (cf_perm 2). } exists y. now apply nchw_transpose. Qed.

(** ** runs *)
Section Runs.
Variable V : Type.
Variable op_rel : string -> string -> list (string * attr) -> nat -> list V -> list (list V -> list V -> Prop) -> list V -> Prop.
Hypothesis ext : op_ext op_rel.
Notation holds := (holds op_rel). Notation all_hold := (all_hold op_rel). Notation run := (run op_rel). Notation env := (env V).

Definition upd (r : env) (x : string) (v : V) : env := fun y => if String.eqb y x then v else r y.
Lemma upd_same r x v : upd r x v x = v. Proof. unfold upd. now rewrite String.eqb_refl. Qed.
Lemma upd_other r x v y : y <> x -> upd r x v y = r y. Proof. unfold upd. destruct (String.eqb_spec y x); congruence. Qed.

Lemma in_alldefs_out g n o : In n (f_nodes g) -> In o (f_out n) -> o <> "" -> In o (alldefs g).
Proof. intros Hn Ho No. apply alldefs_in. right. exists n. split; auto. apply alldefs_in_node. auto. Qed.
Lemma input_not_out rk g x n : WW rk g -> In x (f_ins g) -> In n (f_nodes g) -> ~ In x (f_out n).
Proof.
  intros H Hx Hn K. assert (G := H g (within_refl _)). assert (S := g_ssa _ _ G).
  assert (Nx : x <> "") by (intro; subst; apply (g_noself _ _ G); auto).
  destruct g as [ns gi go]. cbn [alldefs f_ins f_nodes] in *. apply NoDup_app_inv in S. destruct S as (_ & _ & D).
  apply (D x); [now apply in_nonempty|]. apply in_concat_map. exists n. split; auto. apply alldefs_in_node. auto.
Qed.
Lemma node_holds_1 (r : env) nm op at_ x t : t <> "" -> (holds r (FNode nm op "" at_ [x] [t] []) <-> exists vs, op_rel op "" at_ 1 [r x] [] vs /\ nth_error vs 0 = Some (r t)).
Proof.
  intro Nt. rewrite holds_eq. cbn [f_op f_dom f_attrs f_out f_in f_bodies map length]. split; intros (vs & A & B); exists vs; (split; [exact A|]).
  - apply (B 0 t); auto.
  - intros k o E No. destruct k as [|[|k]]; cbn in E; try discriminate. now inversion E; subst.
Qed.

Section Insert.
Variables (rk : string -> nat) (g : fgraph) (x t nm op : string) (at_ : list (string * attr)).
Hypothesis H : WW rk g.
Hypothesis T : unused g t.
Let g' := insert_on_output nm op at_ x t g.
Lemma t_not_fv n : In n (f_nodes g) -> ~ In t (fv_node n).
Proof. intros Hn K. destruct T as (T1 & T2 & _). destruct (used_defs_or_free g n t Hn K) as [Q|Q]; auto. apply T1. now apply defs_alldefs. Qed.
Lemma t_not_out n : In n (f_nodes g) -> ~ In t (f_out n).
Proof. intros Hn K. destruct T as (T1 & _ & Nt). apply T1. eapply in_alldefs_out; eauto. Qed.
Lemma t_not_nested n b : In n (f_nodes g) -> In b (f_bodies n) -> ~ In t (alldefs b).
Proof. intros Hn Hb K. destruct T as (T1 & _). apply T1. apply alldefs_in. right. exists n. split; auto. apply alldefs_in_node. right. eauto. Qed.
Lemma x_not_nested n b : In x (defs g) -> In n (f_nodes g) -> In b (f_bodies n) -> ~ In x (alldefs b).
Proof. intros Hx Hn Hb. apply (good_not_nested rk g n b x (H g (within_refl _))); auto. Qed.

(** x is a graph input that is fed with v' instead, and the new node turns v' back into the value of x *)
Lemma input_forward (r r' : env) v' : In x (f_ins g) -> run r r' g -> (exists vs, op_rel op "" at_ 1 [v'] [] vs /\ nth_error vs 0 = Some (r' x)) ->
  run r (upd (upd r' x v') t (r' x)) g'.
Proof.
  intros Hx [R1 R2] Hop. assert (G := H g (within_refl _)). destruct (T) as (T1 & T2 & Nt).
  assert (Nx : x <> "") by (intro E; rewrite E in Hx; apply (g_noself _ _ G); auto).
  assert (Hd : In x (defs g)) by (apply in_defs; auto).
  assert (Nxt : x <> t) by (intro E; apply T1; rewrite <- E; now apply defs_alldefs).
  split.
  - intros y Hy. assert (Y : ~ In y (defs g) /\ y <> t) by (split; intro; apply Hy, insert_defs; auto).
    rewrite !upd_other; [apply R1; tauto|intro; subst; tauto|tauto].
  - intros n Hn. unfold g' in Hn. rewrite insert_nodes in Hn. apply in_app_iff in Hn. destruct Hn as [Hn|[<-|[]]].
    + apply in_map_iff in Hn. destruct Hn as (m & <- & Hm).
      assert (K : holds (upd r' t (r' x)) (subst_node x t m)).
      { apply (holds_subst V op_rel ext).
        - intros bd Hbd. split; [apply (x_not_nested m)|apply (t_not_nested m)]; auto.
        - rewrite upd_same, upd_other; auto.
        - apply (holds_agree V op_rel ext m r'); [| |apply R2; exact Hm].
          + intros y Hy. rewrite upd_other; auto. intro; subst. exact (t_not_fv m Hm Hy).
          + intros y Hy _. rewrite upd_other; auto. intro; subst. exact (t_not_out m Hm Hy). }
      eapply (holds_agree V op_rel ext); [| |exact K].
      * intros y Hy. apply (proj1 (fv_subst_ind x t Nxt Nx) m (WW_closed rk g m H Hm)) in Hy. destruct Hy as [Ny _]. unfold upd. destruct (String.eqb_spec y t); auto.
        destruct (String.eqb_spec y x); congruence.
      * intros y Hy _. rewrite f_out_subst in Hy. unfold upd. destruct (String.eqb_spec y t); auto. destruct (String.eqb_spec y x); auto. subst y.
        exfalso. exact (input_not_out rk g x m H Hx Hm Hy).
    + apply node_holds_1; auto. rewrite upd_same, (upd_other _ t), upd_same; auto.
Qed.
Lemma input_backward (r r'' : env) : In x (f_ins g) -> run r r'' g' ->
  (exists vs, op_rel op "" at_ 1 [r'' x] [] vs /\ nth_error vs 0 = Some (r'' t)) /\
  run r (upd (upd r'' x (r'' t)) t (r t)) g.
Proof.
  intros Hx [R1 R2]. assert (G := H g (within_refl _)). destruct (T) as (T1 & T2 & Nt).
  assert (Nx : x <> "") by (intro E; rewrite E in Hx; apply (g_noself _ _ G); auto).
  assert (Hd : In x (defs g)) by (apply in_defs; auto).
  assert (Nxt : x <> t) by (intro E; apply T1; rewrite <- E; now apply defs_alldefs).
  split; [|split].
  - apply (node_holds_1 r'' nm); auto. apply R2. unfold g'. rewrite insert_nodes, in_app_iff. cbn [In]. auto.
  - intros y Hy. unfold upd. destruct (String.eqb_spec y t); [now subst|]. destruct (String.eqb_spec y x); [subst; contradiction|].
    apply R1. intro K. apply insert_defs in K; auto. tauto.
  - intros m Hm. assert (K : holds r'' (subst_node x t m)).
    { apply R2. unfold g'. rewrite insert_nodes, in_app_iff. left. now apply in_map. }
    assert (K' : holds (upd r'' x (r'' t)) m).
    { apply (holds_subst V op_rel ext x t).
      - intros bd Hbd. split; [apply (x_not_nested m)|apply (t_not_nested m)]; auto.
      - rewrite upd_same, upd_other; auto.
      - eapply (holds_agree V op_rel ext); [| |exact K].
        + intros y Hy. apply (proj1 (fv_subst_ind x t Nxt Nx) m (WW_closed rk g m H Hm)) in Hy. rewrite upd_other; tauto.
        + intros y Hy _. rewrite f_out_subst in Hy. rewrite upd_other; auto. intro; subst y. exact (input_not_out rk g x m H Hx Hm Hy). }
    eapply (holds_agree V op_rel ext); [| |exact K'].
    + intros y Hy. symmetry. apply upd_other. intro; subst. exact (t_not_fv m Hm Hy).
    + intros y Hy _. symmetry. apply upd_other. intro; subst. exact (t_not_out m Hm Hy).
Qed.
(** an insertion does not matter for a node that does not read x *)
Lemma subst_noop (r : env) m : In x (defs g) -> In m (f_nodes g) -> ~ In x (fv_node m) -> (holds r (subst_node x t m) <-> holds r m).
Proof.
  intros Hd Hm Nx. destruct (T) as (T1 & T2 & Nt). assert (Nx0 : x <> "") by (apply in_defs in Hd; tauto).
  assert (Nest : forall bd, In bd (f_bodies m) -> ~ In x (alldefs bd) /\ ~ In t (alldefs bd)).
  { intros bd Hbd. split; [apply (x_not_nested m)|apply (t_not_nested m)]; auto. }
  assert (Nxt : x <> t) by (intro E; apply T1; rewrite <- E; now apply defs_alldefs).
  assert (Fv : ~ In t (fv_node (subst_node x t m))).
  { intro K. apply (proj1 (fv_subst_img x t Nx0) m (WW_closed rk g m H Hm)) in K; [|intros bd Hbd; apply Nest; auto].
    destruct K as (s & Hs & E). unfold sub in E. destruct (String.eqb_spec s x); [congruence|]. subst s. exact (t_not_fv m Hm Hs). }
  set (r3 := upd r t (r x)).
  assert (A1 : holds r m <-> holds r3 m).
  { split; apply (holds_agree V op_rel ext); intros y Hy; intros; unfold r3; (rewrite upd_other; [auto|]); intro; subst y;
      solve [exact (t_not_fv m Hm Hy)|exact (t_not_out m Hm Hy)]. }
  assert (A2 : holds r (subst_node x t m) <-> holds r3 (subst_node x t m)).
  { split; apply (holds_agree V op_rel ext); intros y Hy; intros; unfold r3; (rewrite upd_other; [auto|]); intro; subst y; try contradiction;
      rewrite f_out_subst in Hy; exact (t_not_out m Hm Hy). }
  rewrite A1, A2. apply (holds_subst V op_rel ext); auto. unfold r3. rewrite upd_same, upd_other; auto.
Qed.
(** x is read by the Identity d only, which computes o *)
Variables (d : fnode) (o : string).
Hypothesis idm : identity_meaning op_rel.
Hypothesis Hd : In d (f_nodes g).
Hypothesis Dop : f_op d = "Identity".
Hypothesis Din : f_in d = [x].
Hypothesis Dout : f_out d = [o].
Hypothesis Db : f_bodies d = [].
Hypothesis Hx : In x (defs g).
Hypothesis No : o <> "".
Hypothesis Sole : forall m, In m (f_nodes g) -> In x (fv_node m) -> m = d.
Hypothesis Ounread : forall m, In m (f_nodes g) -> ~ In o (fv_node m).
Lemma one_producer rk0 g0 m m' y : WW rk0 g0 -> In m (f_nodes g0) -> In m' (f_nodes g0) -> In y (f_out m) -> In y (f_out m') -> y <> "" -> m = m'.
Proof.
  intros W Hm Hm' Hy Hy' Ny. destruct (In_nth_error _ _ Hm) as (i & Ei). destruct (In_nth_error _ _ Hm') as (j & Ej).
  destruct (Nat.eq_dec i j) as [->|N]; [congruence|]. exfalso.
  assert (G := W g0 (within_refl _)). destruct g0 as [ns gi go]. cbn [f_nodes] in *.
  apply in_split in Hm. destruct Hm as (l1 & l2 & ->). destruct (alldefs_split _ _ _ _ _ (g_ssa _ _ G)) as (S1 & S2 & S3).
  assert (Q : In m' (l1 ++ l2)).
  { assert (Hin : In m' (l1 ++ m :: l2)) by (eapply nth_error_In; eauto). apply in_app_iff in Hin. rewrite in_app_iff. destruct Hin as [Q|[Q|Q]]; auto.
    subst m'. exfalso. assert (M := g_names _ _ G). cbn [f_nodes] in M. apply N. 
    assert (Li : i < length (map f_name (l1 ++ m :: l2))) by (rewrite map_length; apply nth_error_Some; congruence).
    apply (NoDup_nth_error (map f_name (l1 ++ m :: l2))); auto.
    rewrite (map_nth_error f_name i _ Ei), (map_nth_error f_name j _ Ej). reflexivity. }
  apply (S3 y).
  - apply alldefs_in_node. auto.
  - apply alldefs_in. right. exists m'. split; auto. apply alldefs_in_node. auto.
Qed.
Lemma identity_holds (r : env) a b : b <> "" -> holds r (FNode (f_name d) "Identity" (f_dom d) (f_attrs d) [a] [b] []) <-> r b = r a.
Proof.
  intro Nb. rewrite holds_eq. cbn [f_op f_dom f_attrs f_out f_in f_bodies map length]. split.
  - intros (vs & A & B). apply idm in A. subst vs. specialize (B 0 b eq_refl Nb). cbn in B. congruence.
  - intro E. exists [r a]. split; [now apply idm|]. intros k y Ek Ny. destruct k as [|[|k]]; cbn in Ek; try discriminate. inversion Ek; subst. cbn. congruence.
Qed.
Lemma d_eq : d = FNode (f_name d) "Identity" (f_dom d) (f_attrs d) [x] [o] [].
Proof. destruct d. cbn in *. congruence. Qed.
Lemma d_subst : subst_node x t d = FNode (f_name d) "Identity" (f_dom d) (f_attrs d) [t] [o] [].
Proof. rewrite d_eq at 1. cbn [subst_node map]. unfold sub. rewrite String.eqb_refl. reflexivity. Qed.
Lemma x_neq_o : x <> o.
Proof.
  intro E. assert (G := H g (within_refl _)). assert (L : rk x < rk o).
  { apply (g_acyclic _ _ G d); auto; [rewrite fv_node_eq, Din; cbn; auto|rewrite Dout; cbn; auto]. }
  rewrite E in L. lia.
Qed.
Lemma o_defs : In o (defs g).
Proof. apply in_defs. split; auto. right. exists d. rewrite Dout. cbn. auto. Qed.
Lemma o_neq_t : o <> t.
Proof. intro E. destruct (T) as (T1 & _). apply T1. rewrite <- E. apply defs_alldefs, o_defs. Qed.
Lemma output_forward (r r' : env) w : run r r' g -> (exists vs, op_rel op "" at_ 1 [r' x] [] vs /\ nth_error vs 0 = Some w) ->
  run r (upd (upd r' t w) o w) g'.
Proof.
  intros [R1 R2] Hop. destruct (T) as (T1 & T2 & Nt). assert (Nxo := x_neq_o). assert (Not := o_neq_t).
  assert (Nxt : x <> t) by (intro E; apply T1; rewrite <- E; now apply defs_alldefs).
  split.
  - intros y Hy. assert (Y : ~ In y (defs g) /\ y <> t) by (split; intro; apply Hy, insert_defs; auto).
    rewrite !upd_other; [apply R1; tauto|tauto|intro; subst; exact (proj1 Y o_defs)].
  - intros n Hn. unfold g' in Hn. rewrite insert_nodes in Hn. apply in_app_iff in Hn. destruct Hn as [Hn|[<-|[]]].
    + apply in_map_iff in Hn. destruct Hn as (m & <- & Hm).
      destruct (in_dec string_dec x (fv_node m)) as [Hxm|Hxm].
      * rewrite (Sole m Hm Hxm), d_subst. apply identity_holds; auto. rewrite upd_same, upd_other, upd_same; auto.
      * apply subst_noop; auto. apply (holds_agree V op_rel ext m r'); [| |apply R2; exact Hm].
        -- intros y Hy. rewrite !upd_other; auto; intro; subst y; [exact (t_not_fv m Hm Hy)|exact (Ounread m Hm Hy)].
        -- intros y Hy Ny. rewrite !upd_other; auto; intro; subst y; [exact (t_not_out m Hm Hy)|].
           apply Hxm. rewrite (one_producer rk g m d o H Hm Hd Hy) by (auto; rewrite Dout; cbn; auto). rewrite fv_node_eq, Din. cbn. auto.
    + apply node_holds_1; auto. rewrite (upd_other _ o), (upd_other _ t), (upd_other _ o), upd_same; auto.
Qed.
Lemma output_backward (r r'' : env) : run r r'' g' ->
  (exists vs, op_rel op "" at_ 1 [r'' x] [] vs /\ nth_error vs 0 = Some (r'' o)) /\
  run r (upd (upd r'' o (r'' x)) t (r t)) g.
Proof.
  intros [R1 R2]. destruct (T) as (T1 & T2 & Nt). assert (Nxo := x_neq_o). assert (Not := o_neq_t).
  assert (Nxt : x <> t) by (intro E; apply T1; rewrite <- E; now apply defs_alldefs).
  assert (Eo : r'' o = r'' t).
  { assert (K : holds r'' (subst_node x t d)) by (apply R2; unfold g'; rewrite insert_nodes, in_app_iff; left; now apply in_map).
    rewrite d_subst in K. apply identity_holds in K; auto. }
  split; [|split].
  - rewrite Eo. apply (node_holds_1 r'' nm); auto. apply R2. unfold g'. rewrite insert_nodes, in_app_iff. cbn [In]. auto.
  - intros y Hy. unfold upd. destruct (String.eqb_spec y t); [now subst|]. destruct (String.eqb_spec y o); [subst; exfalso; apply Hy, o_defs|].
    apply R1. intro K. apply insert_defs in K; auto. tauto.
  - intros m Hm. assert (K : holds r'' (subst_node x t m)).
    { apply R2. unfold g'. rewrite insert_nodes, in_app_iff. left. now apply in_map. }
    destruct (in_dec string_dec x (fv_node m)) as [Hxm|Hxm].
    + rewrite (Sole m Hm Hxm), d_eq. apply identity_holds; auto. rewrite (upd_other _ t), upd_same, (upd_other _ t), (upd_other _ o); auto.
    + apply (proj1 (subst_noop r'' m Hx Hm Hxm)) in K. eapply (holds_agree V op_rel ext m); [| |exact K].
      * intros y Hy. rewrite !upd_other; auto; intro; subst y; [exact (Ounread m Hm Hy)|exact (t_not_fv m Hm Hy)].
      * intros y Hy Ny. rewrite !upd_other; auto; intro; subst y; [|exact (t_not_out m Hm Hy)].
        apply Hxm. rewrite (one_producer rk g m d o H Hm Hd Hy) by (auto; rewrite Dout; cbn; auto). rewrite fv_node_eq, Din. cbn. auto.
Qed.
End Insert.
End Runs.

Lemma insert_fv rk nm op at_ x t g y : WW rk g -> In x (defs g) -> unused g t -> In y (fv_graph (insert_on_output nm op at_ x t g)) -> In y (fv_graph g).
Proof.
  intros H Hx (T1 & T2 & Nt) Hy. apply in_fv_graph in Hy. destruct Hy as [Hd Hy]. rewrite insert_ins, insert_outs, insert_nodes in Hy.
  assert (Nx : x <> "") by (apply in_defs in Hx; tauto).
  assert (N : ~ In y (defs g) /\ y <> t) by (split; intro; apply Hd, insert_defs; auto).
  apply in_fv_graph. split; [tauto|]. destruct Hy as [Hy|[Hy|(n & Hn & Hy)]]; auto. right. right. apply in_app_iff in Hn. destruct Hn as [Hn|[<-|[]]].
  - apply in_map_iff in Hn. destruct Hn as (m & <- & Hm). exists m. split; auto.
    apply (proj1 (fv_subst_img x t Nx) m (WW_closed rk g m H Hm)) in Hy.
    + destruct Hy as (s & Hs & E). unfold sub in E. destruct (String.eqb_spec s x); [tauto|now subst].
    + intros bd Hbd. apply (good_not_nested rk g m bd x (H g (within_refl _))); auto.
  - cbn in Hy. destruct Hy as [<-|[]]. tauto.
Qed.
Lemma insert_names nm op at_ x t g : map f_name (f_nodes (insert_on_output nm op at_ x t g)) = map f_name (f_nodes g) ++ [nm].
Proof. rewrite insert_nodes, map_app, names_subst. reflexivity. Qed.
Lemma insert_unused rk nm op at_ x t g y : WW rk g -> In x (defs g) -> unused g t -> unused g y -> y <> t -> unused (insert_on_output nm op at_ x t g) y.
Proof.
  intros H Hx T (A & B & C) Ny. destruct (T) as (_ & _ & Nt). split; [|split; auto].
  - intro K. apply insert_alldefs in K; tauto.
  - intro K. apply B. eapply insert_fv; eauto.
Qed.
Lemma supply_step rk op at_ x y g l nn tn : WW rk g -> In y (defs g) -> ~ In x l -> supply g (x :: l) nn tn -> supply (insert_on_output (nn x) op at_ y (tn x) g) l nn tn.
Proof.
  intros H Hx Nx (A & B). split; [|intros; apply B; cbn; auto]. intros z Hz. destruct (A x (or_introl eq_refl)) as [T _].
  destruct (A z (or_intror Hz)) as [A1 A2]. assert (Nz : z <> x) by congruence. destruct (B z x (or_intror Hz) (or_introl eq_refl) Nz) as [B1 B2]. split.
  - eapply insert_unused; eauto.
  - rewrite insert_names, in_app_iff. cbn [In]. intros [K|[K|[]]]; auto.
Qed.
Lemma supply_incl g l l' nn tn : incl l' l -> supply g l nn tn -> supply g l' nn tn.
Proof. intros I [A B]. split; intros; [apply A|apply B]; auto. Qed.

Section Fold.
Variable A : Type.
Variable op_rel : string -> string -> list (string * attr) -> nat -> list (tensor A) -> list (list (tensor A) -> list (tensor A) -> Prop) -> list (tensor A) -> Prop.
Hypothesis ext : op_ext op_rel.
Hypothesis tm : transpose_meaning op_rel.
Notation run := (run op_rel). Notation env := (env (tensor A)).
Definition tperm (p : list Z) := [("perm", AInts p)].
Lemma tm_back v y : (exists vs, op_rel "Transpose" "" (tperm NCHW_TO_NHWC) 1 [v] [] vs /\ nth_error vs 0 = Some y) <-> nchw_of y v.
Proof.
  rewrite nchw_back. split.
  - intros (vs & B & C). apply (tm [0; 2; 3; 1]) in B. destruct B as (z & -> & B). cbn in C. now inversion C; subst.
  - intro B. exists [y]. split; auto. apply (tm [0; 2; 3; 1]). eauto.
Qed.
Lemma tm_forth v y : (exists vs, op_rel "Transpose" "" (tperm NHWC_TO_NCHW) 1 [v] [] vs /\ nth_error vs 0 = Some y) <-> nchw_of v y.
Proof.
  rewrite nchw_transpose. split.
  - intros (vs & B & C). apply (tm [0; 3; 1; 2]) in B. destruct B as (z & -> & B). cbn in C. now inversion C; subst.
  - intro B. exists [y]. split; auto. apply (tm [0; 3; 1; 2]). eauto.
Qed.

(** what a sequence of insertions for the names S achieves *)
Definition image (v : tensor A) : Prop := wf v /\ length (shape v) = 4.
Record achieved (S : list string) (g : fgraph) (sh : shapes) (g' : fgraph) (sh' : shapes) : Prop := {
  a_ins : f_ins g' = f_ins g; a_outs : f_outs g' = f_outs g;
  a_defs : forall y, In y (defs g) -> In y (defs g');
  a_fwd : forall r r', run r r' g -> (forall x, In x S -> image (r' x)) ->
    exists r'', run r r'' g' /\ runs_relayout S g r' r'' /\ (shapes_right sh r' g -> shapes_right sh' r'' g');
  a_bwd : forall r r'', run r r'' g' -> exists r', run r r' g /\ runs_relayout S g r' r'' /\ (shapes_right sh r' g -> shapes_right sh' r'' g') }.
Lemma achieved_refl g sh : achieved [] g sh g sh.
Proof.
  constructor; auto.
  - intros r r' R _. exists r'. split; auto. split; auto. intros x _. split; [intros []|auto].
  - intros r r' R. exists r'. split; auto. split; auto. intros x _. split; [intros []|auto].
Qed.
Lemma achieved_trans S1 S2 g1 s1 g2 s2 g3 s3 : achieved S1 g1 s1 g2 s2 -> achieved S2 g2 s2 g3 s3 -> (forall x, In x S1 -> ~ In x S2) -> (forall x, In x S2 -> In x (defs g1)) ->
  achieved (S1 ++ S2) g1 s1 g3 s3.
Proof.
  intros [I1 O1 D1 F1 B1] [I2 O2 D2 F2 B2] Disj Sub.
  assert (K : forall r1 r2 r3 : env, runs_relayout S1 g1 r1 r2 -> runs_relayout S2 g2 r2 r3 -> runs_relayout (S1 ++ S2) g1 r1 r3).
  { intros r1 r2 r3 Q1 Q2 x Hx. destruct (Q1 x Hx) as [Q1a Q1b]. destruct (Q2 x (D1 x Hx)) as [Q2a Q2b]. rewrite in_app_iff. split.
    - intros [Hi|Hi].
      + rewrite Q2b; auto.
      + rewrite <- Q1b; auto. intro. apply (Disj x); auto.
    - intro N. rewrite Q2b, Q1b; auto. }
  constructor; try congruence; auto.
  - intros r r' R Im. destruct (F1 r r' R) as (r2 & R2 & Q2 & P2). { intros x Hx. apply Im. apply in_app_iff. auto. }
    destruct (F2 r r2 R2) as (r3 & R3 & Q3 & P3).
    { intros x Hx. rewrite (proj2 (Q2 x (Sub x Hx))); [apply Im; apply in_app_iff; auto|]. intro. apply (Disj x); auto. }
    exists r3. split; auto. split; [eapply K; eauto|auto].
  - intros r r3 R3. destruct (B2 r r3 R3) as (r2 & R2 & Q2 & P2). destruct (B1 r r2 R2) as (r1 & R1 & Q1 & P1). exists r1. split; auto. split; [eapply K; eauto|auto].
Qed.
Lemma shape_ok_nchw s (v v' : tensor A) : shape_ok s v -> nchw_of v v' -> shape_ok (index_perm s NHWC_TO_NCHW) v'.
Proof.
  unfold shape_ok. intros F (N & H & W & C & Es & Es' & _). rewrite Es in F. rewrite Es'.
  do 4 (match goal with K : Forall2 _ _ (_ :: _) |- _ => inversion K; subst; clear K end).
  match goal with K : Forall2 _ _ [] |- _ => inversion K; subst; clear K end. cbn. repeat (apply Forall2_cons; auto). 
Qed.
Lemma transpose_runs nm p x t g r r'' : t <> "" -> run r r'' (insert_on_output nm "Transpose" (tperm p) x t g) ->
  exists vs, op_rel "Transpose" "" (tperm p) 1 [r'' x] [] vs /\ nth_error vs 0 = Some (r'' t).
Proof. intros Nt [_ R]. apply (node_holds_1 _ op_rel r'' nm); auto. apply R. rewrite insert_nodes, in_app_iff. cbn [In]. auto. Qed.
Lemma input_achieved rk g sh s x t nm : WW rk g -> In x (f_ins g) -> unused g t -> sh x = Some s ->
  achieved [x] g sh (insert_on_output nm "Transpose" (tperm NCHW_TO_NHWC) x t g) (set_shape x (index_perm s NHWC_TO_NCHW) (set_shape t s sh)).
Proof.
  intros H Hx T Hs. destruct (T) as (T1 & T2 & Nt).
  assert (D : forall y, In y (defs g) -> y <> t) by (intros y Hy ->; apply T1; now apply defs_alldefs).
  assert (Hdx : In x (defs g)).
  { apply in_defs. split; auto. intro E. apply (g_noself _ _ (H g (within_refl _))). now rewrite <- E. }
  assert (Sh : forall r r' r'', run r r'' (insert_on_output nm "Transpose" (tperm NCHW_TO_NHWC) x t g) -> runs_relayout [x] g r' r'' ->
             shapes_right sh r' g -> shapes_right (set_shape x (index_perm s NHWC_TO_NCHW) (set_shape t s sh)) r'' (insert_on_output nm "Transpose" (tperm NCHW_TO_NHWC) x t g)).
  { intros r r' r'' R Q P y s' Hy. unfold set_shape. destruct (Q x Hdx) as [Qx _]. specialize (Qx (or_introl eq_refl)). 
    apply transpose_runs in R; auto. apply tm_back in R. destruct (String.eqb_spec y x) as [->|Nx].
    - intro E. inversion E; subst s'. apply (shape_ok_nchw s (r' x)); auto.
    - destruct (String.eqb_spec y t) as [->|Nyt].
      + intro E. inversion E; subst s'. rewrite (nchw_inj (r'' t) (r' x) (r'' x)); auto.
      + intro E. apply insert_defs in Hy; auto. destruct Hy as [Hy|Hy]; [|congruence]. rewrite (proj2 (Q y Hy)); [apply (P y); auto|]. cbn. intros [Q'|[]]. congruence. }
  constructor; auto.
  - intros y Hy. apply insert_defs; auto.
  - intros r r' R Im. destruct (Im x (or_introl eq_refl)) as [W L]. destruct (nchw_exists (r' x) W L) as (v & Hv).
    assert (R2 : run r (upd _ (upd _ r' x v) t (r' x)) (insert_on_output nm "Transpose" (tperm NCHW_TO_NHWC) x t g)).
    { eapply input_forward; eauto. now apply tm_back. }
    assert (Q : runs_relayout [x] g r' (upd _ (upd _ r' x v) t (r' x))).
    { intros y Hy. rewrite upd_other by auto. cbn [In]. split.
      * intros [<-|[]]. now rewrite upd_same.
      * intro N. rewrite upd_other; auto. }
    exists (upd _ (upd _ r' x v) t (r' x)). split; auto. split; auto. eapply Sh; eauto.
  - intros r r'' R. destruct (input_backward _ op_rel ext rk g x t nm "Transpose" (tperm NCHW_TO_NHWC) H T r r'' Hx R) as [Op R']. apply tm_back in Op.
    assert (Q : runs_relayout [x] g (upd _ (upd _ r'' x (r'' t)) t (r t)) r'').
    { intros y Hy. rewrite upd_other by auto. cbn [In]. split.
    + intros [<-|[]]. now rewrite upd_same.
    + intro N. rewrite upd_other; auto. }
    exists (upd _ (upd _ r'' x (r'' t)) t (r t)). split; auto. split; auto. eapply Sh; eauto.
Qed.
Lemma output_achieved rk g sh s d x o t nm : identity_meaning op_rel -> WW rk g -> In d (f_nodes g) -> f_op d = "Identity" -> f_in d = [x] -> f_out d = [o] -> f_bodies d = [] -> In x (defs g) -> o <> "" ->
  (forall m, In m (f_nodes g) -> In x (fv_node m) -> m = d) -> (forall m, In m (f_nodes g) -> ~ In o (fv_node m)) -> unused g t -> sh o = Some s ->
  achieved [o] g sh (insert_on_output nm "Transpose" (tperm NHWC_TO_NCHW) x t g) (set_shape o (index_perm s NHWC_TO_NCHW) (set_shape t (index_perm s NHWC_TO_NCHW) sh)).
Proof.
  intros idm H Hd D1 D2 D3 D4 Hx No Sole Un T Hs. destruct (T) as (T1 & T2 & Nt).
  assert (D : forall y, In y (defs g) -> y <> t) by (intros y Hy ->; apply T1; now apply defs_alldefs).
  assert (Nxo : x <> o) by (eapply x_neq_o; eauto).
  assert (Od : In o (defs g)) by (eapply o_defs; eauto).
  assert (Ed : d = FNode (f_name d) "Identity" (f_dom d) (f_attrs d) [x] [o] []) by (destruct d; cbn in *; congruence).
  assert (Eq : forall r r', run r r' g -> r' o = r' x).
  { intros r r' [_ R]. specialize (R d Hd). rewrite Ed in R. apply identity_holds in R; auto. }
  set (g' := insert_on_output nm "Transpose" (tperm NHWC_TO_NCHW) x t g).
  assert (Eq' : forall r r'', run r r'' g' -> r'' o = r'' t).
  { intros r r' [_ R]. specialize (R (subst_node x t d)). rewrite Ed in R at 2. cbn [subst_node map] in R. unfold sub in R. rewrite String.eqb_refl in R. 
    eapply identity_holds in R; eauto. unfold g'. rewrite insert_nodes, in_app_iff. left. now apply in_map. }
  assert (Sh : forall r r' r'', run r r'' g' -> runs_relayout [o] g r' r'' ->
             shapes_right sh r' g -> shapes_right (set_shape o (index_perm s NHWC_TO_NCHW) (set_shape t (index_perm s NHWC_TO_NCHW) sh)) r'' g').
  { intros r r' r'' R Q P y s' Hy. unfold set_shape. destruct (Q o Od) as [Qo _]. specialize (Qo (or_introl eq_refl)).
    assert (SO : shape_ok (index_perm s NHWC_TO_NCHW) (r'' o)) by (apply (shape_ok_nchw s (r' o)); auto).
    destruct (String.eqb_spec y o) as [->|Nx].
    - intro E. inversion E; subst s'. exact SO.
    - destruct (String.eqb_spec y t) as [->|Nyt].
      + intro E. inversion E; subst s'. rewrite <- (Eq' r r'' R). exact SO.
      + intro E. apply insert_defs in Hy; auto. destruct Hy as [Hy|Hy]; [|congruence]. rewrite (proj2 (Q y Hy)); [apply (P y); auto|]. cbn. intros [Q'|[]]. congruence. }
  constructor; auto.
  - intros y Hy. apply insert_defs; auto.
  - intros r r' R Im. destruct (Im o (or_introl eq_refl)) as [W L]. destruct (nchw_exists (r' o) W L) as (v & Hv).
    assert (R2 : run r (upd _ (upd _ r' t v) o v) g').
    { eapply output_forward; eauto. apply tm_forth. rewrite <- (Eq r r' R). exact Hv. }
    assert (Q : runs_relayout [o] g r' (upd _ (upd _ r' t v) o v)).
    { intros y Hy. cbn [In]. split.
      * intros [<-|[]]. now rewrite upd_same.
      * intro N. rewrite !upd_other; auto. }
    exists (upd _ (upd _ r' t v) o v). split; auto. split; auto. eapply Sh; eauto.
  - intros r r'' R.
    destruct (output_backward _ op_rel ext rk g x t nm "Transpose" (tperm NHWC_TO_NCHW) H T d o idm Hd D1 D2 D3 D4 Hx No Sole Un r r'' R) as [Op R']. apply tm_forth in Op.
    assert (Q : runs_relayout [o] g (upd _ (upd _ r'' o (r'' x)) t (r t)) r'').
    { intros y Hy. rewrite upd_other by auto. cbn [In]. split.
    + intros [<-|[]]. now rewrite upd_same.
    + intro N. rewrite upd_other; auto. }
    exists (upd _ (upd _ r'' o (r'' x)) t (r t)). split; auto. split; auto. eapply Sh; eauto.
Qed.

Lemma fold_none {B C} (f : option B -> C -> option B) l : (forall c, f None c = None) -> fold_left f l None = None.
Proof. intro E. induction l as [|c l IH]; cbn; auto. now rewrite E. Qed.
Definition chosen (named : list string) (sh : shapes) (L : list string) : list string := filter (rank4 sh) (filter (fun x => mem x named) L).
Lemma chosen_in named sh L x : In x (chosen named sh L) <-> In x L /\ In x named /\ rank4 sh x = true.
Proof. unfold chosen. rewrite !filter_In, mem_in. tauto. Qed.
Lemma chosen_cons named sh L x : chosen named sh (x :: L) = (if mem x named then if rank4 sh x then [x] else [] else []) ++ chosen named sh L.
Proof. unfold chosen. cbn [filter]. destruct (mem x named); cbn [filter]; [destruct (rank4 sh x)|]; reflexivity. Qed.
Lemma chosen_ext named sh sh' L : (forall x, In x L -> In x named -> sh' x = sh x) -> chosen named sh' L = chosen named sh L.
Proof.
  intro E. induction L as [|x L IH]; auto. rewrite !chosen_cons, IH by (intros; apply E; cbn; auto). f_equal.
  destruct (mem x named) eqn:M; auto. unfold rank4. rewrite E; cbn; auto. now apply mem_in.
Qed.
Lemma inputs_fold fresh named L : forall rk g sh g' sh', WW rk g -> NoDup (filter (fun x => mem x named) L) ->
  (forall x, In x L -> In x named -> In x (f_ins g)) -> supply g (chosen named sh L) fresh (fun x => port0 (fresh x)) ->
  fold_left (transpose_input fresh named) L (Some (g, sh)) = Some (g', sh') ->
  (exists rk', WW rk' g') /\ achieved (chosen named sh L) g sh g' sh'.
Proof.
  induction L as [|x L IH]; intros rk g sh g' sh' H ND In_ Su E.
  - cbn in E. inversion E; subst. split; [eauto|]. apply achieved_refl.
  - cbn [fold_left transpose_input] in E. rewrite chosen_cons in *. cbn [filter] in ND. destruct (mem x named) eqn:M.
    2:{ apply (IH rk); auto. intros; apply In_; cbn; auto. }
    assert (Mx := M). apply mem_in in Mx.
    assert (Hx : In x (f_ins g)) by (apply In_; cbn; auto). apply NoDup_cons_iff in ND. destruct ND as [Nx ND]. 
    unfold rank4 in *. destruct (sh x) as [s|] eqn:Es; [|rewrite fold_none in E by reflexivity; discriminate].
    change (length NCHW_TO_NHWC) with 4 in E.
    destruct (Nat.eqb (length s) 4) eqn:E4.
    2:{ apply (IH rk); auto. intros; apply In_; cbn; auto. }
    change ([x] ++ chosen named sh L) with (x :: chosen named sh L) in Su.
    destruct (proj1 Su x (or_introl eq_refl)) as [T Tn]. destruct (T) as (T1 & T2 & Nt).
    assert (Hdx : In x (defs g)).
    { apply in_defs. split; auto. intro Z. apply (g_noself _ _ (H g (within_refl _))). now rewrite <- Z. }
    set (g1 := insert_on_output (fresh x) "Transpose" (tperm NCHW_TO_NHWC) x (port0 (fresh x)) g) in *.
    set (sh1 := set_shape x (index_perm s NHWC_TO_NCHW) (set_shape (port0 (fresh x)) s sh)) in *.
    change (fold_left (transpose_input fresh named) L (Some (g1, sh1)) = Some (g', sh')) in E.
    destruct (insert_WW rk (fresh x) "Transpose" (tperm NCHW_TO_NHWC) x (port0 (fresh x)) g H Hdx T Tn) as (rk1 & H1). fold g1 in H1.
    assert (Ec : chosen named sh1 L = chosen named sh L).
    { apply chosen_ext. intros y Hy My. unfold sh1, set_shape. destruct (String.eqb_spec y x) as [->|_].
      - exfalso. apply Nx. apply filter_In. auto.
      - destruct (String.eqb_spec y (port0 (fresh x))) as [->|_]; auto. exfalso. apply T1. apply alldefs_in. left. split; auto. apply In_; cbn; auto. }
    assert (Su1 : supply g1 (chosen named sh1 L) fresh (fun x => port0 (fresh x))).
    { rewrite Ec. unfold g1. apply (supply_step rk "Transpose" (tperm NCHW_TO_NHWC) x x g _ fresh (fun x => port0 (fresh x)) H Hdx); auto.
      intro K. apply chosen_in in K. apply Nx. apply filter_In. split; [tauto|exact M]. }
    destruct (IH rk1 g1 sh1 g' sh' H1 ND) as [W Ach]; auto.
    { intros y Hy My. unfold g1. rewrite insert_ins. apply In_; cbn; auto. }
    split; auto. rewrite Ec in Ach. apply (achieved_trans [x] (chosen named sh L) g sh g1 sh1); auto.
    + apply (input_achieved rk); auto.
    + intros y [<-|[]] K. apply chosen_in in K. apply Nx. apply filter_In. split; [tauto|]. exact M.
    + intros y K. apply chosen_in in K. apply in_defs. assert (Hy : In y (f_ins g)) by (apply In_; cbn; tauto). split; auto.
      intro Z. apply (g_noself _ _ (H g (within_refl _))). now rewrite <- Z.
Qed.
Lemma inputs_total fresh named L : forall g sh, (forall x, In x L -> In x named -> sh x <> None) ->
  exists g' sh', fold_left (transpose_input fresh named) L (Some (g, sh)) = Some (g', sh').
Proof.
  induction L as [|x L IH]; intros g sh Hs; [cbn; eauto|]. cbn [fold_left transpose_input]. destruct (mem x named) eqn:M.
  2:{ apply IH. intros; apply Hs; cbn; auto. }
  destruct (sh x) as [s|] eqn:Es; [|exfalso; apply (Hs x); cbn; auto; now apply mem_in].
  destruct (Nat.eqb (length s) (length NCHW_TO_NHWC)); apply IH; intros; [|apply Hs; cbn; auto].
  unfold set_shape. destruct (String.eqb x0 x); [discriminate|]. destruct (String.eqb x0 (port0 (fresh x))); [discriminate|]. apply Hs; cbn; auto.
Qed.

(** from runs to inputs and outputs *)
Lemma nth_map_env {B} (r : string -> B) names k v : nth_error (map r names) k = Some v -> exists x, nth_error names k = Some x /\ r x = v.
Proof. rewrite nth_error_map. destruct (nth_error names k); cbn; intro E; inversion E. eauto. Qed.
Lemma relayout_map S g (r1 r2 : env) names : runs_relayout S g r1 r2 -> (forall x, In x names -> In x (defs g)) -> relayout S names (map r1 names) (map r2 names).
Proof.
  intros Q D. split; [apply map_length|split; [apply map_length|]]. intros k x a a' Ek E1 E2.
  rewrite nth_error_map, Ek in E1, E2. cbn in E1, E2. inversion E1; inversion E2; subst. apply Q. apply D. eapply nth_error_In; eauto.
Qed.
Lemma relayout_fun (S names : list string) (a b c : list (tensor A)) : relayout S names a b -> relayout S names a c -> b = c.
Proof.
  intros (L1 & L2 & Q) (_ & L3 & P). apply nth_error_ext. intro k. destruct (nth_error names k) as [x|] eqn:Ek.
  - assert (Lk : k < length names) by (apply nth_error_Some; congruence).
    destruct (nth_error a k) as [va|] eqn:Ea; [|apply nth_error_None in Ea; lia].
    destruct (nth_error b k) as [vb|] eqn:Eb; [|apply nth_error_None in Eb; lia].
    destruct (nth_error c k) as [vc|] eqn:Ec; [|apply nth_error_None in Ec; lia].
    destruct (Q k x va vb Ek Ea Eb) as [Q1 Q2]. destruct (P k x va vc Ek Ea Ec) as [P1 P2]. f_equal.
    destruct (in_dec string_dec x S); [eapply nchw_fun; eauto|rewrite Q2, P2; auto].
  - apply nth_error_None in Ek. rewrite (proj2 (nth_error_None b k)), (proj2 (nth_error_None c k)); auto; lia.
Qed.
Lemma relayout_inj (S names : list string) (a b c : list (tensor A)) : relayout S names a c -> relayout S names b c -> a = b.
Proof.
  intros (L1 & L2 & Q) (L3 & _ & P). apply nth_error_ext. intro k. destruct (nth_error names k) as [x|] eqn:Ek.
  - assert (Lk : k < length names) by (apply nth_error_Some; congruence).
    destruct (nth_error a k) as [va|] eqn:Ea; [|apply nth_error_None in Ea; lia].
    destruct (nth_error b k) as [vb|] eqn:Eb; [|apply nth_error_None in Eb; lia].
    destruct (nth_error c k) as [vc|] eqn:Ec; [|apply nth_error_None in Ec; lia].
    destruct (Q k x va vc Ek Ea Ec) as [Q1 Q2]. destruct (P k x vb vc Ek Eb Ec) as [P1 P2]. f_equal.
    destruct (in_dec string_dec x S); [eapply nchw_inj; eauto|rewrite <- Q2, <- P2; auto].
  - apply nth_error_None in Ek. rewrite (proj2 (nth_error_None a k)), (proj2 (nth_error_None b k)); auto; lia.
Qed.
Lemma body_run r g args res : body_rel op_rel r g args res <-> exists r', run r r' g /\ map r' (f_ins g) = args /\ map r' (f_outs g) = res.
Proof. rewrite body_rel_eq. split; [intros (r' & B & C & D & E)|intros (r' & (B & D) & C & E)]; exists r'; repeat (split; auto). Qed.
Lemma achieved_body rk S g sh g' sh' : WW rk g -> achieved S g sh g' sh' -> forall r args args' res res',
  relayout S (f_ins g) args args' -> relayout S (f_outs g) res res' ->
  (forall x, In x S -> In x (f_ins g) \/ In x (f_outs g)) ->
  (body_rel op_rel r g args res <-> body_rel op_rel r g' args' res').
Proof.
  intros H [I O D F B] r args args' res res' Ri Ro Sub. assert (G := H g (within_refl _)).
  assert (Di : forall x, In x (f_ins g) -> In x (defs g)).
  { intros x Hx. apply in_defs. split; auto. intro Z. apply (g_noself _ _ G). now rewrite <- Z. }
  assert (Do := g_outs _ _ G). rewrite !body_run, I, O. split.
  - intros (r' & R & <- & <-).
    assert (Im : forall x, In x S -> image (r' x)).
    { assert (Q : forall names a', relayout S names (map r' names) a' -> forall x, In x S -> In x names -> image (r' x)).
      { intros names a' (L1 & L2 & Q) x Hx Hn. destruct (In_nth_error _ _ Hn) as (k & Ek).
        destruct (nth_error a' k) as [va|] eqn:Ea; [|apply nth_error_None in Ea; assert (k < length names) by (apply nth_error_Some; congruence); lia].
        destruct (Q k x (r' x) va Ek) as [Q1 _]; auto. { now rewrite nth_error_map, Ek. }
        destruct (Q1 Hx) as (n & h & w & c & Es & _ & W & _). split; auto. now rewrite Es. }
      intros x Hx. destruct (Sub x Hx); eauto. }
    destruct (F r r' R Im) as (r'' & R'' & Q & _). exists r''. split; auto. split.
    + apply (relayout_fun S (f_ins g) (map r' (f_ins g))); auto. apply (relayout_map S g); auto.
    + apply (relayout_fun S (f_outs g) (map r' (f_outs g))); auto. apply (relayout_map S g); auto.
  - intros (r'' & R & <- & <-). destruct (B r r'' R) as (r' & R' & Q & _). exists r'. split; auto. split.
    + apply (relayout_inj S (f_ins g) _ _ (map r'' (f_ins g))); auto. apply (relayout_map S g); auto.
    + apply (relayout_inj S (f_outs g) _ _ (map r'' (f_outs g))); auto. apply (relayout_map S g); auto.
Qed.

Lemma private_step rk g d1 x1 o1 t nm at_ o2 : WW rk g -> In d1 (f_nodes g) -> f_in d1 = [x1] -> f_out d1 = [o1] -> In x1 (defs g) ->
  (forall m, In m (f_nodes g) -> In x1 (fv_node m) -> m = d1) -> unused g t -> o1 <> o2 ->
  private_output g o2 -> private_output (insert_on_output nm "Transpose" at_ x1 t g) o2.
Proof.
  intros H Hd1 I1 O1 Hx1 Sole1 (T1 & T2 & Nt) No (d2 & x2 & Hd2 & P1 & I2 & O2 & B2 & Hx2 & No2 & Nout & Sole2 & Un2).
  assert (Nx1 : x1 <> "") by (apply in_defs in Hx1; tauto).
  assert (Nx : x2 <> x1).
  { intro E. assert (K : d2 = d1). { apply Sole1; auto. rewrite fv_node_eq, I2, E. cbn. auto. } rewrite K, O1 in O2. congruence. }
  assert (Fv : forall m, In m (f_nodes g) -> forall y, In y (fv_node (subst_node x1 t m)) -> y <> t -> In y (fv_node m)).
  { intros m Hm y Hy Ny. apply (proj1 (fv_subst_img x1 t Nx1) m (WW_closed rk g m H Hm)) in Hy.
    - destruct Hy as (s & Hs & ->). unfold sub in *. destruct (String.eqb_spec s x1); [congruence|auto].
    - intros bd Hbd. apply (good_not_nested rk g m bd x1 (H g (within_refl _))); auto. }
  exists (subst_node x1 t d2), x2. rewrite f_out_subst, f_in_subst, f_bodies_subst, insert_outs, insert_nodes, I2, B2. cbn [map].
  assert (Es : sub x1 t x2 = x2) by (unfold sub; destruct (String.eqb_spec x2 x1); congruence).
  split; [apply in_app_iff; left; now apply in_map|]. split; [destruct d2; exact P1|]. split; [now rewrite Es|]. split; [exact O2|]. split; [reflexivity|].
  split; [apply insert_defs; auto|]. split; [auto|]. split; [auto|]. split.
  - intros m Hm Hx. apply in_app_iff in Hm. destruct Hm as [Hm|[<-|[]]].
    + apply in_map_iff in Hm. destruct Hm as (m0 & <- & Hm0). f_equal. apply Sole2; auto. apply Fv; auto. intro; subst. apply T1. now apply defs_alldefs.
    + cbn in Hx. destruct Hx as [Hx|[]]; congruence.
  - intros m Hm Hx. apply in_app_iff in Hm. destruct Hm as [Hm|[<-|[]]].
    + apply in_map_iff in Hm. destruct Hm as (m0 & <- & Hm0). apply (Un2 m0 Hm0). apply Fv; auto. intro; subst. apply T1. apply (in_alldefs_out g d2); auto. rewrite O2; cbn; auto.
    + cbn in Hx. destruct Hx as [Hx|[]]. apply (Un2 d1 Hd1). rewrite fv_node_eq, I1, Hx. cbn. auto.
Qed.
Lemma outputs_fold fresh named L : identity_meaning op_rel -> forall rk g sh, WW rk g -> NoDup (filter (fun x => mem x named) L) ->
  (forall o, In o (chosen named sh L) -> private_output g o) -> (forall x, In x L -> In x named -> In x (defs g)) -> supply g (chosen named sh L) fresh (fun x => port0 (fresh x)) ->
  (forall x, In x L -> In x named -> sh x <> None) ->
  exists g' sh', fold_left (transpose_output fresh named) L (Some (g, sh)) = Some (g', sh') /\ (exists rk', WW rk' g') /\ achieved (chosen named sh L) g sh g' sh'.
Proof.
  intro idm. induction L as [|o L IH]; intros rk g sh H ND Pr Df Su Kn.
  - exists g, sh. split; [reflexivity|]. split; [eauto|]. apply achieved_refl.
  - cbn [fold_left transpose_output]. rewrite chosen_cons in *. cbn [filter] in ND. destruct (mem o named) eqn:M.
    2:{ apply (IH rk); auto; intros; [apply Df|apply Kn]; cbn; auto. }
    assert (Mx := M). apply mem_in in Mx. apply NoDup_cons_iff in ND. destruct ND as [Nx ND].
    unfold rank4 in *. destruct (sh o) as [s|] eqn:Es; [|exfalso; apply (Kn o); cbn; auto].
    change (length NHWC_TO_NCHW) with 4.
    destruct (Nat.eqb (length s) 4) eqn:E4.
    2:{ apply (IH rk); auto; intros; [apply Df|apply Kn]; cbn; auto. }
    change ([o] ++ chosen named sh L) with (o :: chosen named sh L) in *.
    destruct (proj1 Su o (or_introl eq_refl)) as [T Tn]. destruct (T) as (T1 & T2 & Nt).
    destruct (Pr o (or_introl eq_refl)) as (d & x & Hd & D1 & D2 & D3 & D4 & Hx & No & Nout & Sole & Un).
    assert (Ep : producer g o = Some d).
    { apply (producer_some rk); auto; [apply H; constructor|]. rewrite D3. cbn. auto. }
    rewrite Ep, D2.
    set (g1 := insert_on_output (fresh o) "Transpose" (tperm NHWC_TO_NCHW) x (port0 (fresh o)) g) in *.
    set (sh1 := set_shape o (index_perm s NHWC_TO_NCHW) (set_shape (port0 (fresh o)) (index_perm s NHWC_TO_NCHW) sh)) in *.
    change (exists g' sh', fold_left (transpose_output fresh named) L (Some (g1, sh1)) = Some (g', sh') /\ (exists rk', WW rk' g') /\ achieved (o :: chosen named sh L) g sh g' sh').
    destruct (insert_WW rk (fresh o) "Transpose" (tperm NHWC_TO_NCHW) x (port0 (fresh o)) g H Hx T Tn) as (rk1 & H1). fold g1 in H1.
    assert (Ec : chosen named sh1 L = chosen named sh L).
    { apply chosen_ext. intros y Hy My. unfold sh1, set_shape. destruct (String.eqb_spec y o) as [->|_].
      - exfalso. apply Nx. apply filter_In. auto.
      - destruct (String.eqb_spec y (port0 (fresh o))) as [->|_]; auto. exfalso. apply T1. apply defs_alldefs. apply Df; cbn; auto. }
    assert (Su1 : supply g1 (chosen named sh1 L) fresh (fun x => port0 (fresh x))).
    { rewrite Ec. unfold g1. apply (supply_step rk "Transpose" (tperm NHWC_TO_NCHW) o x g _ fresh (fun x => port0 (fresh x)) H Hx); auto.
      intro K. apply chosen_in in K. apply Nx. apply filter_In. split; [tauto|exact M]. }
    destruct (IH rk1 g1 sh1 H1 ND) as (g' & sh' & E & W & Ach); auto.
    { rewrite Ec. intros o2 Ho2. unfold g1. apply (private_step rk g d x o); auto.
      - intro; subst o2. apply chosen_in in Ho2. apply Nx. apply filter_In. split; [tauto|]. exact M.
      - apply Pr. cbn. auto. }
    { intros y Hy My. unfold g1. apply insert_defs; auto. left. apply Df; cbn; auto. }
    { intros y Hy My. unfold sh1, set_shape. destruct (String.eqb y o); [discriminate|]. destruct (String.eqb y (port0 (fresh o))); [discriminate|]. apply Kn; cbn; auto. }
    exists g', sh'. split; auto. split; auto. rewrite Ec in Ach. apply (achieved_trans [o] (chosen named sh L) g sh g1 sh1); auto.
    + apply (output_achieved rk g sh s d x o (port0 (fresh o)) (fresh o)); auto.
    + intros y [<-|[]] K. apply chosen_in in K. apply Nx. apply filter_In. split; [tauto|]. exact M.
    + intros y K. apply chosen_in in K. apply Df; cbn; tauto.
Qed.
Lemma filter_NoDup {B} (f : B -> bool) l : NoDup l -> NoDup (filter f l).
Proof. apply NoDup_filter. Qed.
Lemma names_filter named (l : list string) : ~ In "" named -> filter (fun x => mem x named) l = filter (fun x => mem x named) (nonempty l).
Proof.
  intro N. induction l as [|x l IH]; auto. unfold nonempty in *. cbn [filter]. destruct (String.eqb_spec x ""); cbn [negb].
  - subst x. destruct (mem "" named) eqn:M; [apply mem_in in M; contradiction|auto].
  - cbn [filter]. now rewrite IH.
Qed.
Lemma achieved_ext S S' g sh g' sh' : (forall x, In x S <-> In x S') -> achieved S g sh g' sh' -> achieved S' g sh g' sh'.
Proof.
  intros E [I O D F B]. assert (K : forall r1 r2 : env, runs_relayout S g r1 r2 -> runs_relayout S' g r1 r2).
  { intros r1 r2 Q x Hx. destruct (Q x Hx) as [Q1 Q2]. split; intro; [apply Q1|apply Q2]; [|intro]; try apply E; auto. apply H, E; auto. }
  constructor; auto.
  - intros r r' R Im. destruct (F r r' R) as (r'' & R' & Q & P); [intros x Hx; apply Im, E; auto|]. exists r''. auto.
  - intros r r'' R. destruct (B r r'' R) as (r' & R' & Q & P). exists r'. auto.
Qed.
Lemma list_named_NoDup rk g named : WW rk g -> ~ In "" named -> NoDup (filter (fun x => mem x named) (f_ins g ++ concat (map f_out (f_nodes g)))).
Proof. intros H N. rewrite names_filter by auto. apply NoDup_filter. exact (defs_NoDup _ _ (H g (within_refl _))). Qed.
Theorem transpose_inputs_correct fresh named g sh : valid g -> (forall x, In x named -> In x (f_ins g)) ->
  supply g (filter (rank4 sh) named) fresh (fun x => port0 (fresh x)) ->
  (forall x, In x named -> sh x <> None) ->
  exists g' sh', transpose_inputs fresh named g sh = Some (g', sh') /\ valid g' /\ achieved (filter (rank4 sh) named) g sh g' sh'.
Proof.
  intros (rk & H) Sub Su Kn.
  assert (N0 : ~ In "" named) by (intro K; apply (g_noself _ _ (H g (within_refl _))); auto).
  assert (Same : forall x, In x (chosen named sh (f_ins g ++ concat (map f_out (f_nodes g)))) <-> In x (filter (rank4 sh) named)).
  { intro x. rewrite chosen_in, filter_In, in_app_iff. split; [tauto|]. intros [A1 A2]. auto. }
  destruct (inputs_total fresh named (f_ins g ++ concat (map f_out (f_nodes g))) g sh) as (g' & sh' & E); [intros; apply Kn; auto|].
  destruct (inputs_fold fresh named (f_ins g ++ concat (map f_out (f_nodes g))) rk g sh g' sh') as [W Ach]; auto.
  - apply (list_named_NoDup rk); auto.
  - eapply supply_incl; [|exact Su]. intros x Hx. now apply Same.
  - exists g', sh'. split; auto. split; auto. eapply achieved_ext; [exact Same|auto].
Qed.
Theorem transpose_outputs_correct fresh named g sh : identity_meaning op_rel -> valid g -> (forall o, In o named -> In o (f_outs g)) ->
  (forall o, In o named -> rank4 sh o = true -> private_output g o) ->
  supply g (filter (rank4 sh) named) fresh (fun x => port0 (fresh x)) ->
  (forall o, In o named -> sh o <> None) ->
  exists g' sh', transpose_outputs fresh named g sh = Some (g', sh') /\ valid g' /\ achieved (filter (rank4 sh) named) g sh g' sh'.
Proof.
  intros idm (rk & H) Sub Pr Su Kn. assert (G := H g (within_refl _)).
  assert (Df : forall o, In o named -> In o (defs g)) by (intros; apply (g_outs _ _ G); auto).
  assert (N0 : ~ In "" named) by (intro K; apply Df in K; apply in_defs in K; tauto).
  assert (Same : forall x, In x (chosen named sh (f_ins g ++ concat (map f_out (f_nodes g)))) <-> In x (filter (rank4 sh) named)).
  { intro x. rewrite chosen_in, filter_In. split; [tauto|]. intros [A1 A2]. split; auto. apply Df in A1. unfold defs in A1. apply in_nonempty in A1. tauto. }
  destruct (outputs_fold fresh named (f_ins g ++ concat (map f_out (f_nodes g))) idm rk g sh) as (g' & sh' & E & W & Ach); auto.
  - apply (list_named_NoDup rk); auto.
  - intros o Ho. apply Same, filter_In in Ho. apply Pr; tauto.
  - eapply supply_incl; [|exact Su]. intros x Hx. now apply Same.
  - exists g', sh'. split; auto. split; auto. eapply achieved_ext; [exact Same|auto].
Qed.
End Fold.

(** ** Graph.__init__ *)
Lemma out_ren x y m : f_out (ren_out x y m) = map (sub x y) (f_out m). Proof. destruct m; reflexivity. Qed.
Lemma ren_facts x y m : f_name (ren_out x y m) = f_name m /\ fv_node (ren_out x y m) = fv_node m /\ f_bodies (ren_out x y m) = f_bodies m /\ f_in (ren_out x y m) = f_in m.
Proof. destruct m; auto. Qed.
Lemma ren_id x y m : ~ In x (f_out m) -> ren_out x y m = m.
Proof. intro N. destruct m as [n1 n2 n3 n4 n5 n6 n7]. cbn in *. f_equal. now apply map_sub_id. Qed.
Definition wrapped (o raw nm : string) (l1 : list fnode) (n : fnode) (l2 : list fnode) (gi go : list string) : fgraph :=
  FGraph (map (subst_node o raw) ((l1 ++ l2) ++ [ren_out o raw n]) ++ [FNode nm "Identity" "" [] [raw] [o] []]) gi go.
Section Wrap.
Variables (rk : string -> nat) (l1 l2 : list fnode) (gi go : list string) (n : fnode) (o raw nm : string).
Let g := FGraph (l1 ++ n :: l2) gi go.
Let g' := wrapped o raw nm l1 n l2 gi go.
Hypothesis H : WW rk g.
Hypothesis Ho : In o (f_out n).
Hypothesis No : o <> "".
Hypothesis T : unused g raw.
Hypothesis Rraw : rk raw = rk o.
Hypothesis Tn : ~ In nm (map f_name (l1 ++ n :: l2)).
Let G := H g (within_refl _).
Lemma wn : In n (f_nodes g). Proof. unfold g. cbn. rewrite in_app_iff. cbn. auto. Qed.
Lemma wo_defs : In o (defs g). Proof. apply in_defs. split; auto. right. exists n. split; auto. apply wn. Qed.
Lemma wo_raw : o <> raw. Proof. intro E. destruct T as (T1 & _). apply T1. rewrite <- E. apply defs_alldefs, wo_defs. Qed.
Lemma wrest m : In m (l1 ++ l2) -> In m (f_nodes g). Proof. unfold g. cbn [f_nodes]. rewrite !in_app_iff. cbn. tauto. Qed.
Lemma wnodes m : In m (f_nodes g) <-> m = n \/ In m (l1 ++ l2).
Proof. unfold g. cbn [f_nodes]. rewrite !in_app_iff. cbn [In]. firstorder. Qed.
Lemma wonly m : In m (l1 ++ l2) -> ~ In o (f_out m).
Proof.
  intros Hm K. destruct (alldefs_split _ _ _ _ _ (g_ssa _ _ G)) as (_ & _ & S3). apply (S3 o).
  - apply alldefs_in_node. auto.
  - apply alldefs_in. right. exists m. split; auto. apply alldefs_in_node. auto.
Qed.
(** the new nodes are, up to order, the old ones with o renamed everywhere, and the Identity *)
Lemma wnew p : In p (f_nodes g') <-> (exists m, In m (f_nodes g) /\ p = subst_node o raw (ren_out o raw m)) \/ p = FNode nm "Identity" "" [] [raw] [o] [].
Proof.
  unfold g', wrapped. cbn [f_nodes]. rewrite in_app_iff, in_map_iff. split.
  - intros [(m & <- & Hm)|[<-|[]]]; auto. left. apply in_app_iff in Hm. destruct Hm as [Hm|[<-|[]]].
    + exists m. split; [now apply wrest|]. rewrite ren_id; auto. now apply wonly.
    + exists n. split; auto. apply wn.
  - intros [(m & Hm & ->)| ->]; [|cbn; auto]. left. apply wnodes in Hm. destruct Hm as [->|Hm].
    + eexists. split; [reflexivity|]. apply in_app_iff. cbn. auto.
    + exists m. rewrite ren_id by now apply wonly. split; auto. apply in_app_iff. auto.
Qed.
Lemma wnest m bd : In m (f_nodes g) -> In bd (f_bodies m) -> ~ In o (alldefs bd) /\ ~ In raw (alldefs bd).
Proof.
  intros Hm Hb. split.
  - apply (good_not_nested rk g m bd o G Hm Hb). left. apply wo_defs.
  - intro K. destruct T as (T1 & _). apply T1. apply alldefs_in. right. exists m. split; auto. apply alldefs_in_node. eauto.
Qed.
Lemma wdefs t : In t (defs g') <-> In t (defs g) \/ t = raw.
Proof.
  destruct (T) as (_ & _ & Nr). rewrite !in_defs. split.
  - intros [Nt [K|(p & Hp & Kt)]]; auto. apply wnew in Hp. destruct Hp as [(m & Hm & ->)| ->].
    + rewrite f_out_subst, out_ren in Kt. apply in_map_iff in Kt. destruct Kt as (u & <- & Hu). unfold sub in *. destruct (String.eqb_spec u o); auto.
      left. split; auto. right. eauto.
    + cbn in Kt. destruct Kt as [<-|[]]. left. split; auto. right. exists n. split; auto. apply wn.
  - intros [[Nt [K|(m & Hm & Kt)]]| ->].
    + auto.
    + split; auto. right. destruct (string_dec t o) as [->|Nto].
      * eexists. split; [apply wnew; right; reflexivity|]. cbn. auto.
      * eexists. split; [apply wnew; left; exists m; eauto|]. rewrite f_out_subst, out_ren. apply in_map_iff. exists t. split; auto.
        unfold sub. destruct (String.eqb_spec t o); congruence.
    + split; auto. right. eexists. split; [apply wnew; left; exists n; split; [apply wn|reflexivity]|].
      rewrite f_out_subst, out_ren. apply in_map_iff. exists o. split; auto. unfold sub. now rewrite String.eqb_refl.
Qed.
Lemma wfv m t : In m (f_nodes g) -> In t (fv_node (subst_node o raw (ren_out o raw m))) -> exists s, In s (fv_node m) /\ t = sub o raw s.
Proof.
  intros Hm Ht. destruct (ren_facts o raw m) as (_ & E2 & E3 & _). rewrite <- E2. apply (proj1 (fv_subst_img o raw No)); auto.
  - apply closed_node_eq. rewrite E3. apply closed_node_eq. exact (WW_closed rk g m H Hm).
  - rewrite E3. intros bd Hb. apply (wnest m bd Hm Hb).
Qed.
Lemma wfv_graph t : In t (fv_graph g') -> In t (fv_graph g).
Proof.
  intro Ht. apply in_fv_graph in Ht. destruct Ht as [Nd Ht]. assert (N : ~ In t (defs g) /\ t <> raw) by (split; intro; apply Nd, wdefs; auto).
  apply in_fv_graph. split; [tauto|]. destruct Ht as [Ht|[Ht|(p & Hp & Ht)]]; auto. right. right. apply wnew in Hp. destruct Hp as [(m & Hm & ->)| ->].
  - destruct (wfv m t Hm Ht) as (s & Hs & ->). exists m. split; auto. unfold sub in *. destruct (String.eqb_spec s o); tauto.
  - cbn in Ht. destruct Ht as [<-|[]]. tauto.
Qed.
Lemma walldefs : Permutation (alldefs g') (map (sub o raw) (alldefs g) ++ [o]).
Proof.
  assert (Ngi : ~ In o gi). { intro K. apply (input_not_out rk g o n H K wn Ho). }
  assert (E : alldefs (FGraph (map (ren_out o raw) (l1 ++ n :: l2)) gi go) = map (sub o raw) (alldefs g)).
  { destruct (T) as (_ & _ & Nr). apply alldefs_ren_list; auto. intros m bd Hm Hb. apply (wnest m bd Hm Hb). }
  rewrite <- E. unfold g', wrapped. cbn [alldefs]. cbn [map concat]. rewrite ?map_app. cbn [map]. rewrite ?map_app. cbn [map]. rewrite ?concat_app. cbn [concat]. rewrite !app_nil_r.
  assert (S : forall l, map alldefs_node (map (subst_node o raw) l) = map alldefs_node l).
  { intro l. rewrite map_map. apply map_ext. intro. apply (proj1 (alldefs_subst o raw)). }
  rewrite !S, (proj1 (alldefs_subst o raw)). 
  assert (R : forall l, incl l (l1 ++ l2) -> map (ren_out o raw) l = l).
  { induction l as [|m l IH]; auto. intro I. cbn [map]. rewrite ren_id by (apply wonly, I; cbn; auto). f_equal. apply IH. intros z Hz. apply I. cbn. auto. }
  rewrite (R l1), (R l2) by (intros z Hz; apply in_app_iff; auto).
  cbn [alldefs_node nonempty filter map concat app]. destruct (String.eqb_spec o ""); [congruence|]. cbn [negb app].
  rewrite <- !app_assoc. apply Permutation_app_head. apply Permutation_app_head. rewrite !app_assoc. apply Permutation_app_tail. apply Permutation_app_comm.
Qed.
Let RK := fun s => if String.eqb s "" then 0 else if String.eqb s o then 2 * rk o + 1 else if String.eqb s raw then 2 * rk o else 2 * rk s.
Lemma wlow s u : s <> raw -> u <> "" -> u <> raw -> rk s < rk u -> RK (sub o raw s) < RK (sub o raw u) /\ RK (sub o raw s) < RK u.
Proof.
  intros Ns Nu Nu' L. destruct (T) as (_ & _ & Nr). assert (Nor := wo_raw). unfold sub, RK.
  destruct (String.eqb_spec s o), (String.eqb_spec u o); subst;
    repeat match goal with |- context [String.eqb ?a ?b] => destruct (String.eqb_spec a b); try congruence end; lia.
Qed.
Lemma wrap_WW : WW RK g'.
Proof.
  destruct (T) as (T1 & T2 & Nr). assert (Nor := wo_raw).
  assert (Use : forall m s, In m (f_nodes g) -> In s (fv_node m) -> s <> raw).
  { intros m s Hm Hs ->. destruct (used_defs_or_free g m raw Hm Hs) as [Q|Q]; [apply T1; now apply defs_alldefs|contradiction]. }
  apply WW_top.
  - constructor.
    + intros t Ht. apply wdefs. left. apply (g_outs _ _ G). exact Ht.
    + apply (Permutation_NoDup (Permutation_sym walldefs)). apply NoDup_app_intro; [apply NoDup_map_sub; auto; apply (g_ssa _ _ G)|repeat constructor; cbn; tauto|]. intros t Ht [<-|[]]. apply in_map_iff in Ht. destruct Ht as (u & E & Hu). unfold sub in E.
      destruct (String.eqb_spec u o); congruence.
    + intros t Ht K. apply wfv_graph in Ht. apply (Permutation_in _ walldefs) in K. apply in_app_iff in K. destruct K as [K|[<-|[]]].
      * apply in_map_iff in K. destruct K as (u & E & Hu). unfold sub in E. destruct (String.eqb_spec u o); [subst; contradiction|].
        subst u. exact (g_scope _ _ G t Ht Hu).
      * exact (g_scope _ _ G o Ht (defs_alldefs _ _ wo_defs)).
    + unfold g', wrapped. cbn [f_nodes]. rewrite map_app, names_subst, map_app. cbn [map]. destruct (ren_facts o raw n) as (-> & _).
      assert (P : Permutation ((map f_name (l1 ++ l2) ++ [f_name n]) ++ [nm]) (nm :: map f_name (l1 ++ n :: l2))).
      { etransitivity; [apply Permutation_app_comm|]. cbn [app f_name]. constructor. rewrite !map_app. cbn [map]. rewrite <- app_assoc. apply Permutation_app_head.
        apply Permutation_sym. apply Permutation_cons_append. }
      apply (Permutation_NoDup (Permutation_sym P)). constructor; auto. apply (g_names _ _ G).
    + intros p t u Hp Ht Hu Nu. apply wnew in Hp. destruct Hp as [(m & Hm & ->)| ->].
      * destruct (wfv m t Hm Ht) as (s & Hs & ->). rewrite f_out_subst, out_ren in Hu. apply in_map_iff in Hu. destruct Hu as (v & <- & Hv).
        assert (Nv : v <> "") by (intros ->; apply Nu; unfold sub; destruct (String.eqb_spec "" o); congruence).
        apply (wlow s v); auto.
        -- eapply Use; eauto.
        -- intros ->. apply T1. eapply in_alldefs_out; eauto.
        -- apply (g_acyclic _ _ G m); auto.
      * cbn in Ht, Hu. destruct Ht as [<-|[]]. destruct Hu as [<-|[]]. unfold RK. rewrite !String.eqb_refl.
        destruct (String.eqb_spec raw ""); [congruence|]. destruct (String.eqb_spec o ""); [congruence|]. destruct (String.eqb_spec raw o); [congruence|]. lia.
    + exact (g_noself _ _ G).
  - intros p bd Hp Hb. apply wnew in Hp. destruct Hp as [(m & Hm & ->)| ->]; [|cbn in Hb; contradiction].
    rewrite f_bodies_subst, (proj1 (proj2 (proj2 (ren_facts o raw m)))) in Hb. apply in_map_iff in Hb. destruct Hb as (b0 & <- & Hb0).
    intros h Hh. apply within_subst in Hh. destruct Hh as (k & Hk & ->). destruct (wnest m b0 Hm Hb0) as [Ka Kb].
    assert (Sub : forall y, In y (alldefs k) -> In y (alldefs b0)) by (intros y Hy; eapply within_alldefs; eauto).
    apply (good_subst o raw rk RK); auto.
    + intros k' Hk'. apply (WW_body rk g m b0 H Hm Hb0). exact (within_trans _ _ _ Hk Hk').
    + intros s u Hu L. apply Sub in Hu.
      assert (Nu : u <> "") by (intros ->; exact (proj2 alldefs_named b0 Hu)).
      assert (Nu' : u <> raw) by (intros ->; contradiction).
      assert (Nu2 : u <> o) by (intros ->; contradiction).
      destruct (string_dec s raw) as [->|Ns]; [|apply (wlow s u); auto].
      unfold sub, RK. repeat match goal with |- context [String.eqb ?a ?b] => destruct (String.eqb_spec a b); try congruence end; lia.
Qed.

Section WrapMeaning.
Variable V : Type.
Variable op_rel : string -> string -> list (string * attr) -> nat -> list V -> list (list V -> list V -> Prop) -> list V -> Prop.
Hypothesis ext : op_ext op_rel.
Hypothesis idm : identity_meaning op_rel.
Lemma wid (r : env V) : holds op_rel r (FNode nm "Identity" "" [] [raw] [o] []) <-> r o = r raw.
Proof.
  rewrite holds_eq. cbn [f_op f_dom f_attrs f_out f_in f_bodies map length]. split.
  - intros (vs & A & B). apply idm in A. subst vs. specialize (B 0 o eq_refl No). cbn in B. congruence.
  - intro E. exists [r raw]. split; [now apply idm|]. intros k y Ek Ny. destruct k as [|[|k]]; cbn in Ek; try discriminate. inversion Ek; subst. cbn. congruence.
Qed.
Lemma wone (r : env V) m : In m (f_nodes g) -> r o = r raw -> (holds op_rel r (subst_node o raw (ren_out o raw m)) <-> holds op_rel r m).
Proof.
  intros Hm E. destruct (T) as (_ & _ & Nr). rewrite (holds_subst V op_rel ext); auto.
  - now apply holds_ren.
  - destruct (ren_facts o raw m) as (_ & _ & -> & _). intros bd Hb. apply (wnest m bd Hm Hb).
Qed.
Lemma wagree (r1 r2 : env V) m : In m (f_nodes g) -> (forall t, t <> raw -> r1 t = r2 t) -> holds op_rel r1 m -> holds op_rel r2 m.
Proof.
  intros Hm E. destruct (T) as (T1 & T2 & Nr). apply (holds_agree V op_rel ext).
  - intros t Ht. apply E. intros ->. destruct (used_defs_or_free g m raw Hm Ht) as [Q|Q]; [apply T1; now apply defs_alldefs|contradiction].
  - intros t Ht Nt. apply E. intros ->. apply T1. eapply in_alldefs_out; eauto.
Qed.
Lemma wrap_fwd (r r' : env V) : run op_rel r r' g -> run op_rel r (upd V r' raw (r' o)) g'.
Proof.
  intros [R1 R2]. destruct (T) as (T1 & T2 & Nr). assert (Nor := wo_raw). split.
  - intros t Ht. rewrite upd_other; [apply R1|]; intro; apply Ht, wdefs; auto.
  - intros p Hp. apply wnew in Hp. destruct Hp as [(m & Hm & ->)| ->].
    + apply wone; auto; [rewrite upd_same, upd_other; auto|]. apply (wagree r'); auto. intros t Nt. rewrite upd_other; auto.
    + apply wid. rewrite upd_same, upd_other; auto.
Qed.
Lemma wrap_bwd (r r'' : env V) : run op_rel r r'' g' -> run op_rel r (upd V r'' raw (r raw)) g.
Proof.
  intros [R1 R2]. destruct (T) as (T1 & T2 & Nr). assert (Nor := wo_raw).
  assert (E : r'' o = r'' raw). { apply wid. apply R2. apply wnew. auto. }
  split.
  - intros t Ht. destruct (string_dec t raw) as [->|Nt]; [apply upd_same|]. rewrite upd_other; auto. apply R1. intro K. apply wdefs in K. tauto.
  - intros m Hm. apply (wagree r''); auto.
    + intros t Nt. rewrite upd_other; auto.
    + apply wone; auto. apply R2. apply wnew. left. eauto.
Qed.
End WrapMeaning.
Lemma wprivate : Forall (fun m => ~ In o (fv_node m)) (f_nodes g') /\ producer g' o = Some (FNode nm "Identity" "" [] [raw] [o] []).
Proof.
  destruct (T) as (T1 & T2 & Nr). assert (Nor := wo_raw). split.
  - apply Forall_forall. intros p Hp K. apply wnew in Hp. destruct Hp as [(m & Hm & ->)| ->].
    + destruct (wfv m o Hm K) as (s & Hs & E). unfold sub in E. destruct (String.eqb_spec s o); congruence.
    + cbn in K. destruct K; congruence || tauto.
  - apply (producer_some RK); [apply wrap_WW; constructor| |auto|cbn; auto]. apply wnew. auto.
Qed.
End Wrap.

(** output o comes from an Identity and is not read inside; [P] says whether the Identity is the only reader of its input *)
Definition from_identity (P : Prop) (g : fgraph) (o : string) : Prop :=
  exists d x, In d (f_nodes g) /\ f_op d = "Identity" /\ f_in d = [x] /\ f_out d = [o] /\ f_bodies d = [] /\ In x (defs g) /\ o <> "" /\
    ~ In x (f_outs g) /\ (P -> forall m, In m (f_nodes g) -> In x (fv_node m) -> m = d) /\ (forall m, In m (f_nodes g) -> ~ In o (fv_node m)).
Lemma from_identity_step P rk l1 n l2 gi go o raw nm o1 : let g := FGraph (l1 ++ n :: l2) gi go in
  WW rk g -> In o (f_out n) -> o <> "" -> unused g raw -> In o go -> o1 <> o ->
  from_identity P g o1 -> from_identity P (wrapped o raw nm l1 n l2 gi go) o1.
Proof.
  intros g H Ho No T Hgo N1 (d & x & Hd & D1 & D2 & D3 & D4 & Hx & No1 & Nx & Sole & Un).
  assert (T' := T). destruct T' as (T1 & T2 & Nr).
  assert (Nxo : x <> o) by (intros ->; contradiction).
  set (g' := wrapped o raw nm l1 n l2 gi go).
  assert (New := wnew rk l1 l2 gi go n o raw nm H Ho No T). fold g g' in New.
  assert (Back : forall m y, In m (f_nodes g) -> In y (fv_node (subst_node o raw (ren_out o raw m))) -> In y (defs g) -> In y (fv_node m)).
  { intros m y Hm Hy Hd'. destruct (wfv rk l1 l2 gi go n o raw H Ho No T m y Hm Hy) as (s & Hs & ->). unfold sub in *.
    destruct (String.eqb_spec s o); auto. exfalso. apply T1. now apply defs_alldefs. }
  assert (Ho1 : In o1 (defs g)) by (apply in_defs; split; auto; right; exists d; rewrite D3; cbn; auto).
  exists (subst_node o raw (ren_out o raw d)), x.
  destruct (ren_facts o raw d) as (R1 & R2 & R3 & R4).
  split; [apply (proj2 (New _)); left; eauto|]. split; [destruct d; exact D1|]. split.
  { rewrite f_in_subst, R4, D2. cbn. unfold sub. destruct (String.eqb_spec x o); congruence. }
  split.
  { rewrite f_out_subst, out_ren, D3. cbn. unfold sub. destruct (String.eqb_spec o1 o); congruence. }
  split; [rewrite f_bodies_subst, R3, D4; reflexivity|].
  split; [apply (wdefs rk l1 l2 gi go n o raw nm H Ho No T); auto|]. split; [auto|]. split; [exact Nx|]. split.
  - intros HP m Hm Hxm. apply New in Hm. destruct Hm as [(m0 & Hm0 & ->)| ->].
    + f_equal. f_equal. apply Sole; auto.
    + cbn in Hxm. destruct Hxm as [E|[]]. exfalso. apply T1. rewrite E. now apply defs_alldefs.
  - intros m Hm Hxm. apply New in Hm. destruct Hm as [(m0 & Hm0 & ->)| ->].
    + apply (Un m0 Hm0). auto.
    + cbn in Hxm. destruct Hxm as [E|[]]. apply T1. rewrite E. now apply defs_alldefs.
Qed.
Lemma from_identity_new (P : Prop) rk l1 n l2 gi go o raw nm : let g := FGraph (l1 ++ n :: l2) gi go in
  WW rk g -> In o (f_out n) -> o <> "" -> unused g raw -> (P -> forall m, In m (f_nodes g) -> ~ In o (fv_node m)) ->
  from_identity P (wrapped o raw nm l1 n l2 gi go) o.
Proof.
  intros g H Ho No T Unr. assert (T' := T). destruct T' as (T1 & T2 & Nr). set (g' := wrapped o raw nm l1 n l2 gi go).
  assert (New := wnew rk l1 l2 gi go n o raw nm H Ho No T). fold g g' in New.
  assert (Nor := wo_raw l1 l2 gi go n o raw Ho No T).
  exists (FNode nm "Identity" "" [] [raw] [o] []), raw. split; [apply (proj2 (New _)); auto|]. do 4 (split; [reflexivity|]).
  split; [apply (wdefs rk l1 l2 gi go n o raw nm H Ho No T); auto|]. split; [auto|]. split.
  { intro K. apply T1. apply defs_alldefs. apply (g_outs _ _ (H g (within_refl _))). exact K. }
  split.
  - intros HP m Hm Hr. apply New in Hm. destruct Hm as [(m0 & Hm0 & ->)| ->]; auto. exfalso.
    destruct (wfv rk l1 l2 gi go n o raw H Ho No T m0 raw Hm0 Hr) as (s & Hs & E). unfold sub in E. destruct (String.eqb_spec s o).
    + subst s. exact (Unr HP m0 Hm0 Hs).
    + subst s. destruct (used_defs_or_free g m0 raw Hm0 Hs) as [Q|Q]; [apply T1; now apply defs_alldefs|contradiction].
  - intros m Hm Hr. apply New in Hm. destruct Hm as [(m0 & Hm0 & ->)| ->].
    + destruct (wfv rk l1 l2 gi go n o raw H Ho No T m0 o Hm0 Hr) as (s & Hs & E). unfold sub in E. destruct (String.eqb_spec s o); congruence.
    + cbn in Hr. destruct Hr; congruence || tauto.
Qed.
Lemma set_rank rk g raw o : WW rk g -> unused g raw -> In o (defs g) -> exists rk', WW rk' g /\ rk' raw = rk' o.
Proof.
  intros H (T1 & T2 & Nr) Ho. exists (fun t => if String.eqb t raw then rk o else rk t). split.
  - apply (rerank_WW rk); auto. intros t Ht. destruct (String.eqb_spec t raw); auto. subst. tauto.
  - rewrite String.eqb_refl. destruct (String.eqb_spec o raw); auto.
Qed.
Section WrapFold.
Variables (raw nm : string -> string).
Lemma wrap_fold L : forall rk g, WW rk g -> NoDup L -> incl L (f_outs g) -> supply g L nm raw ->
  exists g', fold_left (wrap_output raw nm) L (Some g) = Some g' /\ (exists rk', WW rk' g') /\ f_ins g' = f_ins g /\ f_outs g' = f_outs g /\
    (forall y, In y (defs g) -> In y (defs g')) /\
    (forall V op_rel, op_ext op_rel -> identity_meaning op_rel -> @same_values V op_rel g g') /\
    (forall o, In o L -> ~ In o (f_ins g) -> from_identity (forall m, In m (f_nodes g) -> ~ In o (fv_node m)) g' o) /\
    (forall P o, ~ In o L -> from_identity P g o -> from_identity P g' o).
Proof.
  induction L as [|o L IH]; intros rk g H ND I Su.
  - exists g. split; [reflexivity|]. split; [eauto|]. do 2 (split; [reflexivity|]). split; [auto|]. split; [|split; [intros o []|auto]].
    intros V op_rel _ _. split; intros r r' R; exists r'; auto.
  - apply NoDup_cons_iff in ND. destruct ND as [No ND]. cbn [fold_left wrap_output]. assert (G := H g (within_refl _)).
    destruct (mem o (f_ins g)) eqn:M.
    { apply mem_in in M. destruct (IH rk g H ND) as (g' & E & W & A1 & A2 & A3 & A4 & A5 & A6).
      - intros z Hz. apply I. cbn. auto.
      - eapply supply_incl; [|exact Su]. intros z Hz. cbn. auto.
      - exists g'. split; [exact E|]. split; [exact W|]. do 2 (split; [assumption|]). split; [assumption|]. split; [assumption|]. split.
        + intros o' [<-|Ho'] Ni; [contradiction|auto].
        + intros P o' Ni F. apply A6; auto. cbn in Ni. tauto. }
    apply mem_false in M.
    assert (Ho : In o (defs g)) by (apply (g_outs _ _ G), I; cbn; auto).
    assert (Hn : exists n, In n (f_nodes g) /\ In o (f_out n)) by (apply in_defs in Ho; destruct Ho as [_ [K|K]]; [contradiction|exact K]).
    assert (Neo : o <> "") by (apply in_defs in Ho; tauto).
    destruct Hn as (n & Hn & Hon). rewrite (producer_some rk g n o G Hn Neo Hon).
    destruct (proj1 Su o (or_introl eq_refl)) as [T Tn].
    destruct (set_rank rk g (raw o) o H T Ho) as (rk2 & H2 & R2).
    apply in_split in Hn. destruct Hn as (l1 & l2 & El). destruct g as [ns gi go]. cbn [f_nodes f_ins f_outs] in *. subst ns.
    rewrite without_split by (auto; apply (g_names _ _ G)).
    set (g := FGraph (l1 ++ n :: l2) gi go) in *. set (g1 := wrapped o (raw o) (nm o) l1 n l2 gi go).
    assert (W1 := wrap_WW rk2 l1 l2 gi go n o (raw o) (nm o) H2 Hon Neo T R2 Tn).
    set (rk3 := fun s => if String.eqb s "" then 0 else if String.eqb s o then 2 * rk2 o + 1 else if String.eqb s (raw o) then 2 * rk2 o else 2 * rk2 s) in W1.
    change (WW rk3 g1) in W1.
    assert (Df : forall t, In t (defs g1) <-> In t (defs g) \/ t = raw o) by (apply (wdefs rk2); auto).
    destruct (T) as (T1 & T2 & Nr).
    assert (Ls : forall z, In z L -> In z (defs g) /\ z <> o).
    { intros z Hz. split; [apply (g_outs _ _ G), I; cbn; auto|congruence]. }
    destruct (IH rk3 g1 W1 ND) as (g' & E & W & A1 & A2 & A3 & A4 & A5 & A6).
    { intros z Hz. apply I. cbn. auto. }
    { destruct Su as [Su1 Su2]. split.
      - intros z Hz. destruct (Su1 z (or_intror Hz)) as [(U1 & U2 & U3) U4]. destruct (Ls z Hz) as [_ Nz].
        destruct (Su2 z o) as [Q1 Q2]; cbn [In]; auto. split; [split; [|split]|]; auto.
        + intro K. apply (Permutation_in _ (walldefs rk2 l1 l2 gi go n o (raw o) (nm o) H2 Hon Neo T)) in K. apply in_app_iff in K. destruct K as [K|[K|[]]].
          * apply in_map_iff in K. destruct K as (u & Eu & Hu). unfold sub in Eu. destruct (String.eqb_spec u o); [congruence|]. subst u. contradiction.
          * apply U1. rewrite <- K. now apply defs_alldefs.
        + intro K. apply (wfv_graph rk2 l1 l2 gi go n o (raw o) (nm o) H2 Hon Neo T) in K. contradiction.
        + unfold g1, wrapped. cbn [f_nodes]. rewrite map_app, names_subst, map_app. cbn [map f_name]. rewrite (proj1 (ren_facts o (raw o) n)).
          unfold g in U4. cbn [f_nodes] in U4. rewrite ?map_app in *. cbn [map] in *. rewrite !in_app_iff in *. cbn [In] in *. intuition congruence.
      - intros; apply Su2; cbn; auto. }
    exists g'. split; [exact E|]. split; [exact W|]. split; [exact A1|]. split; [exact A2|]. split; [intros y Hy; apply A3, Df; auto|]. split; [|split].
    + intros V op_rel ext idm. destruct (A4 V op_rel ext idm) as [F B]. split.
      * intros r r' R. assert (R1 : run op_rel r (upd V r' (raw o) (r' o)) g1) by (apply (wrap_fwd rk2); auto).
        destruct (F r _ R1) as (r'' & Rr & Q). exists r''. split; auto. intros x Hx. rewrite Q by (apply Df; auto). apply upd_other.
        intros ->. apply T1. now apply defs_alldefs.
      * intros r r'' R. destruct (B r r'' R) as (r1 & R1 & Q). exists (upd V r1 (raw o) (r (raw o))). split.
        -- eapply (wrap_bwd rk2); eauto.
        -- intros x Hx. rewrite Q by (apply Df; auto). symmetry. apply upd_other. intros ->. apply T1. now apply defs_alldefs.
    + intros o' [<-|Ho'] Ni.
      * apply A6; auto. apply (from_identity_new _ rk2); auto.
      * assert (K := A5 o' Ho' Ni). destruct K as (d & x & K). exists d, x. destruct K as (K1 & K2 & K3 & K4 & K5 & K6 & K7 & K8 & K9 & K10).
        repeat (split; [assumption|]). split; [|assumption]. intros U. apply K9. intros m Hm Hr.
        apply (wnew rk2 l1 l2 gi go n o (raw o) (nm o) H2 Hon Neo T) in Hm. destruct (Ls o' Ho') as [Do' No']. destruct Hm as [(m0 & Hm0 & ->)| ->].
        -- destruct (wfv rk2 l1 l2 gi go n o (raw o) H2 Hon Neo T m0 o' Hm0 Hr) as (s & Hs & Es). unfold sub in Es. destruct (String.eqb_spec s o).
           ++ apply T1. rewrite <- Es. now apply defs_alldefs.
           ++ subst s. exact (U m0 Hm0 Hs).
        -- cbn in Hr. destruct Hr as [Es|[]]. apply T1. rewrite Es. now apply defs_alldefs.
    + intros P o' Ni F. cbn [In] in Ni. apply A6; [tauto|]. apply (from_identity_step P rk2); auto; apply I; cbn; auto.
Qed.
End WrapFold.

(** ** cutting at the inputs *)
Lemma NoDup_map_on {A B} (f : A -> B) l : NoDup l -> (forall x y, In x l -> In y l -> f x = f y -> x = y) -> NoDup (map f l).
Proof.
  induction 1 as [|x l Nx ND IH]; intro E; cbn; constructor.
  - rewrite in_map_iff. intros (y & Ey & Hy). apply Nx. rewrite <- (E y x); cbn; auto.
  - apply IH. intros; apply E; cbn; auto.
Qed.
Section Cut.
Variables (alloc : string -> string) (names : list string) (rk : string -> nat) (g : fgraph).
Hypothesis H : WW rk g.
Hypothesis ND : NoDup names.
Hypothesis Nd : forall x, In x names -> In x (defs g).
Hypothesis Al : forall x, In x names -> unused g (alloc x).
Hypothesis Inj : forall x y, In x names -> In y names -> x <> y -> alloc x <> alloc y.
Let G := H g (within_refl _).
Let sg (o : string) := if mem o names then alloc o else o.
Let rest := filter (fun x => negb (mem x names)) (f_ins g).
Let g' := FGraph (map (cut_node alloc names) (f_nodes g)) (names ++ rest) (f_outs g).
Lemma cut_out n : f_out (cut_node alloc names n) = map sg (f_out n). Proof. destruct n; reflexivity. Qed.
Lemma cut_facts n : f_name (cut_node alloc names n) = f_name n /\ fv_node (cut_node alloc names n) = fv_node n /\ f_bodies (cut_node alloc names n) = f_bodies n /\ f_in (cut_node alloc names n) = f_in n.
Proof. destruct n; auto. Qed.
Lemma n0 : ~ In "" names. Proof. intro K. apply Nd in K. apply in_defs in K. tauto. Qed.
Lemma sg_eq o : (In o names /\ sg o = alloc o) \/ (~ In o names /\ sg o = o).
Proof. unfold sg. destruct (mem o names) eqn:M; [left|right]; split; auto; [now apply mem_in|now apply mem_false]. Qed.
Lemma sg_empty o : sg o = "" <-> o = "".
Proof.
  destruct (sg_eq o) as [[A E]|[A E]]; rewrite E; [|tauto]. destruct (Al o A) as (_ & _ & N). split; [intro K; contradiction|]. intros ->. exfalso. exact (n0 A).
Qed.
Lemma sg_old o : In (sg o) (alldefs g) -> sg o = o /\ ~ In o names.
Proof. destruct (sg_eq o) as [[A E]|[A E]]; rewrite E; auto. intro K. destruct (Al o A). contradiction. Qed.
Lemma sg_inj x y : In x (alldefs g) -> In y (alldefs g) -> sg x = sg y -> x = y.
Proof.
  intros Hx Hy E. destruct (sg_eq x) as [[A E1]|[A E1]], (sg_eq y) as [[B E2]|[B E2]]; rewrite E1, E2 in E; auto.
  - destruct (string_dec x y); auto. exfalso. apply (Inj x y); auto.
  - exfalso. destruct (Al x A) as [N _]. rewrite E in N. contradiction.
  - exfalso. destruct (Al y B) as [N _]. rewrite <- E in N. contradiction.
Qed.
Lemma cut_nest n bd x : In n (f_nodes g) -> In bd (f_bodies n) -> In x names -> ~ In x (alldefs bd).
Proof. intros Hn Hb Hx. apply (good_not_nested rk g n bd x G Hn Hb). left. auto. Qed.
Lemma nonempty_sg l : nonempty (map sg l) = map sg (nonempty l).
Proof.
  induction l as [|o l IH]; auto. cbn [map nonempty filter]. fold (nonempty (map sg l)). fold (nonempty l). rewrite IH.
  destruct (String.eqb_spec o "") as [->|N].
  - rewrite (proj2 (sg_empty "")) by auto. reflexivity.
  - destruct (String.eqb_spec (sg o) "") as [E|E]; [apply (proj1 (sg_empty _)) in E; contradiction|]. reflexivity.
Qed.
Lemma cut_alldefs n : In n (f_nodes g) -> alldefs_node (cut_node alloc names n) = map sg (alldefs_node n).
Proof.
  intro Hn. assert (K : forall b, In b (f_bodies n) -> map sg (alldefs b) = alldefs b).
  { intros b Hb. rewrite <- (map_id (alldefs b)) at 2. apply map_ext_in. intros x Hx. destruct (sg_eq x) as [[A E]|[A E]]; auto.
    exfalso. exact (cut_nest n b x Hn Hb A Hx). }
  destruct n as [n1 n2 n3 n4 n5 n6 n7]. cbn [cut_node alldefs_node f_bodies] in *. rewrite map_app. f_equal.
  - apply nonempty_sg.
  - rewrite concat_map, map_map. f_equal. apply map_ext_in. intros b Hb. symmetry. apply K. exact Hb.
Qed.
Lemma cut_defs t : In t (defs g') <-> In t (defs g) \/ exists x, In x names /\ ~ In x (f_ins g) /\ t = alloc x.
Proof.
  rewrite !in_defs. unfold g' at 1 2. cbn [f_ins f_nodes]. rewrite in_app_iff. split.
  - intros [Nt [[K|K]|(p & Hp & Kt)]].
    + left. apply Nd in K. apply in_defs in K. exact K.
    + unfold rest in K. apply filter_In in K. tauto.
    + apply in_map_iff in Hp. destruct Hp as (m & <- & Hm). rewrite cut_out in Kt. apply in_map_iff in Kt. destruct Kt as (o & <- & Ho).
      destruct (sg_eq o) as [[A E]|[A E]]; rewrite E in *.
      * right. exists o. split; auto. split; auto. intro K. exact (input_not_out rk g o m H K Hm Ho).
      * left. split; auto. right. eauto.
  - intros [[Nt [K|(m & Hm & Kt)]]|(x & Hx & Ni & ->)].
    + split; auto. left. unfold rest. rewrite filter_In, negb_true_iff. destruct (in_dec string_dec t names); auto. right. split; auto. now apply mem_false.
    + split; auto. destruct (sg_eq t) as [[A E]|[A E]]; auto. right. exists (cut_node alloc names m). split; [now apply in_map|].
      rewrite cut_out. apply in_map_iff. exists t. auto.
    + split; [apply (Al x Hx)|]. right. assert (K := Nd x Hx). apply in_defs in K. destruct K as [_ [K|(m & Hm & Ho)]]; [contradiction|].
      exists (cut_node alloc names m). split; [now apply in_map|]. rewrite cut_out. apply in_map_iff. exists x. split; auto.
      destruct (sg_eq x) as [[A E]|[A E]]; auto. contradiction.
Qed.
Lemma cut_in_alldefs t : In t (alldefs g') -> In t (alldefs g) \/ exists x, In x names /\ t = alloc x.
Proof.
  intro K. apply alldefs_in in K. unfold g' in K. cbn [f_ins f_nodes] in K. rewrite in_app_iff in K. destruct K as [[[K|K] Nt]|(p & Hp & K)].
  - left. apply defs_alldefs; auto.
  - left. unfold rest in K. apply filter_In in K. apply alldefs_in. left. tauto.
  - apply in_map_iff in Hp. destruct Hp as (m & <- & Hm). rewrite cut_alldefs in K by auto. apply in_map_iff in K. destruct K as (u & <- & Hu).
    destruct (sg_eq u) as [[A E]|[A E]]; rewrite E; eauto. left. apply alldefs_in. right. eauto.
Qed.
Lemma cut_fv t : In t (fv_graph g') -> In t (fv_graph g).
Proof.
  intro Ht. apply in_fv_graph in Ht. destruct Ht as [N Ht]. apply in_fv_graph. split; [intro K; apply N, cut_defs; auto|].
  unfold g' in Ht. cbn [f_ins f_nodes f_outs] in Ht. destruct Ht as [Ht|[Ht|(p & Hp & Ht)]]; auto.
  - left. apply in_app_iff in Ht. destruct Ht as [Ht|Ht]; [exfalso; apply N, cut_defs; auto|]. unfold rest in Ht. apply filter_In in Ht. tauto.
  - right. right. apply in_map_iff in Hp. destruct Hp as (m & <- & Hm). exists m. rewrite (proj1 (proj2 (cut_facts m))) in Ht. auto.
Qed.
Let RK (t : string) : nat := match find (fun x => String.eqb t (alloc x)) names with Some x => rk x | None => rk t end.
Lemma RK_old t : In t (alldefs g) \/ In t (fv_graph g) -> RK t = rk t.
Proof.
  intro Ht. unfold RK. destruct (find _ names) as [x|] eqn:F; auto. apply find_some in F. destruct F as [Hx E]. apply String.eqb_eq in E. subst t.
  destruct (Al x Hx) as (A & B & _). tauto.
Qed.
Lemma RK_sg o : In o (alldefs g) -> RK (sg o) = rk o.
Proof.
  intro Ho. destruct (sg_eq o) as [[A E]|[A E]]; rewrite E; [|apply RK_old; auto]. unfold RK. destruct (find _ names) as [x|] eqn:F.
  - apply find_some in F. destruct F as [Hx E']. apply String.eqb_eq in E'. destruct (string_dec x o) as [->|N]; auto. exfalso. apply (Inj o x); auto.
  - exfalso. assert (K := find_none _ _ F o A). cbn in K. now rewrite String.eqb_refl in K.
Qed.
Lemma cut_WW : WW RK g'.
Proof.
  apply WW_top.
  - constructor.
    + intros o Ho. apply cut_defs. left. apply (g_outs _ _ G). exact Ho.
    + assert (Eall : forall q, alldefs q = nonempty (f_ins q) ++ concat (map alldefs_node (f_nodes q))) by (intros [? ? ?]; reflexivity).
      rewrite Eall. unfold g'. cbn [f_ins f_nodes]. rewrite map_map. set (ns := f_nodes g). set (gi := f_ins g).
      assert (S := g_ssa _ _ G). rewrite Eall in S. fold ns gi in S. apply NoDup_app_inv in S. destruct S as (S1 & S2 & S3).
      assert (E : concat (map (fun x => alldefs_node (cut_node alloc names x)) ns) = map sg (concat (map alldefs_node ns))).
      { rewrite concat_map, map_map. f_equal. apply map_ext_in. intros m Hm. apply cut_alldefs. exact Hm. }
      assert (Sub : forall x, In x (concat (map alldefs_node ns)) -> In x (alldefs g)).
      { intros x Hx. rewrite Eall. apply in_app_iff. auto. }
      assert (Rest : forall x, In x rest <-> In x gi /\ ~ In x names).
      { intro x. unfold rest, gi. rewrite filter_In, negb_true_iff, mem_false. tauto. }
      assert (Gi0 : ~ In "" gi) by exact (g_noself _ _ G).
      assert (NDgi : NoDup gi).
      { replace gi with (nonempty gi); auto. unfold nonempty. clear - Gi0. revert Gi0. generalize gi. intros l Gi0. induction l as [|x l IH]; auto. cbn [filter]. cbn in Gi0. destruct (String.eqb_spec x ""); [tauto|].
        cbn [negb]. f_equal. tauto. }
      rewrite E. apply NoDup_app_intro.
      * apply NoDup_filter. apply NoDup_app_intro; auto; [apply NoDup_filter; auto|]. intros x Hx K. apply Rest in K. tauto.
      * apply NoDup_map_on; auto. intros x y Hx Hy. apply sg_inj; apply Sub; auto.
      * intros x Hx K. apply in_nonempty in Hx. destruct Hx as [Hx Nx0]. apply in_map_iff in K. destruct K as (u & <- & Hu).
        assert (Hs : In (sg u) (alldefs g)).
        { apply in_app_iff in Hx. destruct Hx as [Hx|Hx]; [apply defs_alldefs, Nd; auto|]. apply Rest in Hx. apply alldefs_in. left. tauto. }
        apply sg_old in Hs. destruct Hs as [Es Nu]. rewrite Es in *. apply in_app_iff in Hx. destruct Hx as [Hx|Hx]; [contradiction|].
        apply Rest in Hx. apply (S3 u); [apply in_nonempty; tauto|auto].
    + intros t Ht K. apply cut_fv in Ht. apply cut_in_alldefs in K. destruct K as [K|(x & Hx & ->)].
      * exact (g_scope _ _ G t Ht K).
      * destruct (Al x Hx) as (_ & B & _). contradiction.
    + unfold g'. cbn [f_nodes]. rewrite map_map. replace (map (fun x => f_name (cut_node alloc names x)) (f_nodes g)) with (map f_name (f_nodes g)).
      * apply (g_names _ _ G).
      * apply map_ext. intro m. now destruct (cut_facts m).
    + intros p t o Hp Ht Ho No. unfold g' in Hp. cbn [f_nodes] in Hp. apply in_map_iff in Hp. destruct Hp as (m & <- & Hm).
      rewrite (proj1 (proj2 (cut_facts m))) in Ht. rewrite cut_out in Ho. apply in_map_iff in Ho. destruct Ho as (u & <- & Hu).
      assert (Nu : u <> "") by (intro; apply No; now apply sg_empty).
      rewrite RK_sg by (eapply in_alldefs_out; eauto). rewrite RK_old.
      * apply (g_acyclic _ _ G m); auto.
      * destruct (used_defs_or_free g m t Hm Ht); auto. left. now apply defs_alldefs.
    + unfold g'. cbn [f_ins]. rewrite in_app_iff. intros [K|K]; [exact (n0 K)|]. unfold rest in K. apply filter_In in K. apply (g_noself _ _ G). tauto.
  - intros p bd Hp Hb. unfold g' in Hp. cbn [f_nodes] in Hp. apply in_map_iff in Hp. destruct Hp as (m & <- & Hm).
    rewrite (proj1 (proj2 (proj2 (cut_facts m)))) in Hb. apply (rerank_WW rk); [exact (WW_body rk g m bd H Hm Hb)|].
    intros t Ht. apply RK_old. destruct Ht as [Ht|Ht].
    + left. apply alldefs_in. right. exists m. split; auto. apply alldefs_in_node. eauto.
    + destruct (used_defs_or_free g m t Hm (fv_body m bd t Hb Ht)); auto. left. now apply defs_alldefs.
Qed.
Section CutMeaning.
Variable V : Type.
Variable op_rel : string -> string -> list (string * attr) -> nat -> list V -> list (list V -> list V -> Prop) -> list V -> Prop.
Hypothesis ext : op_ext op_rel.
Lemma cut_holds (r1 r2 : env V) m : In m (f_nodes g) -> (forall t, In t (alldefs g) \/ In t (fv_graph g) -> r2 t = r1 t) ->
  (forall o, In o (f_out m) -> In o names -> r2 (alloc o) = r1 o) -> (holds op_rel r1 m <-> holds op_rel r2 (cut_node alloc names m)).
Proof.
  intros Hm E Ea.
  assert (Fv : forall t, In t (fv_node m) -> r1 t = r2 t).
  { intros t Ht. symmetry. apply E. destruct (used_defs_or_free g m t Hm Ht); auto. left. now apply defs_alldefs. }
  assert (Out : forall o, In o (f_out m) -> o <> "" -> r2 (sg o) = r1 o).
  { intros o Ho No. destruct (sg_eq o) as [[A Es]|[A Es]]; rewrite Es; [auto|]. apply E. left. eapply in_alldefs_out; eauto. }
  assert (P : forall vs, produces r1 (f_out m) vs <-> produces r2 (map sg (f_out m)) vs).
  { intro vs. split; intros P k o Ek No.
    - rewrite nth_error_map in Ek. destruct (nth_error (f_out m) k) as [u|] eqn:Eu; [|discriminate]. cbn in Ek. inversion Ek; subst o.
      assert (Nu : u <> "") by (intro; apply No; now apply sg_empty). rewrite Out; [apply P; auto|eapply nth_error_In; eauto|auto].
    - rewrite <- Out by (auto; eapply nth_error_In; eauto). apply P; [now rewrite nth_error_map, Ek|]. intro K. apply (proj1 (sg_empty _)) in K. contradiction. }
  destruct m as [n1 n2 n3 n4 n5 n6 n7]. cbn [cut_node]. fold sg. rewrite !holds_eq. cbn [f_op f_dom f_attrs f_in f_out f_bodies] in *. rewrite map_length.
  assert (Ei : map r2 n5 = map r1 n5).
  { apply map_ext_in. intros t Ht. symmetry. apply Fv. rewrite fv_node_eq. cbn [f_in]. apply in_app_iff. auto. }
  assert (Eb : Forall2 (fun b b' : list V -> list V -> Prop => forall a r, b a r <-> b' a r) (map (body_rel op_rel r1) n7) (map (body_rel op_rel r2) n7)).
  { assert (Q : forall b, In b n7 -> forall t, In t (fv_graph b) -> r1 t = r2 t).
    { intros b Hb t Ht. apply Fv. rewrite fv_node_eq. cbn [f_bodies]. rewrite in_app_iff, in_concat_map. eauto. }
    clear - Q ext. induction n7 as [|b l IH]; cbn [map]; constructor.
    - intros a s. apply (body_agree V op_rel ext). apply Q. cbn. auto.
    - apply IH. intros; apply (Q b0); cbn; auto. }
  rewrite Ei. split; intros (vs & A & B); exists vs; (split; [|apply P; exact B]).
  - eapply ext; [exact Eb|exact A].
  - eapply ext; [|exact A]. apply same_beh_sym. exact Eb.
Qed.
Lemma cut_fwd (r r' : env V) : run op_rel r r' g ->
  exists r'', run op_rel r r'' g' /\ (forall t, In t (defs g) -> r'' t = r' t) /\ (forall x, In x names -> ~ In x (f_ins g) -> r'' (alloc x) = r' x).
Proof.
  intros [R1 R2]. set (r'' := fun t => match find (fun x => String.eqb t (alloc x)) (filter (fun x => negb (mem x (f_ins g))) names) with Some x => r' x | None => r' t end).
  assert (F : forall t x, find (fun x => String.eqb t (alloc x)) (filter (fun x => negb (mem x (f_ins g))) names) = Some x -> In x names /\ ~ In x (f_ins g) /\ t = alloc x).
  { intros t x Hf. apply find_some in Hf. destruct Hf as [Hx E]. apply String.eqb_eq in E. apply filter_In in Hx. rewrite negb_true_iff, mem_false in Hx. tauto. }
  assert (Old : forall t, In t (alldefs g) \/ In t (fv_graph g) -> r'' t = r' t).
  { intros t Ht. unfold r''. destruct (find _ _) as [x|] eqn:Hf; auto. apply F in Hf. destruct Hf as (Hx & _ & ->). destruct (Al x Hx) as (A & B & _). tauto. }
  assert (Alv : forall x, In x names -> ~ In x (f_ins g) -> r'' (alloc x) = r' x).
  { intros x Hx Ni. unfold r''. destruct (find _ _) as [y|] eqn:Hf.
    - apply F in Hf. destruct Hf as (Hy & _ & E). destruct (string_dec x y) as [->|N]; auto. exfalso. apply (Inj x y); auto.
    - exfalso. assert (K := find_none _ _ Hf x). cbn in K. rewrite String.eqb_refl in K. discriminate K. apply filter_In. rewrite negb_true_iff, mem_false. auto. }
  exists r''. split; [split|split; [|exact Alv]].
  - intros t Ht. assert (N : ~ In t (defs g)) by (intro K; apply Ht, cut_defs; auto). unfold r''. destruct (find _ _) as [x|] eqn:Hf; auto.
    exfalso. apply F in Hf. apply Ht, cut_defs. right. exists x. exact Hf.
  - intros p Hp. unfold g' in Hp. cbn [f_nodes] in Hp. apply in_map_iff in Hp. destruct Hp as (m & <- & Hm).
    apply (cut_holds r' r'' m Hm); auto. intros o Ho Hno. apply Alv; auto. intro K. exact (input_not_out rk g o m H K Hm Ho).
  - intros t Ht. apply Old. left. now apply defs_alldefs.
Qed.
Lemma cut_bwd (r r'' : env V) : run op_rel r r'' g' -> (forall x, In x names -> ~ In x (f_ins g) -> r'' (alloc x) = r'' x) ->
  exists r', run op_rel r r' g /\ forall t, In t (defs g) -> r'' t = r' t.
Proof.
  intros [R1 R2] Ea. exists (fun t => if mem t (map alloc names) then r t else r'' t).
  assert (Old : forall t, In t (alldefs g) \/ In t (fv_graph g) -> (if mem t (map alloc names) then r t else r'' t) = r'' t).
  { intros t Ht. destruct (mem t (map alloc names)) eqn:M; auto. apply mem_in, in_map_iff in M. destruct M as (x & <- & Hx). destruct (Al x Hx) as (A & B & _). tauto. }
  split; [split|].
  - intros t Ht. destruct (mem t (map alloc names)) eqn:M; auto. apply R1. intro K. apply cut_defs in K. destruct K as [K|(x & Hx & _ & ->)]; auto.
    apply mem_false in M. apply M. now apply in_map.
  - intros m Hm. apply (cut_holds (fun t => if mem t (map alloc names) then r t else r'' t) r'' m Hm).
    + intros t Ht. symmetry. apply Old. exact Ht.
    + intros o Ho Hno. rewrite Ea by (auto; intro Q; exact (input_not_out rk g o m H Q Hm Ho)). symmetry. apply Old. left.
      apply defs_alldefs. auto.
    + apply R2. unfold g'. cbn [f_nodes]. now apply in_map.
  - intros t Ht. symmetry. apply Old. left. now apply defs_alldefs.
Qed.
End CutMeaning.
End Cut.
