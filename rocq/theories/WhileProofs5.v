(** Converting While: one iteration of the loop is one of the While node. *)
From Coq Require Import String List Bool ZArith Arith Lia Permutation.
From Verif Require Import FGraph FGraphProofs FGraphSpec IdentityProofs InlineModel InlineSpec InlineProofs InlineProofs3 InlineProofs4 WhileSpec WhileModel WhileProofs WhileProofs2 WhileProofs3 WhileProofs4.
Import ListNotations.
Local Open Scope string_scope.
Local Open Scope list_scope.

Lemma path_reader ns t path o : list_path ns t path o -> forall x n, In x (t :: path) -> In n ns -> In x (fv_node n) ->
  exists x', f_op n = "Identity" /\ f_in n = [x] /\ f_out n = [x'] /\ f_bodies n = [] /\ In x' path.
Proof.
  induction 1 as [t N|t t' path o n0 In_n Op Fi Fo Fb U P IH]; intros x n Ix In_x Fx.
  - destruct Ix as [<-|[]]. destruct (N n In_x Fx).
  - destruct Ix as [<-|Ix].
    + rewrite (U n In_x Fx). exists t'. repeat split; auto. left. auto.
    + destruct (IH x n Ix In_x Fx) as (x' & H1 & H2 & H3 & H4 & H5). exists x'. repeat split; auto. right. auto.
Qed.
Lemma path_writer ns t path o : list_path ns t path o -> forall x, In x path ->
  exists n x0, In n ns /\ f_op n = "Identity" /\ f_in n = [x0] /\ f_out n = [x] /\ f_bodies n = [] /\ In x0 (t :: path).
Proof.
  induction 1 as [t N|t t' path o n0 In_n Op Fi Fo Fb U P IH]; intros x Ix; [destruct Ix|]. destruct Ix as [<-|Ix].
  - exists n0, t. repeat split; auto. left. auto.
  - destruct (IH x Ix) as (n & x0 & H1 & H2 & H3 & H4 & H5 & H6). exists n, x0. repeat split; auto. right. auto.
Qed.

Section Iter.
Variable V : Type.
Variable vo : value_ops V.
Variable op_rel : string -> string -> list (string * attr) -> nat -> list V -> list (list V -> list V -> Prop) -> list V -> Prop.
Hypothesis LS : loop_semantics vo op_rel.
Notation holds := (holds op_rel). Notation body_rel := (body_rel op_rel). Notation all_hold := (all_hold op_rel).
Variables (ks : list kind) (body cond : fgraph) (ws : list lwrite) (mi : string) (win : list string) (cname : string).
Variables (b0 b1 o0 o1 c0 c1 : string) (bi bo ci : list string).
Hypothesis Ebi : f_ins body = b0 :: b1 :: bi.
Hypothesis Ebo : f_outs body = o0 :: o1 :: bo.
Hypothesis Eci : f_ins cond = c0 :: c1 :: ci.
Hypothesis Lw : length win = length ks.
Notation outer := (mi :: of_kind Read ks win).
Notation cparam := (cond_param cname).
Notation nodes := (f_nodes body).
Hypothesis HB : loop_body ks body ws outer cname cparam.
Hypothesis FC : function_graph cond.
Hypothesis Lci : length ci = length ks.
Hypothesis HL : forall p, In p (of_kind Lst ks ci) -> ~ In p (f_outs cond) /\ forall n, In n (f_nodes cond) -> ~ In p (fv_node n).
Notation T := (T ks mi win b0 b1 bi).
Notation state_of := (state_of ks mi win b1 bi).
Notation binding := (combine (c0 :: c1 :: not_lst ks ci) (b0 :: mi :: not_lst ks (merge ks bo win))).
Notation condS := (drop_lists ks cond).
Hypothesis IC : inlinable "cond__" binding condS.
Variables (news : list fnode) (c : string).
Hypothesis EC : prefix_graph "cond__" (bind_inputs binding condS) (f_outs condS) = Some (news, [c]).
Variable w : fgraph.
Hypothesis Wi : f_ins w = b0 :: cparam :: of_kind Var ks bi.
Hypothesis Wo : f_outs w = c :: of_kind Var ks bo ++ rev (map wr_out ws).
Hypothesis Wn : forall m, In m (f_nodes w) <-> (~ placeholder m /\ exists n, In n nodes /\ m = T n) \/ In m news.
Variable r : env V.
Variable z : Z.
Hypothesis Rmi : r mi = num vo z.
Notation table := (concat (map wr_names ws)).
Notation lp := (of_kind Lst ks bi).
Notation lo := (of_kind Lst ks bo).
Let FBd : function_graph body := lb_function _ _ _ _ _ _ HB.

Lemma in_table t : In t table <-> exists w, In w ws /\ In t (wr_names w).
Proof. rewrite in_concat_map. tauto. Qed.
Lemma write_facts w0 : In w0 ws -> exists o n, In (wr_param w0) lp /\ In o lo /\ In n nodes /\ f_op n = "TensorListSetItem" /\ f_in n = [wr_param w0; wr_index w0; wr_item w0] /\ f_out n = [wr_out w0] /\ f_bodies n = [] /\
  (forall m, In m nodes -> In (wr_param w0) (fv_node m) -> m = n) /\ wr_param w0 <> wr_index w0 /\ wr_param w0 <> wr_item w0 /\ list_path nodes (wr_out w0) (wr_path w0) o.
Proof.
  intro Iw. destruct (write_of ks body ws mi win cname b0 b1 o0 o1 bi bo Ebi Ebo HB w0 Iw) as (p & o & Ip & Io & <- & n & H). exists o, n. tauto.
Qed.
(** who reads and who writes the lists *)
Lemma table_read t n : In n nodes -> In t (fv_node n) -> In t table ->
  (exists w0, In w0 ws /\ t = wr_param w0 /\ f_op n = "TensorListSetItem") \/
  exists w0 t', In w0 ws /\ f_op n = "Identity" /\ f_in n = [t] /\ f_out n = [t'] /\ f_bodies n = [] /\ In t (wr_out w0 :: wr_path w0) /\ In t' (wr_out w0 :: wr_path w0).
Proof.
  intros In_n Ft It. apply in_table in It. destruct It as (w0 & Iw & It). destruct (write_facts w0 Iw) as (o & m & _ & _ & H1 & H2 & H3 & H4 & H5 & H6 & H7 & H8 & H9). destruct It as [<-|It].
  - left. exists w0. rewrite (H6 n In_n Ft). auto.
  - right. destruct (path_reader _ _ _ _ H9 t n It In_n Ft) as (t' & K1 & K2 & K3 & K4 & K5). exists w0, t'. repeat split; auto. right. auto.
Qed.
Lemma table_write t n : In n nodes -> In t (f_out n) -> In t table ->
  (exists w0, In w0 ws /\ t = wr_param w0 /\ placeholder n) \/ (exists w0, In w0 ws /\ t = wr_out w0 /\ f_op n = "TensorListSetItem") \/
  exists w0 t', In w0 ws /\ f_op n = "Identity" /\ f_in n = [t'] /\ f_out n = [t] /\ f_bodies n = [] /\ In t (wr_out w0 :: wr_path w0) /\ In t' (wr_out w0 :: wr_path w0).
Proof.
  intros In_n Ft It. apply in_table in It. destruct It as (w0 & Iw & It). destruct (write_facts w0 Iw) as (o & m & P1 & _ & H1 & H2 & H3 & H4 & H5 & H6 & H7 & H8 & H9). destruct It as [<-|[<-|It]].
  - left. exists w0. split; auto. split; auto. destruct (lst_param ks body ws mi win cname b0 b1 bi Ebi HB _ P1) as (Ii & _). destruct (fn_param _ FBd _ Ii) as (k & Ik & Pk & Ok).
    replace n with k; auto. apply (unique_output nodes k n (wr_param w0) (fn_ssa _ FBd)); auto. rewrite Ok. left. auto.
  - right. left. exists w0. split; auto. split; auto. replace n with m; auto. apply (unique_output nodes m n (wr_out w0) (fn_ssa _ FBd)); auto. rewrite H4. left. auto.
  - right. right. destruct (path_writer _ _ _ _ H9 t It) as (k & t' & K1 & K2 & K3 & K4 & K5 & K6). exists w0, t'. assert (n = k) as -> by (apply (unique_output nodes n k t (fn_ssa _ FBd)); auto; rewrite K4; left; auto).
    repeat split; auto. right. auto.
Qed.
Lemma identity_regular n : f_op n = "Identity" -> ~ placeholder n.
Proof. intros E P. unfold placeholder in P. rewrite E in P. repeat (destruct P as [P|P]; [discriminate|]). destruct P. Qed.
(** a node that is no write either passes a list on or has nothing to do with lists *)
Lemma regular_cases n : In n nodes -> ~ placeholder n -> f_op n <> "TensorListSetItem" ->
  (exists w0 t t', In w0 ws /\ f_op n = "Identity" /\ f_in n = [t] /\ f_out n = [t'] /\ f_bodies n = [] /\ In t (wr_out w0 :: wr_path w0) /\ In t' (wr_out w0 :: wr_path w0)) \/
  (forall t, In t (fv_node n) \/ In t (f_out n) -> ~ In t table).
Proof.
  intros In_n NP NS. destruct (existsb (fun t => mem t table) (fv_node n ++ f_out n)) eqn:X.
  - left. apply existsb_exists in X. destruct X as (t & It & Mt). apply mem_in in Mt. apply in_app_iff in It. destruct It as [It|It].
    + destruct (table_read t n In_n It Mt) as [(w0 & _ & _ & E)|(w0 & t' & H)]; [contradiction|]. exists w0, t, t'. tauto.
    + destruct (table_write t n In_n It Mt) as [(w0 & _ & _ & E)|[(w0 & _ & _ & E)|(w0 & t' & H)]]; [contradiction|contradiction|]. exists w0, t', t. tauto.
  - right. intros t It. apply mem_false. apply (existsb_false _ _ X t). apply in_app_iff. exact It.
Qed.
Lemma write_reads w0 : In w0 ws -> ~ In (wr_index w0) table /\ ~ In (wr_item w0) table.
Proof.
  intro Iw. destruct (write_facts w0 Iw) as (o & n & P1 & _ & H1 & H2 & H3 & H4 & H5 & H6 & H7 & H8 & H9).
  assert (G : forall t, In t (fv_node n) -> t <> wr_param w0 -> ~ In t table).
  { intros t Ft N K. destruct (table_read t n H1 Ft K) as [(w1 & Iw1 & -> & _)|(w1 & t' & _ & E & _)]; [|rewrite H2 in E; discriminate].
    destruct (write_facts w1 Iw1) as (o1' & n1 & Q1 & _ & G1 & G2 & G3 & G4 & G5 & G6 & _). rewrite (G6 n H1 Ft) in H3. rewrite G3 in H3. injection H3 as E _. congruence. }
  rewrite fv_node_eq, H3, H5 in G. cbn [map concat app In] in G. split; apply G; auto.
Qed.
Lemma table_outputs t : In t table -> In t (outputs_of nodes).
Proof. intro It. apply in_table in It. destruct It as (w0 & Iw & It). eapply (wr_names_outputs ks body ws mi win cname b0 b1 o0 o1 bi bo); eauto. Qed.
Lemma table_param t : In t table -> In t (f_ins body) -> In t lp.
Proof.
  intros It Ii. destruct (fn_param _ FBd t Ii) as (n & In_n & Pn & On). destruct (table_write t n In_n ltac:(rewrite On; left; auto) It) as [(w0 & Iw & -> & _)|[(w0 & _ & _ & E)|(w0 & t' & _ & E & _)]].
  - destruct (write_facts w0 Iw) as (o & m & P1 & _). exact P1.
  - exfalso. exact (set_not_placeholder n E Pn).
  - exfalso. exact (identity_regular n E Pn).
Qed.
Lemma params_lp : map wr_param ws = lp. Proof. exact (proj1 (lists_params ks body ws mi win cname b0 b1 o0 o1 bi bo Ebi Ebo Lw HB)). Qed.
Lemma lp_table t : In t lp -> In t table.
Proof. rewrite <- params_lp. intro It. apply in_map_iff in It. destruct It as (w0 & <- & Iw). apply in_table. exists w0. split; auto. left. auto. Qed.
Lemma table_unique w0 w1 t : In w0 ws -> In w1 ws -> In t (wr_names w0) -> In t (wr_names w1) -> w0 = w1.
Proof. intros. eapply (NoDup_concat_inj wr_names ws); eauto. exact (lb_distinct _ _ _ _ _ _ HB). Qed.
Lemma not_own_param w0 t : In w0 ws -> In t (wr_out w0 :: wr_path w0) -> t <> wr_param w0.
Proof.
  intros Iw It ->. pose proof (lb_distinct _ _ _ _ _ _ HB) as ND. destruct (in_split _ _ Iw) as (l1 & l2 & E). rewrite E, map_app, concat_app in ND. apply NoDup_app_inv in ND. destruct ND as (_ & ND & _).
  cbn [map concat] in ND. apply NoDup_app_inv in ND. destruct ND as (ND & _). unfold wr_names in ND. inversion ND; subst. contradiction.
Qed.
Lemma not_param_lp w0 t : In w0 ws -> In t (wr_out w0 :: wr_path w0) -> ~ In t lp.
Proof.
  intros Iw It K. rewrite <- params_lp in K. apply in_map_iff in K. destruct K as (w1 & <- & Iw1). assert (w0 = w1) as -> by (apply (table_unique w0 w1 (wr_param w1)); auto; [right; exact It|left; auto]).
  exact (not_own_param w1 _ Iw1 It eq_refl).
Qed.
Lemma read_closed n t : In n nodes -> In t (fv_node n) -> t = "" \/ In t (outputs_of nodes). Proof. apply (fn_closed _ FBd). Qed.
Lemma not_named : ~ In "" (outputs_of nodes). Proof. exact (fn_named _ FBd). Qed.
Lemma bi_ins x : In x bi -> In x (f_ins body). Proof. rewrite Ebi. cbn. auto. Qed.
Lemma ins_outputs x : In x (f_ins body) -> In x (outputs_of nodes).
Proof. intro I. destruct (fn_param _ FBd x I) as (n & In_n & _ & E). apply in_outputs_of. exists n. rewrite E. split; auto. left. auto. Qed.
Lemma kind_param k x : k <> Lst -> In x (of_kind k ks bi) -> In x (f_ins body) /\ ~ In x table.
Proof.
  intros N I. apply in_of_kind in I. destruct I as (i & Ei & Ex). assert (Ii : In x (f_ins body)) by (apply bi_ins; now apply nth_error_In in Ex). split; auto. intro K. apply (table_param x K) in Ii.
  apply in_of_kind in Ii. destruct Ii as (j & Ej & Ejx). destruct (NDb ks body ws mi win cname b0 b1 bi Ebi HB) as (_ & _ & _ & ND).
  assert (i = j) as -> by (apply (NoDup_nth_error bi); auto; [apply nth_error_Some; congruence|congruence]). congruence.
Qed.
Lemma head_params : ~ In b0 table /\ ~ In b1 table /\ In b0 (outputs_of nodes) /\ In b1 (outputs_of nodes).
Proof.
  assert (I0 : In b0 (f_ins body)) by (rewrite Ebi; left; auto). assert (I1 : In b1 (f_ins body)) by (rewrite Ebi; right; left; auto). destruct (NDb ks body ws mi win cname b0 b1 bi Ebi HB) as (_ & N0 & N1 & _).
  assert (G : forall t, In t lp -> In t bi) by (intros t I; apply in_of_kind in I; destruct I as (i & _ & E); now apply nth_error_In in E).
  repeat split; try (now apply ins_outputs); intro K; apply table_param in K; auto.
Qed.

(** ** the names defined by the loop body *)
Lemma news_scope t : In t (outputs_of news) -> in_scope "cond__" t. Proof. exact (new_names "cond__" binding condS IC news [c] EC t). Qed.
Lemma wired_defs t : In t (defs w) <-> (In t (outputs_of nodes) /\ ~ In t lp) \/ t = cparam \/ In t (outputs_of news).
Proof.
  destruct (lb_cparam _ _ _ _ _ _ HB) as (CN & _). rewrite in_defs, Wi. split.
  - intros [N [I|(m & Im & Ot)]].
    + destruct I as [<-|[<-|I]]; auto.
      * left. destruct head_params as (N0 & _ & I0 & _). split; auto. intro K. apply N0. now apply lp_table.
      * left. apply (kind_param Var) in I; [|discriminate]. destruct I as [I NT]. split; [now apply ins_outputs|]. intro K. apply NT. now apply lp_table.
    + apply Wn in Im. destruct Im as [(NP & n & In_n & ->)|Im]; [|right; right; apply in_outputs_of; eauto]. rewrite (T_out ks body ws mi win cname b0 b1 bi Ebi Lw HB n In_n) in Ot. left. split; [apply in_outputs_of; eauto|].
      intro K. pose proof (lst_param ks body ws mi win cname b0 b1 bi Ebi HB t K) as (Ii & _ & NS). destruct (fn_param _ FBd t Ii) as (k & Ik & Pk & Ok).
      assert (n = k) as -> by (apply (unique_output nodes n k t (fn_ssa _ FBd)); auto; rewrite Ok; left; auto). apply NP. rewrite (T_param ks body ws mi win cname b0 b1 bi Ebi Lw HB k Ik Pk); auto.
      intros i p E. rewrite Ok in E. injection E as <-. apply NS.
  - intros [[I NL]|[->|I]].
    + split; [intros ->; exact (not_named I)|]. apply in_outputs_of in I. destruct I as (n & In_n & On).
      destruct (T_cases ks body ws mi win cname b0 b1 bi Ebi Lw HB n In_n) as [(NP & NS & ET)|[(E & NP & ET)|[(P & i & p & Eo & So & ET)|(P & _ & _ & (i & Eo & Ii & NS) & ET)]]].
      * right. exists n. split; auto. apply Wn. left. split; auto. exists n. auto.
      * right. exists (T n). rewrite (T_out ks body ws mi win cname b0 b1 bi Ebi Lw HB n In_n). split; auto. apply Wn. left. split; [rewrite ET; now apply identity_regular|eauto].
      * right. exists (T n). rewrite (T_out ks body ws mi win cname b0 b1 bi Ebi Lw HB n In_n). split; auto. apply Wn. left. split; [rewrite ET; now apply identity_regular|eauto].
      * rewrite Eo in On. destruct On as [->|[]]. left. rewrite Ebi in Ii. destruct Ii as [<-|[<-|Ii]]; [left; auto|exfalso; apply (NS mi); left; auto|]. right. right.
        apply In_nth_error in Ii. destruct Ii as (j & Ej). pose proof (Lbi ks body ws mi win cname b0 b1 bi Ebi Lw HB) as L. assert (Lj : j < length ks) by (rewrite <- L; apply nth_error_Some; congruence).
        destruct (nth_error ks j) as [[| |]|] eqn:Ek; [apply in_of_kind; eauto| |exfalso; apply NL; apply in_of_kind; eauto|apply nth_error_None in Ek; lia].
        exfalso. destruct (nth_error win j) as [p|] eqn:Ep; [|apply nth_error_None in Ep; lia]. apply (NS p). right. eauto.
    + split; auto. left. right. left. auto.
    + split; [apply (in_scope_nonempty "cond__"); [discriminate|now apply news_scope]|]. right. apply in_outputs_of in I. destruct I as (m & Im & Om). exists m. split; auto. apply Wn. auto.
Qed.
Lemma outer_free p : In p outer -> p <> "" /\ ~ In p (defs w) /\ ~ In p (outputs_of nodes) /\ p <> cparam /\ ~ in_scope "cond__" p.
Proof.
  intro Ip. destruct (lb_outer _ _ _ _ _ _ HB p Ip) as (N1 & _ & N2 & N3 & N4). split; auto. split; [|auto]. rewrite wired_defs. intros [[K _]|[K|K]]; auto. apply N4. now apply news_scope.
Qed.
Lemma empty_free : ~ In "" (defs w).
Proof. rewrite in_defs. tauto. Qed.

Lemma hold_set (r0 : env V) n w0 : f_op n = "TensorListSetItem" -> f_in n = [wr_param w0; wr_index w0; wr_item w0] -> f_out n = [wr_out w0] -> f_bodies n = [] -> wr_out w0 <> "" ->
  (holds r0 n <-> exists items k, r0 (wr_param w0) = tlist vo items /\ r0 (wr_index w0) = num vo (Z.of_nat k) /\ k < length items /\ r0 (wr_out w0) = tlist vo (set_item k (r0 (wr_item w0)) items)).
Proof.
  intros E1 E2 E3 E4 N. destruct n as [d1 d2 d3 d4 d5 d6 d7]. cbn [f_op f_in f_out f_bodies] in *. subst. rewrite holds_eq. cbn [f_op f_dom f_attrs f_in f_out f_bodies map length]. split.
  - intros (vs & H & P). apply (ls_set _ _ LS) in H. destruct H as (items & k & -> & -> & L & ->). specialize (P 0 (wr_out w0) eq_refl N). cbn in P. injection P as P. exists items, k. auto.
  - intros (items & k & H1 & H2 & L & H3). exists [tlist vo (set_item k (r0 (wr_item w0)) items)]. split; [apply (ls_set _ _ LS); exists items, k; auto|].
    intros [|j] o Eo No; [|destruct j; discriminate]. cbn in Eo. injection Eo as <-. cbn. congruence.
Qed.
Lemma hold_identity (r0 : env V) n x y : f_op n = "Identity" -> f_in n = [x] -> f_out n = [y] -> f_bodies n = [] -> y <> "" -> (holds r0 n <-> r0 y = r0 x).
Proof.
  intros E1 E2 E3 E4 N. destruct n as [d1 d2 d3 d4 d5 d6 d7]. cbn [f_op f_in f_out f_bodies] in *. subst. rewrite holds_eq. cbn [f_op f_dom f_attrs f_in f_out f_bodies map length]. split.
  - intros (vs & H & P). apply (ls_identity _ _ LS) in H. subst. specialize (P 0 y eq_refl N). cbn in P. congruence.
  - intro H. exists [r0 x]. split; [now apply (ls_identity _ _ LS)|]. intros [|j] o Eo No; [|destruct j; discriminate]. cbn in Eo. injection Eo as <-. cbn. congruence.
Qed.
Lemma out_named w0 t : In w0 ws -> In t (wr_names w0) -> t <> "".
Proof. intros Iw It ->. apply not_named. apply table_outputs. apply in_table. eauto. Qed.

Lemma condS_anywhere (r1 : env V) : r1 "" = r "" -> forall a s0, body_rel r (equations condS) a s0 <-> body_rel r1 (equations condS) a s0.
Proof.
  intro R1e. apply (body_agree V op_rel (Ext V vo op_rel LS)). intros t It. rewrite (drop_equations ks cond c0 c1 ci Eci FC) in It. assert (t = "") as ->; [|auto].
  apply (fn_fv cond FC). apply in_fv_graph in It. destruct It as [N It]. apply in_fv_graph. cbn [f_ins f_outs f_nodes] in *.
  rewrite in_defs in *. cbn [f_ins f_nodes] in N. cbn [f_ins f_outs equations]. rewrite keep_ci in * by eauto. split; [|destruct It as [It|[It|It]]; [left; tauto|right; left; exact It|right; right; exact It]].
  intros [NE [K|K]]; apply N; (split; [exact NE|]); [left; split; auto|right; exact K]. intro Kl. destruct (HL t Kl) as [K1 K2]. destruct It as [It|[It|(n & In_n & It)]]; [tauto|tauto|].
  change (filter _ (f_nodes cond)) with (f_nodes (equations cond)) in In_n. apply in_equations in In_n. exact (K2 n (proj1 In_n) It).
Qed.
Lemma condS_arguments (r1 : env V) k rest' : length rest' = length ks -> r1 b0 = num vo (Z.of_nat k) -> (forall p, In p outer -> r1 p = r p) ->
  of_kind Var ks rest' = map r1 (of_kind Var ks bo) -> of_kind Read ks rest' = map r (of_kind Read ks win) ->
  arguments r1 binding (f_ins condS) (num vo (Z.of_nat k) :: num vo z :: not_lst ks rest').
Proof.
  intros L' B0 Out Ev' Er'. pose proof (Lbo ks body ws mi win cname o0 o1 bo Ebo Lw HB) as Lbo'.
  assert (EI : f_ins condS = c0 :: c1 :: not_lst ks ci) by (unfold drop_lists, keep2; cbn [f_ins]; rewrite Eci; reflexivity). rewrite EI.
  assert (EA : num vo (Z.of_nat k) :: num vo z :: not_lst ks rest' = map r1 (b0 :: mi :: not_lst ks (merge ks bo win))).
  { cbn [map]. rewrite B0, (Out mi), Rmi by (left; auto). f_equal. f_equal. rewrite <- not_lst_map. apply not_lst_ext; auto; [now rewrite map_length, merge_length| |].
    - rewrite of_kind_map, merge_var by auto. congruence.
    - rewrite of_kind_map, merge_read, Er' by auto. apply map_ext_in. intros t It. symmetry. apply Out. right. auto. }
  rewrite EA. apply arguments_combine.
  - rewrite <- EI. exact (i_params _ _ _ IC).
  - cbn [length]. f_equal. f_equal. clear - Lci Lbo' Lw.
    assert (G : forall (k0 : list kind) (a b : list string), length a = length k0 -> length b = length k0 -> length (not_lst k0 a) = length (not_lst k0 b)).
    { clear. induction k0 as [|q k0 IH]; intros [|p a] [|y b] L1 L2; try discriminate; [reflexivity|]. rewrite !not_lst_cons. cbn [length] in *. destruct (kind_eqb q Lst); cbn [length]; rewrite (IH a b) by lia; reflexivity. }
    apply G; auto. now apply merge_length.
Qed.

(** the value of a name of a written list *)
Definition listv (k : nat) (x : lwrite -> V) (ls : list (list (option V))) (t : string) : option V :=
  match find (fun wl => mem t (wr_names (fst wl))) (combine ws ls) with
  | Some (w0, l) => Some (if String.eqb t (wr_param w0) then tlist vo l else tlist vo (set_item k (x w0) l))
  | None => None
  end.
Lemma listv_none k x ls t : ~ In t table -> listv k x ls t = None.
Proof.
  intro N. unfold listv. destruct (find _ _) as [[w0 l]|] eqn:F; auto. exfalso. apply find_some in F. destruct F as [F1 F2]. cbn [fst] in F2. apply mem_in in F2. apply N. apply in_table. exists w0. split; auto. now apply in_combine_l in F1.
Qed.
Lemma listv_some k x ls w0 l t : In (w0, l) (combine ws ls) -> In t (wr_names w0) -> listv k x ls t = Some (if String.eqb t (wr_param w0) then tlist vo l else tlist vo (set_item k (x w0) l)).
Proof.
  intros I It. unfold listv. assert (ND : NoDup ws).
  { pose proof (lb_distinct _ _ _ _ _ _ HB) as ND. revert ND. generalize ws. clear. induction ws as [|a l IH]; intro ND; constructor.
    - intro K. cbn [map concat] in ND. apply NoDup_app_inv in ND. destruct ND as (_ & _ & D). apply (D (wr_param a)); [left; auto|]. apply in_concat_map. exists a. split; auto. left. auto.
    - apply IH. cbn [map concat] in ND. apply NoDup_app_inv in ND. tauto. }
  assert (G : forall l1 ls1, incl l1 ws -> NoDup l1 -> In (w0, l) (combine l1 ls1) -> find (fun wl => mem t (wr_names (fst wl))) (combine l1 ls1) = Some (w0, l)).
  { induction l1 as [|w1 l1 IH]; intros [|l2 ls1] Sub ND1 K; try destruct K. 1: injection H as -> ->; cbn [combine find fst]; apply mem_in in It; now rewrite It.
    cbn [combine find fst]. inversion ND1 as [|? ? N1 ND2]; subst. destruct (mem t (wr_names w1)) eqn:M; [|apply IH; auto; intros y Iy; apply Sub; right; auto].
    exfalso. apply mem_in in M. apply N1. assert (Iw0 : In w0 l1) by (now apply in_combine_l in H). rewrite (table_unique w1 w0 t); auto; [apply Sub; left; auto|apply Sub; right; auto]. }
  rewrite (G ws ls); auto. intros y Iy. exact Iy.
Qed.

Section One.
Variable k : nat.
Variables (rest : list V) (ls : list (list (option V))).
Notation s := (num vo (Z.of_nat k) :: num vo z :: rest).
Hypothesis Lrest : length rest = length ks.
Hypothesis RestR : of_kind Read ks rest = map r (of_kind Read ks win).
Hypothesis RestL : of_kind Lst ks rest = map (tlist vo) ls.
Hypothesis Lk : forall l, In l ls -> k < length l.
Hypothesis Idx : index_is op_rel r body ws s (num vo (Z.of_nat k)).
(** the lists afterwards *)
Definition written (row : list V) : list (list (option V)) := map (fun xl => set_item k (fst xl) (snd xl)) (combine (rev row) ls).
Lemma ls_length : length ls = length ws.
Proof.
  rewrite <- (map_length (tlist vo) ls), <- RestL. rewrite (of_kind_len Lst ks rest bi Lrest (Lbi ks body ws mi win cname b0 b1 bi Ebi Lw HB)), <- params_lp. apply map_length.
Qed.
Lemma ws_ls w0 : In w0 ws -> exists l, In (w0, l) (combine ws ls) /\ In l ls.
Proof.
  pose proof ls_length as L. revert L. generalize ls. generalize ws. clear. induction ws as [|a l IH]; intros [|x ls] L Iw; try destruct Iw; try discriminate.
  - subst. exists x. cbn. auto.
  - destruct (IH ls ltac:(cbn in L; lia) H) as (y & I1 & I2). exists y. cbn. auto.
Qed.

Lemma rest_of_lp (r0 : env V) : (forall w0 l, In (w0, l) (combine ws ls) -> r0 (wr_param w0) = tlist vo l) -> map r0 lp = map (tlist vo) ls.
Proof.
  intro H. rewrite <- params_lp, map_map. pose proof ls_length as L. revert L H. generalize ls. generalize ws. clear. induction ws as [|a l IH]; intros [|x ls] L H; try discriminate; [reflexivity|].
  cbn [map]. f_equal; [apply H; left; auto|]. apply IH; [cbn in L; lia|]. intros. apply H. right. auto.
Qed.
Lemma lo_values (r0 : env V) (x : lwrite -> V) : (forall w0 l t, In (w0, l) (combine ws ls) -> In t (wr_out w0 :: wr_path w0) -> r0 t = tlist vo (set_item k (x w0) l)) ->
  map r0 lo = map (tlist vo) (written (rev (map x ws))).
Proof.
  intro H. unfold written. rewrite rev_involutive. pose proof (lists ks body ws mi win cname b0 b1 o0 o1 bi bo Ebi Ebo HB) as F. pose proof ls_length as L.
  assert (LL : length lp = length lo) by (apply of_kind_len; [exact (Lbi ks body ws mi win cname b0 b1 bi Ebi Lw HB)|exact (Lbo ks body ws mi win cname o0 o1 bo Ebo Lw HB)]).
  revert LL F L H. generalize lp lo. generalize ls. generalize ws. clear. induction ws as [|a l IH]; intros [|y ls] ps os LL F L H; try discriminate; destruct ps as [|p ps], os as [|o os]; try discriminate; try reflexivity; inversion F as [|? ? ? ? Hw F']; subst.
  cbn [map combine fst snd]. f_equal.
  - apply (H a y); [left; auto|]. destruct Hw as (_ & n & _ & _ & _ & _ & _ & _ & _ & _ & P). cbn [snd] in P. now apply path_names in P.
  - apply (IH ls ps os); [cbn in LL; lia|auto|cbn in L; lia|]. intros w1 l1 t1 I1 I2. apply (H w1 l1 t1); auto. right. auto.
Qed.

(** ** an iteration of the loop is one of the While node *)
Lemma iter_sound cv vs c' vs' row : of_kind Var ks rest = vs ->
  body_rel r w (num vo (Z.of_nat k) :: cv :: vs) (c' :: vs' ++ row) -> length vs' = length vs ->
  exists s', body_rel r (equations body) s s' /\ length s' = 2 + length ks /\ of_kind Var ks (skipn 2 s') = vs' /\ of_kind Lst ks (skipn 2 s') = map (tlist vo) (written row) /\ length row = length ws /\
    forall rest', length rest' = length ks -> of_kind Var ks rest' = vs' -> of_kind Read ks rest' = map r (of_kind Read ks win) -> body_rel r (equations cond) (num vo (Z.of_nat k) :: num vo z :: rest') [c'].
Proof.
  intros Ev H Lvs. apply body_rel_eq in H. destruct H as (r1 & H1 & H2 & H3 & H4). rewrite Wi in H2. rewrite Wo in H4. cbn [map] in H2, H4. injection H2 as B0 BC BV. injection H4 as EC' EO.
  pose proof (Lbi ks body ws mi win cname b0 b1 bi Ebi Lw HB) as Lbi'. pose proof (Lbo ks body ws mi win cname o0 o1 bo Ebo Lw HB) as Lbo'.
  rewrite map_app in EO. assert (Lv : length (map r1 (of_kind Var ks bo)) = length vs').
  { rewrite map_length, Lvs, <- Ev. apply of_kind_len; auto. }
  assert (EV : map r1 (of_kind Var ks bo) = vs' /\ map r1 (rev (map wr_out ws)) = row).
  { clear - EO Lv. revert vs' EO Lv. generalize (map r1 (of_kind Var ks bo)). induction l as [|a l IH]; intros [|b vs'] EO Lv; try discriminate; [auto|]. cbn [app] in EO. injection EO as -> EO.
    destruct (IH vs' EO ltac:(cbn in Lv; lia)). split; congruence. }
  destruct EV as [EV ER]. assert (Out : forall p, In p outer -> r1 p = r p) by (intros p Ip; apply H1; now apply (outer_free p Ip)).
  assert (R1e : r1 "" = r "") by (apply H1, empty_free).
  assert (HT : forall n, In n nodes -> ~ placeholder (T n) -> holds r1 (T n)) by (intros n In_n NP; apply H3; apply Wn; left; split; eauto).
  assert (St : forall i p, state_of i p -> r1 i = r p).
  { intros i p S. pose proof (state_param ks mi win b0 b1 bi i p S) as Ii. apply (param_in ks body b0 b1 bi Ebi) in Ii. destruct (fn_param _ FBd i Ii) as (n & In_n & Pn & On).
    pose proof (T_state ks body ws mi win cname b0 b1 bi Ebi Lw HB n i p In_n Pn On S) as ET. specialize (HT n In_n ltac:(rewrite ET; now apply identity_regular)). rewrite ET in HT.
    apply (hold_identity r1 _ p i) in HT; auto; [|intros ->; exact (not_named (ins_outputs _ Ii))]. rewrite HT. apply Out. eapply state_outer; eauto. }
  assert (Wt : forall w0, In w0 ws -> r1 (wr_out w0) = r1 (wr_item w0)).
  { intros w0 Iw. destruct (write_node ks body ws mi win cname b0 b1 o0 o1 bi bo Ebi Ebo HB w0 Iw) as (n & In_n & E1 & E2 & E3 & E4). pose proof (T_set ks body ws mi win cname b0 b1 bi Ebi HB n In_n E1) as ET.
    specialize (HT n In_n ltac:(rewrite ET; now apply identity_regular)). rewrite ET in HT. rewrite E2 in HT. cbn [nth] in HT. apply (hold_identity r1 _ (wr_item w0) (wr_out w0)) in HT; auto. apply (out_named w0); auto. right. left. auto. }
  set (x := fun w0 => r1 (wr_item w0)). set (r0 := fun t => match listv k x ls t with Some v => v | None => if mem t (outputs_of nodes) then r1 t else r t end).
  assert (A1 : forall t, ~ In t table -> t = "" \/ In t (outputs_of nodes) -> r0 t = r1 t).
  { intros t N It. unfold r0. rewrite listv_none by auto. destruct (mem t (outputs_of nodes)) eqn:M; auto. destruct It as [->|It]; [auto|]. apply mem_false in M. contradiction. }
  assert (A2 : forall w0 l, In (w0, l) (combine ws ls) -> r0 (wr_param w0) = tlist vo l).
  { intros w0 l I. unfold r0. rewrite (listv_some k x ls w0 l); auto; [|left; auto]. now rewrite String.eqb_refl. }
  assert (A3 : forall w0 l t, In (w0, l) (combine ws ls) -> In t (wr_out w0 :: wr_path w0) -> r0 t = tlist vo (set_item k (x w0) l)).
  { intros w0 l t I It. unfold r0. rewrite (listv_some k x ls w0 l); auto; [|right; auto]. destruct (String.eqb_spec t (wr_param w0)) as [->|]; auto. exfalso. apply in_combine_l in I. exact (not_own_param w0 _ I It eq_refl). }
  assert (A4 : forall t, ~ In t (outputs_of nodes) -> r0 t = r t).
  { intros t N. unfold r0. rewrite listv_none by (intro; apply N; now apply table_outputs). apply mem_false in N. now rewrite N. }
  assert (Args : map r0 (f_ins body) = s).
  { rewrite Ebi. cbn [map]. destruct head_params as (T0 & T1 & I0 & I1). rewrite (A1 b0), (A1 b1) by auto. rewrite B0, (St b1 mi), Rmi by (left; auto). f_equal. f_equal.
    apply (of_kind_ext ks); auto; [now rewrite map_length|]. intro kd. rewrite of_kind_map. destruct kd.
    - rewrite Ev, <- BV. apply map_ext_in. intros t It. apply (kind_param Var) in It; [|discriminate]. destruct It as [It NT]. apply A1; auto. right. now apply ins_outputs.
    - rewrite RestR. apply of_kind_zip; auto. intros i t p Ei Et Ep. assert (S : state_of t p) by (right; eauto). rewrite <- (St t p S). assert (It : In t (of_kind Read ks bi)) by (apply in_of_kind; eauto).
      apply (kind_param Read) in It; [|discriminate]. destruct It as [It NT]. apply A1; auto. right. now apply ins_outputs.
    - rewrite RestL. apply rest_of_lp. auto. }
  assert (NotSet : forall n, In n (f_nodes (equations body)) -> f_op n <> "TensorListSetItem" -> holds r0 n).
  { intros n In_n NS. apply in_equations in In_n. destruct In_n as [In_n NP]. destruct (regular_cases n In_n NP NS) as [(w0 & t & t' & Iw & E1 & E2 & E3 & E4 & I1 & I2)|N].
    - destruct (ws_ls w0 Iw) as (l & Il & _). apply (hold_identity r0 n t t'); auto; [apply (out_named w0); auto; right; auto|]. rewrite (A3 w0 l t), (A3 w0 l t'); auto.
    - specialize (HT n In_n). rewrite (T_regular ks body ws mi win cname b0 b1 bi Ebi HB n In_n NP NS) in HT. eapply (holds_agree V op_rel (Ext V vo op_rel LS)); [| |exact (HT NP)].
      + intros t It. symmetry. apply A1; [apply N; auto|]. now apply (read_closed n).
      + intros t It _. symmetry. apply A1; [apply N; auto|]. right. apply in_outputs_of. eauto. }
  assert (Ind : forall w0, In w0 ws -> r0 (wr_index w0) = num vo (Z.of_nat k)).
  { apply Idx; auto. intros t N. apply A4. now rewrite <- (fn_defs body FBd). }
  exists (map r0 (f_outs body)). split; [|split; [|split; [|split; [|split]]]].
  - apply body_rel_eq. exists r0. split; [intros t N; apply A4; now rewrite <- (fn_defs body FBd)|]. split; [exact Args|]. split; [|reflexivity].
    intros n In_n. destruct (String.string_dec (f_op n) "TensorListSetItem") as [E|E]; [|auto]. apply in_equations in In_n. destruct In_n as [In_n NP].
    destruct (set_write ks body ws mi win cname b0 b1 o0 o1 bi bo Ebi Ebo HB n In_n E) as (w0 & p & o & Iw & _ & _ & _ & E2 & E3 & E4). destruct (ws_ls w0 Iw) as (l & Il & Ill).
    apply (hold_set r0 n w0); auto; [apply (out_named w0); auto; right; left; auto|]. exists l, k. split; [eauto|]. split; auto. split; auto. rewrite (A3 w0 l); auto; [|left; auto]. unfold x. f_equal. f_equal.
    destruct (write_reads w0 Iw) as [_ Ni]. symmetry. apply A1; auto. apply (read_closed n); auto. rewrite fv_node_eq, E2. right. right. left. auto.
  - rewrite map_length, (lb_outs _ _ _ _ _ _ HB). reflexivity.
  - rewrite Ebo. cbn [map skipn]. rewrite of_kind_map, <- EV. apply map_ext_in. intros t It. assert (Iv := It). apply in_of_kind in It. destruct It as (i & _ & E). apply nth_error_In in E.
    apply A1; [|right; apply (fn_results _ FBd); rewrite Ebo; right; right; auto]. intro K. apply in_table in K. destruct K as (w0 & Iw & K). pose proof (lb_vars _ _ _ _ _ _ HB t w0) as L. rewrite Ebo in L. exact (L Iv Iw K).
  - rewrite Ebo. cbn [map skipn]. rewrite of_kind_map, (lo_values r0 x A3). f_equal. f_equal. rewrite <- ER, map_rev, map_map. f_equal. apply map_ext_in. intros w0 Iw. symmetry. apply Wt. auto.
  - rewrite <- ER, map_length, rev_length, map_length. reflexivity.
  - intros rest' L' Ev' Er'. rewrite (cond_strip V vo op_rel LS ks cond c0 c1 ci Eci FC Lci HL r _ _ rest' [c'] L').
    apply (condS_anywhere r1 R1e). rewrite <- EC'. change [r1 c] with (map r1 [c]). eapply (sound V op_rel (Ext V vo op_rel LS) (Idm V vo op_rel LS) "cond__" binding condS IC news [c] EC).
    + intros m Im. apply H3. apply Wn. auto.
    + apply condS_arguments; auto. congruence.
Qed.

(** ** an iteration of the While node is one of the loop *)
Lemma iter_complete cv s' c' rest' : body_rel r (equations body) s s' -> length rest' = length ks -> of_kind Var ks rest' = of_kind Var ks (skipn 2 s') -> of_kind Read ks rest' = map r (of_kind Read ks win) ->
  body_rel r (equations cond) (num vo (Z.of_nat k) :: num vo z :: rest') [c'] ->
  exists row, body_rel r w (num vo (Z.of_nat k) :: cv :: of_kind Var ks rest) (c' :: of_kind Var ks (skipn 2 s') ++ row) /\ length row = length ws /\ of_kind Lst ks (skipn 2 s') = map (tlist vo) (written row).
Proof.
  intros H L' Ev' Er' HC. apply body_rel_eq in H. destruct H as (r0 & H1 & H2 & H3 & H4). rewrite (ltac:(reflexivity) : f_ins (equations body) = f_ins body) in H2. rewrite (ltac:(reflexivity) : f_outs (equations body) = f_outs body), Ebo in H4.
  pose proof H2 as H2'. rewrite Ebi in H2'. cbn [map] in H2', H4. injection H2' as B0 B1 BV. subst s'. cbn [skipn] in *. rewrite of_kind_map in *.
  pose proof (Lbi ks body ws mi win cname b0 b1 bi Ebi Lw HB) as Lbi'. pose proof (Lbo ks body ws mi win cname o0 o1 bo Ebo Lw HB) as Lbo'.
  assert (D0 : forall t, ~ In t (outputs_of nodes) -> r0 t = r t) by (intros t N; apply H1; now rewrite (fn_defs body FBd)).
  assert (Ind : forall w0, In w0 ws -> r0 (wr_index w0) = num vo (Z.of_nat k)) by (apply Idx; auto).
  set (x := fun w0 => r0 (wr_item w0)).
  assert (PL : map r0 lp = map (tlist vo) ls) by (rewrite <- RestL, <- BV, of_kind_map; reflexivity).
  assert (A2 : forall w0 l, In (w0, l) (combine ws ls) -> r0 (wr_param w0) = tlist vo l).
  { rewrite <- params_lp in PL. clear - PL. revert PL. generalize ls as ls'. generalize ws as q. induction q as [|a q IH]; intros ls' PL w0 l I; [destruct I|].
    destruct ls' as [|y ls']; [destruct I|]. cbn [map] in PL. injection PL as E1 E2. destruct I as [I|I]; [injection I as <- <-; auto|eauto]. }
  assert (AO : forall w0 l, In (w0, l) (combine ws ls) -> r0 (wr_out w0) = tlist vo (set_item k (x w0) l)).
  { intros w0 l I. assert (Iw : In w0 ws) by (now apply in_combine_l in I). destruct (write_node ks body ws mi win cname b0 b1 o0 o1 bi bo Ebi Ebo HB w0 Iw) as (n & In_n & E1 & E2 & E3 & E4).
    assert (Hn : holds r0 n) by (apply H3; apply in_equations; split; auto; now apply set_not_placeholder). apply (hold_set r0 n w0 E1 E2 E3 E4) in Hn; [|apply (out_named w0); auto; right; left; auto].
    destruct Hn as (items & k' & K1 & K2 & _ & K3). rewrite (A2 w0 l I) in K1. apply (tlist_inj vo) in K1. subst items. rewrite (Ind w0 Iw) in K2. apply (num_inj vo) in K2. apply Nat2Z.inj in K2. subst k'. exact K3. }
  assert (A3 : forall w0 l t, In (w0, l) (combine ws ls) -> In t (wr_out w0 :: wr_path w0) -> r0 t = tlist vo (set_item k (x w0) l)).
  { intros w0 l t I It. assert (Iw : In w0 ws) by (now apply in_combine_l in I). rewrite <- (AO w0 l I). destruct (write_facts w0 Iw) as (o & n & _ & _ & _ & _ & _ & _ & _ & _ & _ & _ & P).
    assert (NE : forall y, In y (wr_out w0 :: wr_path w0) -> y <> "") by (intros y Iy; apply (out_named w0); auto; right; auto).
    clear - P It H3 NE LS. revert It NE. induction P as [t0 N|t0 t' path o n In_n Op Fi Fo Fb U P IH]; intros It NE; [destruct It as [<-|[]]; auto|]. destruct It as [<-|It]; auto.
    rewrite IH; auto; [|intros; apply NE; right; auto]. apply (hold_identity r0 n t0 t' Op Fi Fo Fb); [apply NE; right; left; auto|]. apply H3. apply in_equations. split; auto. now apply identity_regular. }
  set (r1 := fun t => if String.eqb t cparam then cv else match find (fun w0 => mem t (wr_names w0)) ws with Some w0 => if String.eqb t (wr_param w0) then r t else x w0 | None => r0 t end).
  destruct (lb_cparam _ _ _ _ _ _ HB) as (CN & CO & CS & CR).
  assert (F1 : forall w0 t, In w0 ws -> In t (wr_names w0) -> find (fun w0 => mem t (wr_names w0)) ws = Some w0).
  { intros w0 t Iw It. destruct (find _ ws) as [w1|] eqn:F.
    - apply find_some in F. destruct F as [F1 F2]. apply mem_in in F2. f_equal. apply (table_unique w1 w0 t); auto.
    - exfalso. apply mem_in in It. rewrite (find_none _ _ F w0 Iw) in It. discriminate. }
  assert (F2 : forall t, ~ In t table -> find (fun w0 => mem t (wr_names w0)) ws = None).
  { intros t N. destruct (find _ ws) as [w1|] eqn:F; auto. exfalso. apply find_some in F. destruct F as [F3 F4]. apply mem_in in F4. apply N. apply in_table. eauto. }
  assert (C1 : forall t, In t (outputs_of nodes) -> String.eqb t cparam = false) by (intros t It; apply String.eqb_neq; intros ->; contradiction).
  assert (Q1 : forall t, ~ In t table -> t <> cparam -> r1 t = r0 t) by (intros t N NC; unfold r1; apply String.eqb_neq in NC; rewrite NC, (F2 t N); auto).
  assert (Q2 : forall w0 t, In w0 ws -> In t (wr_out w0 :: wr_path w0) -> r1 t = x w0).
  { intros w0 t Iw It. unfold r1. rewrite C1 by (apply table_outputs; apply in_table; exists w0; split; auto; right; auto). rewrite (F1 w0 t Iw) by (right; auto).
    destruct (String.eqb_spec t (wr_param w0)) as [->|]; auto. exfalso. exact (not_own_param w0 _ Iw It eq_refl). }
  assert (Q3 : r1 cparam = cv) by (unfold r1; now rewrite String.eqb_refl).
  assert (Q4 : forall t, ~ In t (outputs_of nodes) -> t <> cparam -> r1 t = r t).
  { intros t N NC. rewrite Q1; auto. intro K. apply N. now apply table_outputs. }
  assert (Q5 : forall t, In t lp -> r1 t = r t).
  { intros t It. assert (Tt := lp_table t It). unfold r1. rewrite C1 by (now apply table_outputs). rewrite <- params_lp in It. apply in_map_iff in It. destruct It as (w0 & <- & Iw). rewrite (F1 w0 _ Iw) by (left; auto). now rewrite String.eqb_refl. }
  assert (Out : forall p, In p outer -> r1 p = r p) by (intros p Ip; destruct (outer_free p Ip) as (_ & _ & N1 & N2 & _); now apply Q4).
  assert (HT : forall n, In n nodes -> ~ placeholder (T n) -> holds r1 (T n)).
  { intros n In_n NPT. destruct (T_cases ks body ws mi win cname b0 b1 bi Ebi Lw HB n In_n) as [(NP & NS & ET)|[(E & NP & ET)|[(P & i & p & Eo & So & ET)|(P & _ & _ & _ & ET)]]].
    - fold T in ET. rewrite ET in *. assert (Hn : holds r0 n) by (apply H3; apply in_equations; auto). destruct (regular_cases n In_n NP NS) as [(w0 & t & t' & Iw & E1 & E2 & E3 & E4 & I1 & I2)|N].
      + apply (hold_identity r1 n t t'); auto; [apply (out_named w0); auto; right; auto|]. rewrite (Q2 w0 t), (Q2 w0 t'); auto.
      + eapply (holds_agree V op_rel (Ext V vo op_rel LS)); [| |exact Hn].
        * intros t It. symmetry. apply Q1; [apply N; auto|]. intros ->. exact (CR n In_n It).
        * intros t It _. symmetry. apply Q1; [apply N; auto|]. intros ->. apply CO. apply in_outputs_of. eauto.
    - rewrite ET. destruct (set_write ks body ws mi win cname b0 b1 o0 o1 bi bo Ebi Ebo HB n In_n E) as (w0 & p & o & Iw & _ & _ & _ & E2 & E3 & E4).
      apply (hold_identity r1 _ (wr_item w0) (wr_out w0)); cbn [f_op f_in f_out f_bodies]; auto; [rewrite E2; reflexivity|apply (out_named w0); auto; right; left; auto|].
      rewrite (Q2 w0 (wr_out w0)); auto; [|left; auto]. unfold x. symmetry. destruct (write_reads w0 Iw) as [_ Ni]. apply Q1; auto. intros EQ. apply (CR n In_n). rewrite fv_node_eq, E2, <- EQ. right. right. left. auto.
    - rewrite ET. pose proof (state_param ks mi win b0 b1 bi i p So) as Ii. apply (param_in ks body b0 b1 bi Ebi) in Ii. apply (hold_identity r1 _ p i); auto; [intros ->; exact (not_named (ins_outputs _ Ii))|].
      rewrite (Out p) by (eapply state_outer; eauto). destruct So as [[-> ->]|(j & Ej & Et & Ep)].
      + destruct head_params as (_ & T1 & _ & I1). rewrite Q1, B1, Rmi; auto. intros ->. contradiction.
      + assert (It : In i (of_kind Read ks bi)) by (apply in_of_kind; eauto). apply (kind_param Read) in It; [|discriminate]. destruct It as [It NT]. rewrite Q1; auto; [|intros ->; apply CO; now apply ins_outputs].
        clear - BV RestR Ej Et Ep Lw Lbi' Lrest. rewrite <- BV, of_kind_map in RestR. revert j Ej Et Ep. generalize RestR Lw Lbi'. generalize win bi. clear. generalize ks as kk. induction kk as [|q kk IH]; intros [|x1 l1] [|x2 l2] E L1 L2 [|j] Ej Et Ep; try discriminate; cbn [nth_error length] in *.
        * injection Ej as ->. injection Et as ->. injection Ep as ->. rewrite !of_kind_cons in E. cbn in E. congruence.
        * rewrite !of_kind_cons in E. apply (IH l1 l2) with (j := j); auto. destruct (kind_eqb q Read); [cbn in E; congruence|exact E].
    - exfalso. apply NPT. fold T in ET. rewrite ET. auto. }
  assert (E1e : r1 "" = r "") by (apply Q4; [exact not_named|auto]).
  rewrite (cond_strip V vo op_rel LS ks cond c0 c1 ci Eci FC Lci HL r _ _ rest' [c'] L') in HC. apply (condS_anywhere r1 E1e) in HC.
  assert (B0' : r1 b0 = num vo (Z.of_nat k)) by (destruct head_params as (T0 & _ & I0 & _); rewrite Q1, B0; auto; intros ->; contradiction).
  assert (VV : map r1 (of_kind Var ks bo) = map r0 (of_kind Var ks bo)).
  { apply map_ext_in. intros t It. assert (Iv := It). apply in_of_kind in It. destruct It as (i & _ & E). apply nth_error_In in E. assert (Io : In t (outputs_of nodes)) by (apply (fn_results _ FBd); rewrite Ebo; right; right; auto).
    apply Q1; [|intros ->; contradiction]. intro K. apply in_table in K. destruct K as (w0 & Iw & K). pose proof (lb_vars _ _ _ _ _ _ HB t w0) as L. rewrite Ebo in L. exact (L Iv Iw K). }
  destruct (complete V op_rel (Ext V vo op_rel LS) (Idm V vo op_rel LS) "cond__" binding condS IC news [c] EC r1 _ _ (condS_arguments r1 k rest' L' B0' Out ltac:(congruence) Er') HC) as (r2 & R1 & R2 & R3).
  assert (Sc : forall t, ~ in_scope "cond__" t -> r2 t = r1 t) by (intros t N; apply R1; intro K; apply N; now apply news_scope).
  assert (ScO : forall t, In t (outputs_of nodes) -> ~ in_scope "cond__" t) by (intros t It; apply in_outputs_of in It; destruct It as (n & In_n & On); exact (lb_scope _ _ _ _ _ _ HB n t In_n (or_intror On))).
  exists (rev (map x ws)). split; [|split].
  - apply body_rel_eq. exists r2. split; [|split; [|split]].
    + intros t N. rewrite wired_defs in N. rewrite R1 by tauto. destruct (in_dec string_dec t lp) as [Il|Il]; [now apply Q5|]. apply Q4; tauto.
    + rewrite Wi. cbn [map]. destruct head_params as (_ & _ & I0 & _). rewrite (Sc b0), (Sc cparam), B0', Q3 by auto. f_equal. f_equal. rewrite <- BV, of_kind_map. apply map_ext_in. intros t It.
      apply (kind_param Var) in It; [|discriminate]. destruct It as [It NT]. apply ins_outputs in It. rewrite Sc by auto. apply Q1; auto. intros ->. contradiction.
    + intros m Im. apply Wn in Im. destruct Im as [(NP & n & In_n & ->)|Im]; [|auto]. eapply (holds_agree V op_rel (Ext V vo op_rel LS)); [| |exact (HT n In_n NP)].
      * intros t It. symmetry. apply Sc. destruct (in_dec string_dec t (outputs_of nodes)) as [Io|Io]; [auto|].
        destruct (T_cases ks body ws mi win cname b0 b1 bi Ebi Lw HB n In_n) as [(_ & NS & ET)|[(E & _ & ET)|[(P & i & p & Eo & So & ET)|(P & _ & _ & _ & ET)]]].
        -- fold T in ET. rewrite ET in It. exact (lb_scope _ _ _ _ _ _ HB n t In_n (or_introl It)).
        -- rewrite ET in It. destruct (set_write ks body ws mi win cname b0 b1 o0 o1 bi bo Ebi Ebo HB n In_n E) as (w0 & p & o & Iw & _ & _ & _ & E2 & E3 & E4). rewrite fv_node_eq in It. cbn [f_in f_bodies] in It. rewrite E2, E4 in It. cbn [nth map concat app] in It. destruct It as [<-|[]].
           apply (lb_scope _ _ _ _ _ _ HB n _ In_n). left. rewrite fv_node_eq, E2. right. right. left. auto.
        -- rewrite ET, fv_node_eq in It. cbn [f_in f_bodies map concat app] in It. destruct It as [<-|[]]. apply outer_free. eapply state_outer; eauto.
        -- exfalso. apply NP. fold T in ET. rewrite ET. auto.
      * intros t It _. symmetry. apply Sc. rewrite (T_out ks body ws mi win cname b0 b1 bi Ebi Lw HB n In_n) in It. apply ScO. apply in_outputs_of. eauto.
    + rewrite Wo. cbn [map]. cbn [map] in R3. injection R3 as ->. f_equal. rewrite map_app. f_equal.
      * rewrite <- VV. apply map_ext_in. intros t It. apply Sc, ScO. apply in_of_kind in It. destruct It as (i & _ & E). apply nth_error_In in E. apply (fn_results _ FBd). rewrite Ebo. right. right. auto.
      * rewrite map_rev, map_map. f_equal. apply map_ext_in. intros w0 Iw. rewrite Sc, (Q2 w0 (wr_out w0)); auto; [left; auto|]. apply ScO. apply table_outputs. apply in_table. exists w0. split; auto. right. left. auto.
  - now rewrite rev_length, map_length.
  - rewrite of_kind_map. apply (lo_values r0 x A3).
Qed.
End One.
End Iter.
