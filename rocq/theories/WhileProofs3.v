(** Converting While: the nodes, inputs and outputs of the loop body. *)
From Coq Require Import String List Bool ZArith Arith Lia Permutation.
From Verif Require Import FGraph FGraphProofs FGraphSpec IdentityProofs InlineModel InlineSpec InlineProofs InlineProofs3 InlineProofs4 WhileSpec WhileModel WhileProofs WhileProofs2.
Import ListNotations.
Local Open Scope string_scope.
Local Open Scope list_scope.

Lemma in_of_kind {A} (k : kind) ks : forall (l : list A) x, In x (of_kind k ks l) <-> exists i, nth_error ks i = Some k /\ nth_error l i = Some x.
Proof.
  induction ks as [|k0 ks IH]; intros [|y l] x; try (split; [intros []|intros ([|i] & E1 & E2); discriminate]).
  - rewrite of_kind_cons. assert (Q : kind_eqb k0 k = true <-> k0 = k) by (destruct k0, k; cbn; split; congruence). destruct (kind_eqb k0 k).
    + cbn [In]. rewrite IH. split.
      * intros [->|(i & E)]; [exists 0; cbn; split; [f_equal; now apply Q|auto]|exists (S i); auto].
      * intros ([|i] & E1 & E2); cbn in E1, E2; [left; congruence|right; eauto].
    + rewrite IH. split; [intros (i & E); exists (S i); auto|]. intros ([|i] & E1 & E2); cbn in E1, E2; [|eauto]. exfalso. injection E1 as E1. apply Q in E1. discriminate.
Qed.
Lemma in_not_lst {A} ks : forall (l : list A) x, In x (not_lst ks l) <-> exists i k, nth_error ks i = Some k /\ k <> Lst /\ nth_error l i = Some x.
Proof.
  induction ks as [|k0 ks IH]; intros [|y l] x; try (split; [intros []|intros ([|i] & k & E1 & _ & E2); discriminate]).
  - rewrite not_lst_cons. assert (Q : kind_eqb k0 Lst = true <-> k0 = Lst) by (destruct k0; cbn; split; congruence). destruct (kind_eqb k0 Lst).
    + rewrite IH. split; [intros (i & k & E); exists (S i), k; auto|]. intros ([|i] & k & E1 & N & E2); cbn in E1, E2; [|exists i, k; auto]. exfalso. apply N. injection E1 as <-. now apply Q.
    + cbn [In]. rewrite IH. split.
      * intros [->|(i & k & E)]; [exists 0, k0; cbn; split; auto; split; auto; intro K; apply Q in K; discriminate|exists (S i), k; auto].
      * intros ([|i] & k & E1 & N & E2); cbn in E1, E2; [left; congruence|right; exists i, k; auto].
Qed.
Lemma all_some_spec {A} : forall (l : list (option A)) l', all_some l = Some l' <-> l = map Some l'.
Proof.
  induction l as [|[x|] l IH]; intros l'; cbn [all_some].
  - split; [intro E; injection E as <-; reflexivity|destruct l'; [reflexivity|discriminate]].
  - split.
    + destruct (all_some l) as [l0|] eqn:E; [|discriminate]. cbn [option_map]. intro Q. injection Q as <-. cbn [map]. f_equal. now apply IH.
    + destruct l' as [|y l']; [discriminate|]. cbn [map]. intro Q. injection Q as -> Q. apply IH in Q. rewrite Q. reflexivity.
  - split; [discriminate|destruct l'; discriminate].
Qed.
Lemma NoDup_concat_inj {A B} (f : A -> list B) l : NoDup (concat (map f l)) -> forall a b x, In a l -> In b l -> In x (f a) -> In x (f b) -> a = b.
Proof.
  induction l as [|c l IH]; intros ND a b x Ia Ib Xa Xb; [destruct Ia|]. cbn [map concat] in ND. apply NoDup_app_inv in ND. destruct ND as (_ & ND & D).
  assert (Q : forall d, In d l -> In x (f d) -> In x (concat (map f l))) by (intros d Id Xd; apply in_concat; exists (f d); split; auto; now apply in_map).
  destruct Ia as [->|Ia], Ib as [->|Ib]; auto; [exfalso; apply (D x Xa); eauto|exfalso; apply (D x Xb); eauto|eauto].
Qed.
Lemma path_names ns t path o : list_path ns t path o -> In o (t :: path).
Proof. induction 1; [left; auto|]. now right. Qed.

Lemma of_kind_len {A B} k : forall ks (l : list A) (l' : list B), length l = length ks -> length l' = length ks -> length (of_kind k ks l) = length (of_kind k ks l').
Proof.
  induction ks as [|k0 ks IH]; intros [|x l] [|y l'] L1 L2; try discriminate; [reflexivity|]. rewrite !of_kind_cons. cbn in L1, L2. destruct (kind_eqb k0 k); cbn [length]; rewrite (IH l l') by lia; reflexivity.
Qed.

Section Body.
Variables (ks : list kind) (body : fgraph) (ws : list lwrite) (mi : string) (win : list string) (cname : string).
Variables (b0 b1 o0 o1 : string) (bi bo : list string).
Hypothesis Ebi : f_ins body = b0 :: b1 :: bi.
Hypothesis Ebo : f_outs body = o0 :: o1 :: bo.
Hypothesis Lw : length win = length ks.
Notation outer := (mi :: of_kind Read ks win).
Notation cparam := (cond_param cname).
Notation nodes := (f_nodes body).
Hypothesis HB : loop_body ks body ws outer cname cparam.
Notation body' := (FGraph nodes (b0 :: b1 :: not_lst ks bi) (o0 :: o1 :: of_kind Var ks bo)).
Notation st := (state_vars ks win bi (dict_set [] b1 mi)).
(** what becomes of a node of the body *)
Definition T (n : fnode) : fnode := item_node (state_node (b0 :: b1 :: not_lst ks bi) st n).

Lemma FB : function_graph body. Proof. exact (lb_function _ _ _ _ _ _ HB). Qed.
Lemma Lbi : length bi = length ks. Proof. pose proof (lb_ins _ _ _ _ _ _ HB) as L. rewrite Ebi in L. cbn in L. lia. Qed.
Lemma Lbo : length bo = length ks. Proof. pose proof (lb_outs _ _ _ _ _ _ HB) as L. rewrite Ebo in L. cbn in L. lia. Qed.
Lemma NDb : b0 <> b1 /\ ~ In b0 bi /\ ~ In b1 bi /\ NoDup bi.
Proof. pose proof (fn_params _ FB) as ND. rewrite Ebi in ND. inversion ND as [|? ? N0 ND1]; subst. inversion ND1 as [|? ? N1 ND2]; subst. cbn [In] in N0. repeat split; auto. Qed.

Definition state_of (i p : string) : Prop := (i = b1 /\ p = mi) \/ exists j, nth_error ks j = Some Read /\ nth_error bi j = Some i /\ nth_error win j = Some p.
Lemma st_get i p : dict_get st i = Some p <-> state_of i p.
Proof.
  destruct NDb as (N01 & N0 & N1 & ND). destruct (state_vars_get ks win bi (dict_set [] b1 mi) Lw Lbi ND) as [A B]. unfold state_of.
  destruct (in_dec string_dec i bi) as [Ii|Ii].
  - assert (i <> b1) by congruence. apply In_nth_error in Ii. destruct Ii as (j & Ej).
    assert (Lj : j < length ks) by (rewrite <- Lbi; apply nth_error_Some; congruence).
    destruct (nth_error ks j) as [k|] eqn:Ek; [|apply nth_error_None in Ek; lia]. destruct (nth_error win j) as [x|] eqn:Ex; [|apply nth_error_None in Ex; lia].
    rewrite (B j k x i Ek Ex Ej). assert (N : dict_get (dict_set [] b1 mi) i = None) by (rewrite dict_get_set; destruct (String.eqb_spec b1 i); [congruence|reflexivity]).
    assert (U : forall j', nth_error bi j' = Some i -> j' = j).
    { intros j' E'. apply (NoDup_nth_error bi); auto; [|congruence]. apply nth_error_Some. congruence. }
    split.
    + intro E. destruct k; try congruence. right. exists j. split; auto. split; auto. congruence.
    + intros [[-> _]|(j' & E1 & E2 & E3)]; [congruence|]. rewrite (U j' E2) in *. rewrite Ek in E1. injection E1 as ->. congruence.
  - rewrite (A i Ii), dict_get_set. destruct (String.eqb_spec b1 i) as [->|N].
    + split; [intro E; injection E as <-; auto|]. intros [[_ ->]|(j & _ & E & _)]; [reflexivity|]. exfalso. apply Ii. now apply nth_error_In in E.
    + cbn. split; [discriminate|]. intros [[-> _]|(j & _ & E & _)]; [congruence|]. exfalso. apply Ii. now apply nth_error_In in E.
Qed.
Lemma state_outer i p : state_of i p -> In p outer.
Proof. intros [[_ ->]|(j & E1 & E2 & E3)]; [left; auto|]. right. apply in_of_kind. eauto. Qed.
Lemma state_param i p : state_of i p -> In i (b0 :: b1 :: not_lst ks bi).
Proof. intros [[-> _]|(j & E1 & E2 & E3)]; [right; left; auto|]. right. right. apply in_not_lst. exists j, Read. split; auto. split; [discriminate|auto]. Qed.
Lemma param_in i : In i (b0 :: b1 :: not_lst ks bi) -> In i (f_ins body).
Proof. rewrite Ebi. cbn [In]. intros [?|[?|K]]; auto. right. right. apply in_not_lst in K. destruct K as (j & k & _ & _ & E). now apply nth_error_In in E. Qed.
Lemma lst_param p : In p (of_kind Lst ks bi) -> In p (f_ins body) /\ ~ In p (b0 :: b1 :: not_lst ks bi) /\ forall q, ~ state_of p q.
Proof.
  intro Ip. destruct NDb as (N01 & N0 & N1 & ND). apply in_of_kind in Ip. destruct Ip as (j & Ej & Ep).
  assert (Ib : In p bi) by (now apply nth_error_In in Ep). rewrite Ebi. split; [cbn; auto|].
  assert (U : forall j', nth_error bi j' = Some p -> j' = j) by (intros j' E'; apply (NoDup_nth_error bi); auto; [apply nth_error_Some; congruence|congruence]).
  split.
  - cbn [In]. intros [->|[->|K]]; try contradiction. apply in_not_lst in K. destruct K as (j' & k & E1 & E2 & E3). rewrite (U _ E3) in E1. congruence.
  - intros q [[-> _]|(j' & E1 & E2 & E3)]; [contradiction|]. rewrite (U _ E2) in E1. congruence.
Qed.

(** ** what becomes of the nodes *)
Lemma not_param n : In n nodes -> ~ placeholder n -> forall o, In o (f_out n) -> ~ In o (f_ins body).
Proof.
  intros In_n NP o Io Ii. destruct (fn_param _ FB o Ii) as (m & Im & Pm & Om). apply NP. replace n with m; auto. apply (unique_output nodes m n o (fn_ssa _ FB)); auto. rewrite Om. left. auto.
Qed.
Lemma state_regular n : In n nodes -> ~ placeholder n -> state_node (b0 :: b1 :: not_lst ks bi) st n = n.
Proof.
  intros In_n NP. pose proof (not_param n In_n NP) as N. destruct n as [c1 c2 c3 c4 c5 c6 c7]. unfold state_node. destruct c6 as [|o os]; auto. destruct (mem o _) eqn:M; auto.
  exfalso. apply mem_in in M. apply (N o); [left; auto|]. now apply param_in.
Qed.
Lemma T_regular n : In n nodes -> ~ placeholder n -> f_op n <> "TensorListSetItem" -> T n = n.
Proof.
  intros In_n NP NS. unfold T. rewrite (state_regular n In_n NP). destruct n as [c1 c2 c3 c4 c5 c6 c7]. cbn [item_node f_op] in *. apply String.eqb_neq in NS. now rewrite NS.
Qed.
Lemma set_not_placeholder n : f_op n = "TensorListSetItem" -> ~ placeholder n.
Proof. intros E P. unfold placeholder in P. rewrite E in P. repeat (destruct P as [P|P]; [discriminate|]). destruct P. Qed.
Lemma T_set n : In n nodes -> f_op n = "TensorListSetItem" -> T n = FNode (f_name n) "Identity" (f_dom n) (f_attrs n) [nth 2 (f_in n) ""] (f_out n) (f_bodies n).
Proof.
  intros In_n E. unfold T. rewrite (state_regular n In_n (set_not_placeholder n E)). destruct n as [c1 c2 c3 c4 c5 c6 c7]. cbn [f_op] in E. subst c2. reflexivity.
Qed.
Lemma T_state n i p : In n nodes -> placeholder n -> f_out n = [i] -> state_of i p -> T n = FNode (f_name n) "Identity" (f_dom n) (f_attrs n) [p] [i] [].
Proof.
  intros In_n Pn Eo So. destruct (fn_placeholder _ FB n In_n Pn) as (_ & Eb & _). pose proof (state_param i p So) as M. apply st_get in So. destruct n as [c1 c2 c3 c4 c5 c6 c7].
  cbn [f_out f_bodies] in *. subst. unfold T, state_node. apply mem_in in M. rewrite M, So. reflexivity.
Qed.
Lemma T_param n : In n nodes -> placeholder n -> (forall i p, f_out n = [i] -> ~ state_of i p) -> T n = n.
Proof.
  intros In_n Pn NS. unfold T. assert (state_node (b0 :: b1 :: not_lst ks bi) st n = n) as ->.
  { destruct (fn_placeholder _ FB n In_n Pn) as (_ & _ & i & Eo & _). pose proof (fun p => NS i p Eo) as N. destruct n as [c1 c2 c3 c4 c5 c6 c7]. cbn [f_out] in Eo. subst. unfold state_node.
    destruct (mem i _); auto. destruct (dict_get st i) as [p|] eqn:G; auto. apply st_get in G. destruct (N p G). }
  destruct n as [c1 c2 c3 c4 c5 c6 c7]. unfold item_node. destruct (String.eqb_spec c2 "TensorListSetItem") as [->|]; auto. exfalso. exact (set_not_placeholder (FNode c1 "TensorListSetItem" c3 c4 c5 c6 c7) eq_refl Pn).
Qed.
Lemma T_cases n : In n nodes ->
  (~ placeholder n /\ f_op n <> "TensorListSetItem" /\ T n = n) \/
  (f_op n = "TensorListSetItem" /\ ~ placeholder n /\ T n = FNode (f_name n) "Identity" (f_dom n) (f_attrs n) [nth 2 (f_in n) ""] (f_out n) (f_bodies n)) \/
  (placeholder n /\ exists i p, f_out n = [i] /\ state_of i p /\ T n = FNode (f_name n) "Identity" (f_dom n) (f_attrs n) [p] [i] []) \/
  (placeholder n /\ f_in n = [] /\ f_bodies n = [] /\ (exists i, f_out n = [i] /\ In i (f_ins body) /\ forall p, ~ state_of i p) /\ T n = n).
Proof.
  intro In_n. destruct (is_graph_input n) eqn:P; [apply graph_input_iff in P; right; right|apply graph_input_false in P].
  - destruct (fn_placeholder _ FB n In_n P) as (Ei & Eb & i & Eo & Ii). destruct (dict_get st i) as [p|] eqn:G.
    + left. split; auto. apply st_get in G. exists i, p. split; auto. split; auto. exact (T_state n i p In_n P Eo G).
    + right. assert (N : forall p, ~ state_of i p) by (intros p K; apply st_get in K; congruence). split; auto. split; auto. split; auto. split; [eauto|].
      apply T_param; auto. intros i' p E. rewrite Eo in E. injection E as <-. apply N.
  - destruct (String.string_dec (f_op n) "TensorListSetItem") as [E|E]; [right; left; split; auto; split; auto; exact (T_set n In_n E)|left; split; auto; split; auto; exact (T_regular n In_n P E)].
Qed.
Lemma T_name n : In n nodes -> f_name (T n) = f_name n.
Proof. intro In_n. destruct (T_cases n In_n) as [(_ & _ & E)|[(_ & _ & E)|[(_ & i & p & _ & _ & E)|(_ & _ & _ & _ & E)]]]; rewrite E; reflexivity. Qed.
Lemma T_out n : In n nodes -> f_out (T n) = f_out n.
Proof. intro In_n. destruct (T_cases n In_n) as [(_ & _ & E)|[(_ & _ & E)|[(_ & i & p & Eo & _ & E)|(_ & _ & _ & _ & E)]]]; rewrite E; auto. Qed.

(** ** the writes *)
Notation lp := (of_kind Lst ks bi).
Notation lo := (of_kind Lst ks bo).
Lemma lists : Forall2 (fun po w => writes nodes (fst po) (snd po) w) (combine lp lo) ws.
Proof. pose proof (lb_lists _ _ _ _ _ _ HB) as H. rewrite Ebi, Ebo in H. exact H. Qed.
Lemma lists_params : map wr_param ws = lp /\ length lo = length ws.
Proof.
  pose proof lists as F. assert (L : length lp = length lo) by (apply of_kind_len; [exact Lbi|exact Lbo]). revert L F. generalize lp lo ws. clear. induction l as [|p l IH]; intros [|o l'] ws L F; try discriminate.
  - inversion F; subst. auto.
  - cbn [combine] in F. inversion F as [|? w ? ws' Hw F']; subst. destruct (IH l' ws' ltac:(cbn in L; lia) F') as [A B]. cbn [map length]. destruct Hw as [E _]. cbn [fst] in E. subst. split; congruence.
Qed.
Lemma write_of w : In w ws -> exists p o, In p lp /\ In o lo /\ writes nodes p o w.
Proof.
  intro Iw. pose proof lists as F. revert F Iw. generalize (combine lp lo) at 1 as l. intros l F.
  assert (G : forall l, Forall2 (fun po w => writes nodes (fst po) (snd po) w) l ws -> In w ws -> exists po, In po l /\ writes nodes (fst po) (snd po) w).
  { clear. intros l F. induction F as [|po w' l ws Hw F IH]; intro Iw; [destruct Iw|]. destruct Iw as [->|Iw]; [exists po; cbn; auto|]. destruct (IH Iw) as (q & Iq & Wq). exists q. cbn. auto. }
  intro Iw. destruct (G _ lists Iw) as ([p o] & Ipo & W). exists p, o. cbn [fst snd] in W. split; [now apply in_combine_l in Ipo|]. split; [now apply in_combine_r in Ipo|exact W].
Qed.
(** the node of a write *)
Lemma set_write n : In n nodes -> f_op n = "TensorListSetItem" -> exists w p o, In w ws /\ In p lp /\ In o lo /\ writes nodes p o w /\ f_in n = [wr_param w; wr_index w; wr_item w] /\ f_out n = [wr_out w] /\ f_bodies n = [].
Proof.
  intros In_n E. destruct (lb_all_lists _ _ _ _ _ _ HB n In_n E) as (w & Iw & Ei). destruct (write_of w Iw) as (p & o & Ip & Io & W). exists w, p, o. split; auto. split; auto. split; auto. split; auto. split; auto.
  destruct W as (Ep & m & Im & Om & Fm & Outm & Bm & U & _). assert (n = m) as ->; auto. apply U; auto. rewrite fv_node_eq, in_app_iff. left. rewrite Ei, Ep. left. auto.
Qed.
Lemma write_node w : In w ws -> exists n, In n nodes /\ f_op n = "TensorListSetItem" /\ f_in n = [wr_param w; wr_index w; wr_item w] /\ f_out n = [wr_out w] /\ f_bodies n = [].
Proof. intro Iw. destruct (write_of w Iw) as (p & o & Ip & Io & <- & n & H1 & H2 & H3 & H4 & H5 & _). eauto 8. Qed.
Lemma path_outputs ns t path o : list_path ns t path o -> In t (outputs_of ns) -> forall x, In x (t :: path) -> In x (outputs_of ns).
Proof.
  induction 1 as [t N|t t' path o n In_n Op Fi Fo Fb U P IH]; intros It x Ix.
  - destruct Ix as [<-|[]]. exact It.
  - destruct Ix as [<-|Ix]; auto. apply IH; auto. apply in_outputs_of. exists n. rewrite Fo. split; auto. left. auto.
Qed.
Lemma wr_names_outputs w x : In w ws -> In x (wr_names w) -> In x (outputs_of nodes).
Proof.
  intros Iw Ix. destruct (write_of w Iw) as (p & o & Ip & Io & <- & n & H1 & H2 & H3 & H4 & H5 & H6 & H7 & H8 & H9). destruct Ix as [<-|Ix].
  - destruct (lst_param _ Ip) as [Ii _]. destruct (fn_param _ FB _ Ii) as (m & Im & _ & Om). apply in_outputs_of. exists m. rewrite Om. split; auto. left. auto.
  - apply (path_outputs _ _ _ _ H9); auto. apply in_outputs_of. exists n. rewrite H4. split; auto. left. auto.
Qed.
(** the free names of a changed node *)
Lemma T_fv n t : In n nodes -> In t (outputs_of nodes) -> In t (fv_node (T n)) -> In t (fv_node n).
Proof.
  intros In_n It H. destruct (T_cases n In_n) as [(_ & _ & E)|[(E0 & _ & E)|[(_ & i & p & Eo & So & E)|(_ & _ & _ & _ & E)]]]; rewrite E in H; auto.
  - destruct (set_write n In_n E0) as (w & p & o & Iw & Ip & Io & W & Ei & Eo & Eb). rewrite fv_node_eq in *. cbn [f_in f_bodies] in H. rewrite Ei, Eb in *. cbn [nth map concat app In] in *. tauto.
  - rewrite fv_node_eq in H. cbn [f_in f_bodies map concat app In] in H. destruct H as [<-|[]]. exfalso. apply state_outer in So. destruct (lb_outer _ _ _ _ _ _ HB p So) as (_ & _ & N & _). contradiction.
Qed.
Notation ns2 := (map T nodes ++ [FNode cname "Placeholder" "" [] [] [cparam] []]).
Lemma reader_inv t m : In t (outputs_of nodes) -> In m (readers ns2 t) -> exists n, In n nodes /\ In t (fv_node n) /\ In m (readers_node t (T n)).
Proof.
  intros It Im. unfold readers in Im. rewrite map_app, concat_app, in_app_iff in Im. destruct Im as [Im|Im]; [|cbn in Im; destruct Im].
  apply in_concat in Im. destruct Im as (l & Il & Im). rewrite map_map in Il. apply in_map_iff in Il. destruct Il as (n & <- & In_n). exists n. split; auto. split; auto.
  apply T_fv; auto. apply (proj1 (readers_fv t) _ m Im). intros b Ib K.
  assert (Ib' : In b (f_bodies n)).
  { destruct (T_cases n In_n) as [(_ & _ & E)|[(_ & _ & E)|[(_ & i & p & _ & _ & E)|(_ & _ & _ & _ & E)]]]; rewrite E in Ib; auto. destruct Ib. }
  exact (fn_bodies _ FB n b t In_n Ib' K It).
Qed.
Lemma last_output_path order t path o : (forall l, Permutation (order l) l) -> list_path nodes t path o -> In t (outputs_of nodes) ->
  forall fuel l, last_output order ns2 fuel t = Some l -> l = o.
Proof.
  intros PO. induction 1 as [t N|t t' path o n In_n Op Fi Fo Fb U P IH]; intros It fuel l E; (destruct fuel as [|fuel]; [discriminate|]); cbn [last_output] in E.
  - destruct (order (readers ns2 t)) as [|m l0] eqn:R; [congruence|]. exfalso. assert (Im : In m (readers ns2 t)) by (apply (Permutation_in m (PO _)); rewrite R; left; auto).
    destruct (reader_inv t m It Im) as (n & In_n & Ft & _). exact (N n In_n Ft).
  - assert (NP : ~ placeholder n) by (unfold placeholder; rewrite Op; intro K; repeat (destruct K as [K|K]; [discriminate|]); destruct K).
    assert (Tn : T n = n) by (apply T_regular; auto; rewrite Op; discriminate).
    destruct (order (readers ns2 t)) as [|m l0] eqn:R.
    + exfalso. assert (In_r : In n (readers ns2 t)).
      { unfold readers. rewrite map_app, concat_app, in_app_iff. left. apply in_concat. exists (readers_node t n). split; [apply in_map_iff; exists n; split; auto; rewrite <- Tn; now apply in_map|].
        destruct n as [c1 c2 c3 c4 c5 c6 c7]. cbn [f_in f_bodies] in *. subst. cbn [readers_node mem existsb]. rewrite String.eqb_refl. left. auto. }
      apply (Permutation_in n (Permutation_sym (PO _))) in In_r. rewrite R in In_r. destruct In_r.
    + assert (Im : In m (readers ns2 t)) by (apply (Permutation_in m (PO _)); rewrite R; left; auto). destruct (reader_inv t m It Im) as (n' & In_n' & Ft & Im').
      rewrite (U n' In_n' Ft) in Im'. rewrite Tn in Im'. assert (m = n) as ->.
      { destruct n as [c1 c2 c3 c4 c5 c6 c7]. cbn [f_in f_bodies] in *. subst. cbn [readers_node mem existsb] in Im'. rewrite String.eqb_refl in Im'. cbn in Im'. destruct Im' as [<-|[]]. reflexivity. }
      rewrite Op, Fo in E. cbn in E. apply (IH ltac:(apply in_outputs_of; exists n; rewrite Fo; split; auto; left; auto) _ _ E).
Qed.
Lemma scans_spec order scan_outputs scans : (forall l, Permutation (order l) l) -> (forall x, In x scan_outputs -> exists w, In w ws /\ x = wr_out w) ->
  find_scans order ns2 scan_outputs (rev lo) = Some scans -> scans = rev (map wr_out ws).
Proof.
  intros PO HO E. unfold find_scans in E. destruct (all_some (map _ scan_outputs)) as [pairs|] eqn:Ep; [|discriminate]. cbn [obind] in E. apply all_some_spec in Ep, E.
  assert (K : forall l x, dict_get (rev pairs) l = Some x -> exists w p o, In w ws /\ writes nodes p o w /\ l = o /\ x = wr_out w).
  { intros l x G. unfold dict_get in G. destruct (find _ (rev pairs)) as [[l' x']|] eqn:F; [|discriminate]. cbn in G. injection G as ->. apply find_some in F. destruct F as [F1 F2]. cbn [fst] in F2. apply String.eqb_eq in F2. subst l'.
    apply in_rev in F1. assert (Q : In (Some (l, x)) (map Some pairs)) by (now apply in_map). rewrite <- Ep in Q. apply in_map_iff in Q. destruct Q as (y & Q & Iy).
    destruct (last_output order ns2 _ y) as [l'|] eqn:Lo; [|discriminate]. cbn [obind] in Q. destruct (mem l' _); [|discriminate]. injection Q as -> ->.
    destruct (HO x Iy) as (w & Iw & ->). destruct (write_of w Iw) as (p & o & Ip & Io & W). exists w, p, o. split; auto. split; auto. split; auto.
    pose proof W as W'. destruct W' as (<- & n & H1 & H2 & H3 & H4 & H5 & H6 & H7 & H8 & H9). eapply last_output_path; eauto. apply (wr_names_outputs w); auto. right. left. auto. }
  rewrite map_rev in E. assert (E' : map (dict_get (rev pairs)) lo = map Some (rev scans)) by (rewrite map_rev, <- E, rev_involutive; reflexivity). clear E.
  rewrite <- (rev_involutive scans). f_equal. pose proof (lb_distinct _ _ _ _ _ _ HB) as ND.
  assert (G : forall l ps os, length ps = length os -> Forall2 (fun po w => writes nodes (fst po) (snd po) w) (combine ps os) l -> incl l ws ->
    forall sc, map (dict_get (rev pairs)) os = map Some sc -> sc = map wr_out l).
  { clear E'. induction l as [|w l IH]; intros ps os L F Sub sc E.
    - destruct ps, os; try discriminate; [|inversion F]. destruct sc; [reflexivity|discriminate].
    - destruct ps as [|p ps], os as [|o os]; try discriminate; [inversion F|]. cbn [combine] in F. inversion F as [|? ? ? ? Hw F']; subst. cbn [fst snd] in Hw. destruct sc as [|x sc]; [discriminate|]. cbn [map] in *.
      injection E as E1 E2. f_equal; [|apply (IH ps os); auto; intros y Iy; apply Sub; right; auto].
      destruct (K o x E1) as (w' & p' & o' & Iw' & W' & -> & ->). f_equal. destruct Hw as (_ & n & _ & _ & _ & _ & _ & _ & _ & _ & P1). destruct W' as (_ & n' & _ & _ & _ & _ & _ & _ & _ & _ & P2).
      apply path_names in P1, P2. apply (NoDup_concat_inj wr_names ws ND w' w o'); auto; [apply Sub; left; auto|right; exact P2|right; exact P1]. }
  apply (G ws lp lo); auto; [apply of_kind_len; [exact Lbi|exact Lbo]|exact lists|intros x Ix; exact Ix].
Qed.
Lemma func_inputs_eq : func_inputs body' cname st = b0 :: cparam :: of_kind Var ks bi.
Proof.
  unfold func_inputs. cbn [f_ins skipn]. f_equal. f_equal. destruct NDb as (N01 & N0 & N1 & ND).
  assert (G : forall i x k, nth_error ks i = Some k -> nth_error bi i = Some x -> match dict_get st x with Some _ => false | None => true end = negb (kind_eqb k Read)).
  { intros i x k Ek Ex. destruct (dict_get st x) as [p|] eqn:D.
    - apply st_get in D. destruct D as [[-> _]|(j & E1 & E2 & E3)]; [exfalso; apply N1; now apply nth_error_In in Ex|]. assert (j = i) as -> by (apply (NoDup_nth_error bi); auto; [apply nth_error_Some; congruence|congruence]).
      rewrite Ek in E1. injection E1 as ->. reflexivity.
    - destruct k; auto. assert (Li : i < length win) by (rewrite Lw; apply nth_error_Some; congruence). destruct (nth_error win i) as [p|] eqn:Ep; [|apply nth_error_None in Ep; lia].
      assert (S : state_of x p) by (right; eauto). apply st_get in S. congruence. }
  generalize Lbi G. generalize st as d. intro d. clear. generalize ks as ks'. induction bi as [|x l IH]; intros [|k ks'] L G; try discriminate; [reflexivity|].
  rewrite not_lst_cons, of_kind_cons. specialize (IH ks' ltac:(cbn in L; lia) (fun i => G (S i))). pose proof (G 0 x k eq_refl eq_refl) as G0. destruct k; cbn [kind_eqb] in *; auto; cbn [filter]; rewrite G0; cbn [negb]; auto.
  f_equal. exact IH.
Qed.
Lemma wired_structure order cstate cond' wired : (forall l, Permutation (order l) l) -> wire_while_body order body' st cstate cond' cname (rev lo) = Some wired ->
  exists binding cns couts c, parameter_binding cond' (b0 :: of_kind Var ks bo) cstate = Some binding /\ prefix_graph "cond__" (bind_inputs binding cond') (f_outs cond') = Some (cns, couts) /\
    hd_error couts = Some c /\ f_ins wired = b0 :: cparam :: of_kind Var ks bi /\ f_outs wired = c :: of_kind Var ks bo ++ rev (map wr_out ws) /\
    forall m, ~ placeholder m -> (In m (f_nodes wired) <-> (exists n, In n nodes /\ m = T n) \/ In m cns).
Proof.
  intros PO E. unfold wire_while_body in E. cbn [f_ins f_nodes f_outs] in E. rewrite func_inputs_eq in E.
  set (ns := map (state_node (b0 :: b1 :: not_lst ks bi) st) nodes ++ [FNode cname "Placeholder" "" [] [] [cparam] []]) in *.
  assert (En : map item_node ns = ns2) by (unfold ns; rewrite map_app, map_map; reflexivity). rewrite En in E.
  assert (Sets : forall n, In n (filter is_set_item ns) -> In n nodes /\ f_op n = "TensorListSetItem").
  { intros n I. apply filter_In in I. destruct I as [I Q]. unfold is_set_item in Q. apply String.eqb_eq in Q. split; auto. unfold ns in I. rewrite in_app_iff in I. destruct I as [I|[<-|[]]]; [|discriminate].
    apply in_map_iff in I. destruct I as (n0 & E0 & I0). destruct (is_graph_input n0) eqn:P; [|apply graph_input_false in P; rewrite (state_regular n0 I0 P) in E0; subst; auto].
    exfalso. apply graph_input_iff in P. destruct (T_cases n0 I0) as [(N & _)|[(_ & N & _)|[(_ & i & p & _ & S & ET)|(_ & _ & _ & _ & ET)]]]; try contradiction.
    - unfold T in ET. rewrite E0 in ET. destruct n as [c1 c2 c3 c4 c5 c6 c7]. cbn [f_op] in Q. subst c2. cbn [item_node] in ET. rewrite String.eqb_refl in ET. destruct (fn_placeholder _ FB n0 I0 P) as (Ei0 & Eb0 & i0 & Eo0 & _).
      destruct n0 as [d1 d2 d3 d4 d5 d6 d7]. cbn [f_out f_in f_bodies] in *. subst d6 d5 d7. cbn [state_node] in E0. destruct (mem i0 _); [destruct (dict_get st i0); [discriminate|]|]; injection E0; intros; subst; (eapply set_not_placeholder; [|exact P]); reflexivity.
    - unfold T in ET. rewrite E0 in ET. destruct n as [c1 c2 c3 c4 c5 c6 c7]. cbn [f_op] in Q. subst c2. cbn [item_node] in ET. rewrite String.eqb_refl in ET.
      destruct (fn_placeholder _ FB n0 I0 P) as (Ei0 & _). rewrite <- ET in Ei0. discriminate. }
  destruct (existsb _ (filter is_set_item ns)); [discriminate|]. destruct (Nat.eqb _ _); [|discriminate].
  destruct (find_scans order ns2 _ (rev lo)) as [scans|] eqn:Es; [|discriminate]. cbn [obind] in E. apply scans_spec in Es; auto.
  2: { intros x Ix. apply in_map_iff in Ix. destruct Ix as (n & <- & I). apply Sets in I. destruct I as [I1 I2]. destruct (set_write n I1 I2) as (w & p & o & Iw & _ & _ & _ & _ & Eo & _). exists w. split; auto. rewrite Eo. reflexivity. }
  subst scans. destruct (remove_feeds _ _ _ ns2) as [ns3|] eqn:Er; [|discriminate]. cbn [obind] in E.
  assert (ND2 : NoDup (map f_name ns2)).
  { rewrite map_app, map_map. rewrite (map_ext_in _ f_name) by (intros n I; exact (T_name n I)). apply NoDup_app_intro; [exact (fn_names _ FB)|repeat constructor; intros []|]. intros x Ix [<-|[]]. exact (lb_cname _ _ _ _ _ _ HB Ix). }
  apply remove_feeds_spec in Er; [|exact ND2|].
  2: { intros t n It I Ot. apply in_map_iff in It. destruct It as (s & <- & Is). apply Sets in Is. destruct Is as [Is1 Is2]. destruct (set_write s Is1 Is2) as (w & p & o & Iw & Ip & _ & W & Ei & _). rewrite Ei in Ot. cbn [hd] in Ot.
       destruct W as [Ew _]. rewrite Ew in Ot. destruct (lst_param p Ip) as (L1 & L2 & L3). destruct (fn_param _ FB p L1) as (m & Im & Pm & Om).
       rewrite in_app_iff in I. destruct I as [I|[<-|[]]].
       - apply in_map_iff in I. destruct I as (n0 & <- & I0). rewrite (T_out n0 I0) in Ot. assert (n0 = m) as -> by (apply (unique_output nodes n0 m p (fn_ssa _ FB)); auto; rewrite Om; left; auto).
         rewrite (T_param m Im Pm) by (intros i q Eq; rewrite Om in Eq; injection Eq as <-; apply L3). split; auto. now apply (fn_placeholder _ FB m).
       - cbn. split; auto; left; auto. }
  destruct Er as [R1 R2]. cbn [firstn skipn app] in E. destruct (parameter_binding cond' _ cstate) as [binding|] eqn:Eb; [|discriminate]. cbn [obind] in E. unfold inline_subgraph in E.
  destruct (prefix_graph "cond__" _ _) as [[cns couts]|] eqn:Ep; [|discriminate]. cbn [obind] in E. destruct (hd_error couts) as [c|] eqn:Ec; [|discriminate]. cbn [obind f_nodes] in E. injection E as <-.
  exists binding, cns, couts, c. split; auto. split; auto. split; auto. split; auto. split; auto. cbn [f_nodes]. intros m NPm. rewrite in_app_iff. split.
  - intros [I|I]; auto. apply R1 in I. rewrite in_app_iff in I. destruct I as [I|[<-|[]]]; [|exfalso; apply NPm; left; auto]. apply in_map_iff in I. destruct I as (n & <- & I). left. eauto.
  - intros [(n & I & ->)|I]; auto. left. apply R2; auto. rewrite in_app_iff. left. apply in_map_iff. eauto.
Qed.
End Body.
