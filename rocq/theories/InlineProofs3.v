(** Proofs about inlining: a function and its renamed copy have the same meaning. *)
From Coq Require Import String List Bool NArith Lia.
From Verif Require Import FGraph FGraphProofs FGraphSpec IdentityProofs InlineModel InlineSpec InlineProofs InlineProofs2.
Import ListNotations.
Local Open Scope string_scope.
Local Open Scope list_scope.

Lemma graph_input_iff n : is_graph_input n = true <-> placeholder n.
Proof. apply mem_in. Qed.
Lemma graph_input_false n : is_graph_input n = false <-> ~ placeholder n.
Proof. apply mem_false. Qed.
Lemma bound_iff binding i p : bound binding i = Some p <-> binds binding i p.
Proof.
  unfold bound, dict_get. induction binding as [|[j q] l IH]; cbn [find fst option_map].
  - split; [discriminate|]. inversion 1.
  - destruct (String.eqb_spec j i) as [->|N]; cbn [option_map snd].
    + destruct (String.eqb_spec q ""); [|destruct (String.eqb_spec q "@@ALLOC")]; cbn [orb]; split; intro H; try discriminate; try (inversion H; subst; congruence).
      injection H as <-. now constructor.
    + rewrite IH. split; intro H; [constructor; congruence|]. inversion H; subst; congruence.
Qed.
Lemma unique_output l n m o : NoDup (outputs_of l) -> In n l -> In m l -> In o (f_out n) -> In o (f_out m) -> n = m.
Proof.
  unfold outputs_of. induction l as [|a l IH]; cbn [map concat In]; intros ND In1 In2 O1 O2; [contradiction|]. apply NoDup_app_inv in ND. destruct ND as (_ & ND & D).
  destruct In1 as [->|In1], In2 as [->|In2]; auto.
  - exfalso. apply (D o O1). apply in_concat_map. eauto.
  - exfalso. apply (D o O2). apply in_concat_map. eauto.
Qed.
Lemma outputs_of_app l l' : outputs_of (l ++ l') = outputs_of l ++ outputs_of l'.
Proof. unfold outputs_of. now rewrite map_app, concat_app. Qed.
Lemma in_outputs_of o l : In o (outputs_of l) <-> exists n, In n l /\ In o (f_out n).
Proof. apply in_concat_map. Qed.

Lemma bind_node_outs binding ins n : outputs_of (bind_node binding ins n) = f_out n \/ outputs_of (bind_node binding ins n) = [].
Proof.
  unfold bind_node. destruct n as [b1 b2 b3 b4 b5 b6 b7]. cbn [f_out]. unfold outputs_of. destruct b6 as [|o os]; cbn [map concat f_out app]; auto.
  destruct (mem o ins); [|left; cbn [map concat f_out]; now rewrite app_nil_r]. destruct (bound binding o); [left; cbn [map concat f_out]; now rewrite app_nil_r|right; reflexivity].
Qed.
Lemma bind_outs_incl binding ins l o : In o (outputs_of (flat_map (bind_node binding ins) l)) -> In o (outputs_of l).
Proof.
  induction l as [|n l IH]; cbn [flat_map]; [auto|]. change (n :: l) with ([n] ++ l). rewrite !outputs_of_app, !in_app_iff. intros [H|H]; auto.
  left. unfold outputs_of at 1. cbn [map concat]. rewrite app_nil_r. destruct (bind_node_outs binding ins n) as [E|E]; rewrite E in H; [exact H|destruct H].
Qed.
Lemma bind_outs_nodup binding ins l : NoDup (outputs_of l) -> NoDup (outputs_of (flat_map (bind_node binding ins) l)).
Proof.
  induction l as [|n l IH]; intro ND; [constructor|]. cbn [flat_map]. rewrite outputs_of_app. change (n :: l) with ([n] ++ l) in ND. rewrite outputs_of_app in ND.
  apply NoDup_app_inv in ND. destruct ND as (N1 & N2 & D). assert (EO : outputs_of [n] = f_out n) by (unfold outputs_of; cbn [map concat]; apply app_nil_r). rewrite EO in N1, D.
  destruct (bind_node_outs binding ins n) as [E|E]; rewrite E; [|exact (IH N2)]. apply NoDup_app_intro; auto. intros x I K. apply (D x I). eapply bind_outs_incl; eauto.
Qed.
Lemma map_combine_eq {A B} (f : A -> B) : forall l l', length l' = length l -> (forall x y, In (x, y) (combine l l') -> f x = y) -> map f l = l'.
Proof. induction l as [|a l IH]; intros [|b l'] L H; cbn in *; try discriminate; auto. f_equal; auto. Qed.
Lemma in_scope_nonempty scope t : scope <> "" -> in_scope scope t -> t <> "".
Proof. intros N (s & ->). destruct scope; [congruence|discriminate]. Qed.

Lemma bind_node_one binding ins n : (exists m, bind_node binding ins n = [m]) \/ bind_node binding ins n = [].
Proof. unfold bind_node. destruct (f_out n); eauto. destruct (mem _ _); eauto. destruct (bound _ _); eauto. Qed.

Lemma concat_single {A C} (f : A -> C) l : concat (map (fun x => [f x]) l) = map f l.
Proof. induction l; cbn; congruence. Qed.

Section Inline.
Variable scope : string.
Variable binding : list (string * string).
Variable g : fgraph.
Hypothesis I : inlinable scope binding g.
Variables (news : list fnode) (outs : list string).
Hypothesis E : prefix_graph scope (bind_inputs binding g) (f_outs g) = Some (news, outs).
Notation B := (bind_node binding (f_ins g)).
Notation ops := (flat_map B (f_nodes g)).
Notation sg := (sigma scope ops).

Lemma flat_split l : forall k1 m k2, flat_map B l = k1 ++ m :: k2 -> exists l1 n l2, l = l1 ++ n :: l2 /\ k1 = flat_map B l1 /\ k2 = flat_map B l2 /\ B n = [m].
Proof.
  induction l as [|a l IH]; intros k1 m k2 Q; cbn [flat_map] in Q; [destruct k1; discriminate|]. destruct (bind_node_one binding (f_ins g) a) as [(b & Eb)|Eb]; rewrite Eb in Q; cbn [app] in Q.
  - destruct k1 as [|x k1]; cbn [app] in Q; injection Q as Q1 Q2.
    + subst. exists [], a, l. auto.
    + destruct (IH _ _ _ Q2) as (l1 & n & l2 & -> & -> & -> & EB). exists (a :: l1), n, l2. cbn [flat_map app]. rewrite Eb. cbn [app]. subst. auto.
  - destruct (IH _ _ _ Q) as (l1 & n & l2 & -> & -> & -> & EB). exists (a :: l1), n, l2. cbn [flat_map app]. rewrite Eb. auto.
Qed.
Lemma regular_node n : In n (f_nodes g) -> ~ placeholder n -> B n = [n].
Proof.
  intros In_n NP. unfold bind_node. destruct (f_out n) as [|o os] eqn:Eo; auto. destruct (mem o (f_ins g)) eqn:M; auto. exfalso. apply mem_in in M.
  destruct (i_param _ _ _ I o M) as (m & Im & Pm & Om). apply NP. replace n with m; auto. apply (unique_output (f_nodes g) m n o (i_ssa _ _ _ I)); auto; [rewrite Om|rewrite Eo]; left; auto.
Qed.
Lemma param_node n i : In n (f_nodes g) -> f_out n = [i] -> In i (f_ins g) ->
  B n = match bound binding i with Some p => [FNode (f_name n) "Identity" (f_dom n) (f_attrs n) [p] [i] (f_bodies n)] | None => [] end.
Proof. intros In_n Eo Ii. unfold bind_node. rewrite Eo. apply mem_in in Ii. now rewrite Ii. Qed.
Lemma node_cases n : In n (f_nodes g) -> (placeholder n /\ f_bodies n = [] /\ exists i, f_out n = [i] /\ In i (f_ins g)) \/ ~ placeholder n.
Proof.
  intro In_n. destruct (is_graph_input n) eqn:P; [left|right; now apply graph_input_false]. apply graph_input_iff in P. split; auto. now apply (i_placeholder _ _ _ I).
Qed.
Lemma op_inv m : In m ops -> exists l1 n l2, f_nodes g = l1 ++ n :: l2 /\ ops = flat_map B l1 ++ m :: flat_map B l2 /\
  ((~ placeholder n /\ m = n) \/ exists i p, f_out n = [i] /\ In i (f_ins g) /\ binds binding i p /\ m = FNode (f_name n) "Identity" (f_dom n) (f_attrs n) [p] [i] []).
Proof.
  intro Im. apply in_flat_map in Im. destruct Im as (n & In_n & Im). destruct (in_split _ _ In_n) as (l1 & l2 & El). exists l1, n, l2. split; auto.
  assert (EB : B n = [m] /\ ((~ placeholder n /\ m = n) \/ exists i p, f_out n = [i] /\ In i (f_ins g) /\ binds binding i p /\ m = FNode (f_name n) "Identity" (f_dom n) (f_attrs n) [p] [i] [])).
  { destruct (node_cases n In_n) as [(P & Eb & i & Eo & Ii)|NP].
    - rewrite (param_node n i In_n Eo Ii) in Im |- *. destruct (bound binding i) as [p|] eqn:Eb'; [|destruct Im]. destruct Im as [<-|[]]. split; auto. right. exists i, p. rewrite Eb.
      apply bound_iff in Eb'. auto.
    - rewrite (regular_node n In_n NP) in Im |- *. destruct Im as [<-|[]]. auto. }
  destruct EB as [EB H]. split; auto. rewrite El, flat_map_app. cbn [flat_map]. now rewrite EB.
Qed.
Lemma op_regular l1 n l2 : f_nodes g = l1 ++ n :: l2 -> ~ placeholder n -> ops = flat_map B l1 ++ n :: flat_map B l2.
Proof. intros El NP. rewrite El, flat_map_app. cbn [flat_map]. rewrite regular_node; auto. rewrite El, in_app_iff. right. left. auto. Qed.
Lemma op_param l1 n l2 i p : f_nodes g = l1 ++ n :: l2 -> placeholder n -> f_out n = [i] -> In i (f_ins g) -> binds binding i p ->
  ops = flat_map B l1 ++ FNode (f_name n) "Identity" (f_dom n) (f_attrs n) [p] [i] [] :: flat_map B l2.
Proof.
  intros El P Eo Ii Bi. assert (In_n : In n (f_nodes g)) by (rewrite El, in_app_iff; right; left; auto). rewrite El at 1. rewrite flat_map_app. cbn [flat_map].
  rewrite (param_node n i In_n Eo Ii). apply bound_iff in Bi. rewrite Bi. destruct (i_placeholder _ _ _ I n In_n P) as [-> _]. reflexivity.
Qed.
Lemma ops_no_input m : In m ops -> is_graph_input m = false.
Proof. intro Im. destruct (op_inv m Im) as (l1 & n & l2 & _ & _ & [[NP ->]|(i & p & _ & _ & _ & ->)]); [now apply graph_input_false|reflexivity]. Qed.

Lemma loop_facts : news = copies scope [] ops /\ outs = fold_left (fun l p => replace_first (fst p) (snd p) l) sg (f_outs g) /\
  (forall v, In v (map snd sg) -> ~ In v (map fst sg)) /\ NoDup (map snd sg) /\ NoDup (map (new_name scope) ops).
Proof.
  unfold prefix_graph in E. change (bind_inputs binding g) with ops in E. destruct (prefix_loop _ _ _ _ _) as [st|] eqn:El; [|discriminate]. injection E as <- <-.
  assert (Id : ops = map (substs_node []) ops) by (symmetry; transitivity (map (fun x : fnode => x) ops); [reflexivity|apply map_id]).
  rewrite Id in El at 4. apply loop_spec in El; [|exact ops_no_input]. destruct El as (E1 & E2 & E3 & E4 & E5 & E6). rewrite E1, E2, E3. split; auto. split; auto.
  split; [|split].
  - intros v Iv K. rewrite sigma_keys in K. rewrite sigma_vals in Iv. destruct (E4 v Iv) as [H _]. exact (H K).
  - rewrite sigma_vals. apply NoDup_snoc_concat; [apply new_outs_nodup|exact E5].
  - assert (K : concat (map (fun x => [new_name scope x]) ops) = map (new_name scope) ops) by (apply concat_single).
    rewrite <- K. apply NoDup_snoc_concat; [intro; repeat constructor; intros []|]. intros l1 n l2 El o [<-|[]] K'. apply (E6 l1 n l2 El). rewrite !in_app_iff. right. right.
    apply in_concat_map in K'. destruct K' as (m & Im & [<-|[]]). now apply in_map.
Qed.
Lemma keys_nodup : NoDup (map fst sg).
Proof. rewrite sigma_keys. apply bind_outs_nodup. exact (i_ssa _ _ _ I). Qed.
Lemma key_nonempty k : In k (map fst sg) -> k <> "".
Proof. rewrite sigma_keys. intros H ->. apply bind_outs_incl in H. exact (i_named _ _ _ I H). Qed.
Lemma val_scope v : In v (map snd sg) -> in_scope scope v.
Proof.
  rewrite sigma_vals. intro H. apply in_concat_map in H. destruct H as (n & _ & H). apply (new_in_scope scope n); auto. exact (i_scope _ _ _ I).
Qed.
Lemma vals_disjoint v : In v (map snd sg) -> ~ In v (map fst sg). Proof. apply loop_facts. Qed.
Lemma apps_pair a b : In (a, b) sg -> apps sg a = b.
Proof. apply apps_key; [exact keys_nodup|exact vals_disjoint]. Qed.
Lemma apps_outs m : In m ops -> map (apps sg) (f_out m) = new_outs scope m.
Proof.
  intro Im. apply map_combine_eq; [apply new_outs_length|]. intros x y H. apply apps_pair. apply in_flat_map. exists m. split; auto.
Qed.
Lemma apps_split l1 m l2 t : ops = l1 ++ m :: l2 -> ~ In t (outputs_of (m :: l2)) -> apps (sigma scope l1) t = apps sg t.
Proof.
  intros El N. pose proof keys_nodup as ND. pose proof vals_disjoint as D. rewrite El, sigma_app in *. rewrite apps_app.
  destruct (in_dec string_dec t (map fst (sigma scope l1))) as [K|K].
  - apply in_map_iff in K. destruct K as ([a b] & <- & K). cbn [fst]. rewrite map_app in ND. apply NoDup_app_inv in ND. destruct ND as (N1 & _ & _).
    rewrite (apps_key (sigma scope l1) a b); auto.
    + symmetry. apply apps_fresh. intro K'. apply (D b); [rewrite map_app, in_app_iff; left; apply in_map_iff; exists (a, b); auto|]. rewrite map_app, in_app_iff. auto.
    + intros v Iv K'. apply (D v); rewrite map_app, in_app_iff; auto.
  - rewrite (apps_fresh _ t K). symmetry. apply apps_fresh. now rewrite sigma_keys.
Qed.
Lemma results : outs = map (apps sg) (f_outs g).
Proof.
  destruct loop_facts as (_ & EO & _ & NV & _). rewrite EO. apply replace_all_map; auto; [exact (i_results _ _ _ I)|]. intros v Iv K.
  destruct (i_result _ _ _ I v K) as [O Ob]. apply (vals_disjoint v Iv). rewrite sigma_keys. apply in_outputs_of in O. destruct O as (n & In_n & On).
  destruct (in_split _ _ In_n) as (l1 & l2 & El). apply in_outputs_of. destruct (node_cases n In_n) as [(P & _ & i & Eo & Ii)|NP].
  - rewrite Eo in On. destruct On as [<-|[]]. destruct (Ob Ii) as (p & Bp). rewrite (op_param l1 n l2 i p El P Eo Ii Bp).
    eexists. split; [rewrite in_app_iff; right; left; reflexivity|left; reflexivity].
  - exists n. split; auto. rewrite (op_regular l1 n l2 El NP), in_app_iff. right. left. auto.
Qed.
(** which names are renamed *)
Lemma key_iff t : In t (map fst sg) <-> (exists n, In n (f_nodes g) /\ ~ placeholder n /\ In t (f_out n)) \/ (In t (f_ins g) /\ exists p, binds binding t p).
Proof.
  rewrite sigma_keys, in_outputs_of. split.
  - intros (m & Im & Om). destruct (op_inv m Im) as (l1 & n & l2 & El & _ & [[NP ->]|(i & p & Eo & Ii & Bi & ->)]).
    + left. exists n. split; auto. rewrite El, in_app_iff. right. left. auto.
    + destruct Om as [<-|[]]. eauto.
  - intros [(n & In_n & NP & On)|(It & p & Bp)].
    + destruct (in_split _ _ In_n) as (l1 & l2 & El). exists n. split; auto. rewrite (op_regular l1 n l2 El NP), in_app_iff. right. left. auto.
    + destruct (i_param _ _ _ I t It) as (n & In_n & P & Eo). destruct (in_split _ _ In_n) as (l1 & l2 & El).
      rewrite (op_param l1 n l2 t p El P Eo It Bp). eexists. split; [rewrite in_app_iff; right; left; reflexivity|left; reflexivity].
Qed.
Lemma copy_regular n : In n (f_nodes g) -> ~ placeholder n ->
  In (FNode (new_name scope n) (f_op n) "" (f_attrs n) (map (apps sg) (f_in n)) (map (apps sg) (f_out n)) (map (substs sg) (f_bodies n))) news.
Proof.
  intros In_n NP. destruct loop_facts as (EN & _). rewrite EN. destruct (in_split _ _ In_n) as (l1 & l2 & El). pose proof (op_regular l1 n l2 El NP) as Eo.
  apply copies_in. exists (flat_map B l1), n, (flat_map B l2). split; auto. unfold copy. cbn [app]. f_equal.
  - apply map_ext_in. intros t It. symmetry. apply (apps_split _ n (flat_map B l2)); auto. intro K. apply (i_order _ _ _ I l1 n l2 t El NP It).
    change (n :: l2) with ([n] ++ l2). change (n :: flat_map B l2) with ([n] ++ flat_map B l2) in K. rewrite outputs_of_app, in_app_iff in *. destruct K as [K|K]; auto.
    right. eapply bind_outs_incl; eauto.
  - rewrite apps_outs; auto. rewrite Eo, in_app_iff. right. left. auto.
Qed.
Lemma copy_param i p : In i (f_ins g) -> binds binding i p ->
  exists nm at_, In (FNode nm "Identity" "" at_ [p] [apps sg i] []) news.
Proof.
  intros Ii Bi. destruct loop_facts as (EN & _). rewrite EN. destruct (i_param _ _ _ I i Ii) as (n & In_n & P & Eo). destruct (in_split _ _ In_n) as (l1 & l2 & El).
  pose proof (op_param l1 n l2 i p El P Eo Ii Bi) as Ep. set (m := FNode (f_name n) "Identity" (f_dom n) (f_attrs n) [p] [i] []) in *.
  exists (new_name scope m), (f_attrs n). apply copies_in. exists (flat_map B l1), m, (flat_map B l2). split; auto. unfold copy. cbn [app]. f_equal.
  - cbn [m f_in map]. f_equal. symmetry. apply apps_fresh. rewrite sigma_keys. intro K. apply bind_outs_incl in K. exact (i_target _ _ _ I l1 n l2 i p El Eo Ii Bi K).
  - rewrite <- apps_outs; [reflexivity|]. rewrite Ep, in_app_iff. right. left. auto.
Qed.
Lemma copy_inv c : In c news ->
  (exists n, In n (f_nodes g) /\ ~ placeholder n /\
     c = FNode (new_name scope n) (f_op n) "" (f_attrs n) (map (apps sg) (f_in n)) (map (apps sg) (f_out n)) (map (substs sg) (f_bodies n))) \/
  (exists nm at_ i p, In i (f_ins g) /\ binds binding i p /\ c = FNode nm "Identity" "" at_ [p] [apps sg i] []).
Proof.
  intro Ic. destruct loop_facts as (EN & _). rewrite EN in Ic. apply copies_in in Ic. destruct Ic as (k1 & m & k2 & Ek & ->). cbn [app].
  destruct (flat_split (f_nodes g) k1 m k2 Ek) as (l1 & n & l2 & El & -> & -> & EB).
  assert (Im : In m ops) by (rewrite Ek, in_app_iff; right; left; auto).
  assert (In_n : In n (f_nodes g)) by (rewrite El, in_app_iff; right; left; auto).
  destruct (node_cases n In_n) as [(P & Eb & i & Eo & Ii)|NP].
  - rewrite (param_node n i In_n Eo Ii) in EB. destruct (bound binding i) as [p|] eqn:Bi; [|discriminate]. injection EB as <-. rewrite Eb in *. apply bound_iff in Bi.
    right. eexists _, _, i, p. split; auto. split; auto. unfold copy. cbn [f_in f_out f_bodies map]. f_equal.
    + f_equal. apply apps_fresh. rewrite sigma_keys. intro K. apply bind_outs_incl in K. exact (i_target _ _ _ I l1 n l2 i p El Eo Ii Bi K).
    + symmetry. apply (apps_outs _ Im).
  - rewrite (regular_node n In_n NP) in EB. injection EB as <-. left. exists n. split; auto. split; auto. unfold copy. f_equal; [|symmetry; now apply apps_outs].
    apply map_ext_in. intros t It. apply (apps_split _ n (flat_map B l2)); auto. intro K. apply (i_order _ _ _ I l1 n l2 t El NP It).
    change (n :: l2) with ([n] ++ l2). change (n :: flat_map B l2) with ([n] ++ flat_map B l2) in K. rewrite outputs_of_app, in_app_iff in *. destruct K as [K|K]; auto.
    right. eapply bind_outs_incl; eauto.
Qed.
End Inline.
