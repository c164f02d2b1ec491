(** Proofs about inlining: runs of the copy and of the function. *)
From Coq Require Import String List Bool NArith Lia.
From Verif Require Import FGraph FGraphProofs FGraphSpec IdentityProofs InlineModel InlineSpec InlineProofs InlineProofs2 InlineProofs3.
Import ListNotations.
Local Open Scope string_scope.
Local Open Scope list_scope.

Lemma in_equations g n : In n (f_nodes (equations g)) <-> In n (f_nodes g) /\ ~ placeholder n.
Proof. unfold equations. cbn [f_nodes]. rewrite filter_In, negb_true_iff. change (mem (f_op n) _) with (is_graph_input n). now rewrite graph_input_false. Qed.
Definition param_value {V} (ins : list string) (args : list V) (t : string) : option V :=
  option_map snd (find (fun p => String.eqb (fst p) t) (combine ins args)).
Lemma param_value_out {V} ins : forall (args : list V) t, ~ In t ins -> param_value ins args t = None.
Proof.
  unfold param_value. induction ins as [|i ins IH]; intros [|a args] t N; try reflexivity. cbn [combine find fst]. destruct (String.eqb_spec i t) as [->|]; [exfalso; apply N; left; auto|].
  apply IH. intro. apply N. now right.
Qed.
Lemma param_value_map {V} (f : string -> V) ins : forall args, NoDup ins -> length args = length ins ->
  map (fun t => match param_value ins args t with Some a => a | None => f t end) ins = args.
Proof.
  unfold param_value. induction ins as [|i ins IH]; intros [|a args] ND L; try discriminate; [reflexivity|]. inversion ND as [|? ? N ND']; subst. cbn [combine map find fst].
  rewrite String.eqb_refl. cbn [option_map snd]. f_equal. etransitivity; [|apply (IH args ND'); auto]. apply map_ext_in. intros t It. destruct (String.eqb_spec i t) as [->|]; [contradiction|reflexivity].
Qed.
Lemma param_value_in {V} (P : string -> V -> Prop) ins : forall args, Forall2 P ins args -> forall t, In t ins -> exists a, param_value ins args t = Some a /\ P t a.
Proof.
  unfold param_value. induction 1 as [|i a ins args Pa F IH]; intros t It; [destruct It|]. cbn [combine find fst]. destruct (String.eqb_spec i t) as [->|N]; [exists a; auto|].
  destruct It as [->|It]; [congruence|auto].
Qed.
Lemma Forall2_len {A B} (P : A -> B -> Prop) l l' : Forall2 P l l' -> length l' = length l.
Proof. induction 1; cbn; congruence. Qed.

Section Inline.
Variable V : Type.
Variable op_rel : string -> string -> list (string * attr) -> nat -> list V -> list (list V -> list V -> Prop) -> list V -> Prop.
Hypothesis ext : op_ext op_rel.
Hypothesis ident : identity_meaning op_rel.
Notation holds := (holds op_rel). Notation body_rel := (body_rel op_rel). Notation all_hold := (all_hold op_rel).
Variable scope : string.
Variable binding : list (string * string).
Variable g : fgraph.
Hypothesis I : inlinable scope binding g.
Variables (news : list fnode) (outs : list string).
Hypothesis E : prefix_graph scope (bind_inputs binding g) (f_outs g) = Some (news, outs).
Notation B := (bind_node binding (f_ins g)).
Notation ops := (flat_map B (f_nodes g)).
Notation sg := (sigma scope ops).

Lemma holds_id (r : env V) nm at_ p o : p <> "" -> o <> "" -> holds r (FNode nm "Identity" "" at_ [p] [o] []) <-> r o = r p.
Proof. intros N1 N2. apply (holds_identity V op_rel ident). repeat split; auto. Qed.
Lemma binds_nonempty l i p : binds l i p -> p <> "".
Proof. induction 1; auto. Qed.
Lemma val_of_key t : In t (map fst sg) -> In (apps sg t) (map snd sg).
Proof.
  intro K. apply in_map_iff in K. destruct K as ([a b] & <- & K). cbn [fst]. rewrite (apps_pair scope binding g I news outs E a b K). apply in_map_iff. exists (a, b). auto.
Qed.
Lemma apps_nonempty t : In t (map fst sg) -> apps sg t <> "".
Proof. intro K. apply (in_scope_nonempty scope); [exact (i_scope _ _ _ I)|]. apply (val_scope scope binding g I). now apply val_of_key. Qed.
Lemma regular_key n o : In n (f_nodes g) -> ~ placeholder n -> In o (f_out n) -> In o (map fst sg).
Proof. intros In_n NP On. apply (key_iff scope binding g I). left. eauto. Qed.

Lemma holds_copy_node (r : env V) n nm : In n (f_nodes g) -> ~ placeholder n ->
  holds r (FNode nm (f_op n) "" (f_attrs n) (map (apps sg) (f_in n)) (map (apps sg) (f_out n)) (map (substs sg) (f_bodies n))) <->
  holds (fun t => r (apps sg t)) n.
Proof.
  intros In_n NP. pose proof (i_domain _ _ _ I n In_n NP) as Dn. pose proof (fun o => regular_key n o In_n NP) as RK.
  pose proof (i_bodies _ _ _ I n) as IB. pose proof (i_fresh_body _ _ _ I n) as IF. destruct n as [b1 b2 b3 b4 b5 b6 b7]. cbn [f_dom f_op f_attrs f_in f_out f_bodies] in *. subst b3.
  apply (holds_copy V op_rel ext); auto.
  - intros b Ib. destruct (IB b In_n Ib) as [C Hd]. split; auto. intros x y K.
    assert (Kx : In x (map fst sg)) by (apply in_map_iff; exists (x, y); auto). assert (Ky : In y (map snd sg)) by (apply in_map_iff; exists (x, y); auto).
    split; [|split; [|split]].
    + intros ->. exact (vals_disjoint scope binding g I news outs E y Ky Kx).
    + apply (key_nonempty scope binding g I x Kx).
    + intro K'. apply (Hd x K'). rewrite sigma_keys in Kx. eapply bind_outs_incl; eauto.
    + intro K'. apply (IF b y In_n Ib K'). now apply (val_scope scope binding g I).
  - intros o Io. apply (key_nonempty scope binding g I). auto.
  - intros o Io. apply in_map_iff in Io. destruct Io as (x & <- & Ix). apply apps_nonempty. auto.
Qed.

(** names read by the function that are not parameters without a tensor *)
Definition live (t : string) : Prop := In t (f_ins g) -> exists p, binds binding t p.
Lemma binds_dec i : (exists p, binds binding i p) \/ (forall p, ~ binds binding i p).
Proof. destruct (bound binding i) as [p|] eqn:Eb; [left; exists p; now apply bound_iff|right]. intros p K. apply bound_iff in K. congruence. Qed.
Lemma read_live n t : In n (f_nodes g) -> In t (fv_node n) -> live t.
Proof. intros In_n It Ii. destruct (binds_dec t) as [H|H]; auto. exfalso. exact (i_unbound _ _ _ I t n Ii H In_n It). Qed.
Lemma written_live n t : In n (f_nodes g) -> ~ placeholder n -> In t (f_out n) -> ~ In t (f_ins g).
Proof.
  intros In_n NP Ot Ii. destruct (i_param _ _ _ I t Ii) as (m & Im & Pm & Om). apply NP. replace n with m; auto.
  apply (unique_output (f_nodes g) m n t (i_ssa _ _ _ I)); auto. rewrite Om. left. auto.
Qed.
Lemma defs_equations t : In t (defs (equations g)) <-> In t (f_ins g) \/ exists n, In n (f_nodes g) /\ ~ placeholder n /\ In t (f_out n).
Proof.
  rewrite in_defs. split.
  - intros [N [H|(n & In_n & Ot)]]; [left; exact H|]. right. apply in_equations in In_n. destruct In_n. eauto.
  - intros [H|(n & In_n & NP & Ot)].
    + split; [|left; exact H]. intros ->. destruct (i_param _ _ _ I "" H) as (m & Im & _ & Om). apply (i_named _ _ _ I). apply in_outputs_of. exists m. rewrite Om. split; auto. left. auto.
    + split; [intros ->; apply (i_named _ _ _ I); apply in_outputs_of; eauto|]. right. exists n. split; auto. now apply in_equations.
Qed.
Lemma key_live t : live t -> In t (map fst sg) <-> In t (defs (equations g)).
Proof. intro L. rewrite (key_iff scope binding g I), defs_equations. unfold live in L. tauto. Qed.

Lemma sound (r : env V) args : all_hold r news -> arguments r binding (f_ins g) args -> body_rel r (equations g) args (map r outs).
Proof.
  intros H A. apply body_rel_eq. set (r' := fun t => match param_value (f_ins g) args t with Some a => a | None => r (apps sg t) end).
  assert (Lr : forall t, live t -> r' t = r (apps sg t)).
  { intros t L. unfold r'. destruct (in_dec string_dec t (f_ins g)) as [It|It]; [|now rewrite param_value_out]. destruct (param_value_in _ _ _ A t It) as (a & -> & Pa).
    destruct (L It) as (p & Bp). rewrite (Pa p Bp). destruct (copy_param scope binding g I news outs E t p It Bp) as (nm & at_ & Ic). apply H in Ic.
    apply holds_id in Ic; [congruence|now apply (binds_nonempty binding t)|]. apply apps_nonempty. apply (key_iff scope binding g I). right. eauto. }
  exists r'. split; [|split; [|split]].
  - intros t Nt. assert (L : live t) by (intro K; exfalso; apply Nt; apply defs_equations; auto). rewrite (Lr t L). f_equal. apply apps_fresh. now rewrite (key_live t L).
  - apply param_value_map; [exact (i_params _ _ _ I)|]. now apply Forall2_len in A.
  - intros n In_n. apply in_equations in In_n. destruct In_n as [In_n NP]. pose proof (H _ (copy_regular scope binding g I news outs E n In_n NP)) as Hc.
    apply (holds_copy_node r n _ In_n NP) in Hc. eapply (holds_agree V op_rel ext); [| |exact Hc].
    + intros t It. symmetry. apply Lr. now apply (read_live n).
    + intros t It _. symmetry. apply Lr. intro K. exfalso. exact (written_live n t In_n NP It K).
  - cbn [f_outs equations]. rewrite (results scope binding g I news outs E), map_map. apply map_ext_in. intros t It. apply Lr. intro Ii. now apply (i_result _ _ _ I t It).
Qed.

Lemma complete (r : env V) args res : arguments r binding (f_ins g) args -> body_rel r (equations g) args res ->
  exists r2 : env V, (forall t, ~ In t (outputs_of news) -> r2 t = r t) /\ all_hold r2 news /\ map r2 outs = res.
Proof.
  intros A H. apply body_rel_eq in H. destruct H as (r' & H1 & H2 & H3 & H4).
  destruct (loop_facts scope binding g I news outs E) as (EN & _ & _ & NV & _).
  set (r2 := fun t => match find (fun p => String.eqb (snd p) t) sg with Some (o, _) => r' o | None => r t end).
  assert (R1 : forall a b, In (a, b) sg -> r2 b = r' a).
  { intros a b K. unfold r2. assert (G : forall l, NoDup (map snd l) -> In (a, b) l -> find (fun p : string * string => String.eqb (snd p) b) l = Some (a, b)).
    { induction l as [|[x y] l IH]; intros ND Q; [destruct Q|]. destruct Q as [Q|Q]; cbn [find snd].
      - injection Q as -> ->. now rewrite String.eqb_refl.
      - cbn [map snd] in ND. inversion ND as [|? ? N ND']; subst. destruct (String.eqb_spec y b) as [->|]; auto. exfalso. apply N. apply in_map_iff. exists (a, b). auto. }
    now rewrite (G sg NV K). }
  assert (R2 : forall t, ~ In t (map snd sg) -> r2 t = r t).
  { intros t N. unfold r2. destruct (find _ sg) as [[o y]|] eqn:F; auto. exfalso. apply find_some in F. destruct F as [F1 F2]. cbn [snd] in F2. apply String.eqb_eq in F2. subst y.
    apply N. apply in_map_iff. exists (o, t). auto. }
  assert (Lr : forall t, live t -> ~ in_scope scope t \/ In t (map fst sg) -> r2 (apps sg t) = r' t).
  { intros t L S. destruct (in_dec string_dec t (map fst sg)) as [K|K].
    - apply in_map_iff in K. destruct K as ([a b] & <- & K). cbn [fst]. rewrite (apps_pair scope binding g I news outs E a b K). auto.
    - rewrite (apps_fresh _ _ K). rewrite R2, H1; auto.
      + now rewrite <- (key_live t L).
      + intro K'. destruct S as [S|S]; [|contradiction]. apply S. now apply (val_scope scope binding g I). }
  assert (Par : forall i p, In i (f_ins g) -> binds binding i p -> r' i = r p).
  { intros i p Ii Bp. assert (PV : forall l args, map r' l = args -> forall i, In i l -> param_value l args i = Some (r' i)).
    { unfold param_value. induction l as [|x l IH]; intros args' <- j Ij; [destruct Ij|]. cbn [map combine find fst].
      destruct (String.eqb_spec x j) as [->|N]; [reflexivity|]. destruct Ij as [->|Ij]; [congruence|]. now apply IH. }
    destruct (param_value_in _ _ _ A i Ii) as (a & Ea & Pa). rewrite (PV (f_ins g) args H2 i Ii) in Ea. injection Ea as ->. auto. }
  exists r2. split; [|split].
  - intros t N. apply R2. rewrite sigma_vals. rewrite EN, copies_outs in N. exact N.
  - intros c Ic. destruct (copy_inv scope binding g I news outs E c Ic) as [(n & In_n & NP & ->)|(nm & at_ & i & p & Ii & Bp & ->)].
    + apply (holds_copy_node r2 n _ In_n NP). eapply (holds_agree V op_rel ext); [| |apply H3; apply in_equations; split; [exact In_n|exact NP]].
      * intros t It. symmetry. apply Lr; [now apply (read_live n)|]. left. exact (i_fresh_read _ _ _ I n t In_n It).
      * intros t It _. symmetry. apply Lr; [intro K; exfalso; exact (written_live n t In_n NP It K)|]. right. now apply (regular_key n).
    + assert (K : In i (map fst sg)) by (apply (key_iff scope binding g I); right; eauto).
      apply holds_id; [now apply (binds_nonempty binding i)|now apply apps_nonempty|]. rewrite Lr; [|intros _; eauto|auto]. rewrite R2; [now apply Par|].
      intro K'. apply (i_fresh_target _ _ _ I i p Bp). now apply (val_scope scope binding g I).
  - rewrite (results scope binding g I news outs E), map_map, <- H4. apply map_ext_in. intros t It. destruct (i_result _ _ _ I t It) as [O L]. apply Lr; [exact L|]. right.
    apply (key_iff scope binding g I). apply in_outputs_of in O. destruct O as (n & In_n & On). destruct (node_cases scope binding g I n In_n) as [(P & _ & i & Eo & Ii)|NP]; [|left; eauto].
    rewrite Eo in On. destruct On as [<-|[]]. right. auto.
Qed.
Lemma new_names t : In t (outputs_of news) -> in_scope scope t.
Proof.
  destruct (loop_facts scope binding g I news outs E) as (EN & _). rewrite EN, copies_outs, <- sigma_vals. apply (val_scope scope binding g I).
Qed.
Lemma new_ssa : NoDup (outputs_of news).
Proof. destruct (loop_facts scope binding g I news outs E) as (EN & _ & _ & NV & _). now rewrite EN, copies_outs, <- sigma_vals. Qed.
Lemma new_node_names : NoDup (map f_name news).
Proof.
  destruct (loop_facts scope binding g I news outs E) as (EN & _ & _ & _ & NN). rewrite EN. replace (map f_name (copies scope [] ops)) with (map (new_name scope) ops); auto.
  generalize (@nil (string * string)) as s. generalize ops as l. induction l as [|n l IH]; intro s; [reflexivity|]. cbn [copies map]. f_equal. auto.
Qed.
End Inline.
