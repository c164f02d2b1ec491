(** Writing a graph as a GraphProto keeps its meaning. *)
From Coq Require Import String List Bool ZArith Arith Lia.
From Verif Require Import FGraph FGraphProofs FGraphSpec MakeSpec MakeModel.
Import ListNotations.
Local Open Scope string_scope.
Local Open Scope list_scope.

Lemma sequence_some {A} (l : list (option A)) xs : sequence l = Some xs <-> l = map Some xs.
Proof.
  revert xs. induction l as [|[x|] l IH]; intros xs; cbn; [split; [intro E; injection E as <-; auto|destruct xs; [auto|discriminate]]| |split; [discriminate|destruct xs; discriminate]].
  destruct (sequence l) as [ys|]; split.
  - intro E. injection E as <-. cbn. f_equal. now apply IH.
  - destruct xs as [|y ys']; [discriminate|]. intro E. injection E as <- E. apply IH in E. congruence.
  - discriminate.
  - destruct xs as [|y ys']; [discriminate|]. intro E. injection E as <- E. apply IH in E. congruence.
Qed.
Lemma sequence_in {A B} (f : A -> option B) l xs : sequence (map f l) = Some xs -> forall x, In x xs <-> exists a, In a l /\ f a = Some x.
Proof.
  intros E x. apply sequence_some in E. split.
  - intro I. assert (J : In (Some x) (map f l)) by (rewrite E; now apply in_map). apply in_map_iff in J. destruct J as (a & Ea & Ia). eauto.
  - intros (a & Ia & Ea). assert (J : In (Some x) (map Some xs)) by (rewrite <- E, <- Ea; now apply in_map). apply in_map_iff in J. destruct J as (y & Ey & Iy). congruence.
Qed.
Lemma is_input_iff n : is_input n = true <-> input_node n.
Proof. unfold is_input, input_node. rewrite mem_in. cbn. intuition. Qed.
Lemma is_const_iff n : is_const n = true <-> const_node n.
Proof. unfold is_const, const_node. rewrite mem_in. cbn. intuition. Qed.
Lemma const_not_input n : const_node n -> ~ input_node n.
Proof. unfold const_node, input_node. intros [E|E] [F|[F|F]]; rewrite E in F; discriminate. Qed.
Lemma no_input_iff n : no_input n = true <-> ~ input_node n.
Proof. unfold no_input. rewrite negb_true_iff. fold (is_input n). rewrite <- is_input_iff. destruct (is_input n); split; congruence. Qed.
Lemma strip_op n : f_op (strip_node n) = f_op n. Proof. destruct n; reflexivity. Qed.
Lemma strip_in n : f_in (strip_node n) = f_in n. Proof. destruct n; reflexivity. Qed.
Lemma strip_out n : f_out (strip_node n) = f_out n. Proof. destruct n; reflexivity. Qed.
Lemma strip_attrs n : f_attrs (strip_node n) = f_attrs n. Proof. destruct n; reflexivity. Qed.
Lemma strip_bodies n : f_bodies (strip_node n) = map strip (f_bodies n). Proof. destruct n; reflexivity. Qed.
Lemma strip_dom n : f_dom (strip_node n) = f_dom n. Proof. destruct n; reflexivity. Qed.
Lemma no_input_strip n : no_input (strip_node n) = no_input n. Proof. destruct n; reflexivity. Qed.
Lemma strip_nodes g : f_nodes (strip g) = filter no_input (map strip_node (f_nodes g)). Proof. destruct g; reflexivity. Qed.
Lemma in_strip g m : In m (f_nodes (strip g)) <-> exists n, In n (f_nodes g) /\ ~ input_node n /\ m = strip_node n.
Proof.
  rewrite strip_nodes, filter_In, in_map_iff. split.
  - intros [(n & <- & I) H]. rewrite no_input_strip in H. apply no_input_iff in H. eauto.
  - intros (n & I & H & ->). split; [eauto|]. rewrite no_input_strip. now apply no_input_iff.
Qed.

Section Make.
Context {V : Type} (op_rel : string -> string -> list (string * attr) -> nat -> list V -> list (list V -> list V -> Prop) -> list V -> Prop) (tensor : attr -> V).
Context (ext : op_ext op_rel) (cm : constant_meaning op_rel tensor) (opset : nat).
Notation env := (string -> V).

Fixpoint make_ops (ns : list fnode) : option (list pnode) :=
  match ns with
  | [] => Some []
  | n :: ns' => if is_const n || is_input n then make_ops ns'
                else match make_node opset n, make_ops ns' with Some p, Some l => Some (p :: l) | _, _ => None end
  end.
Lemma make_graph_eq ns gi go p : make_graph opset (FGraph ns gi go) = Some p ->
  exists ops inputs dss consts, make_ops ns = Some ops /\ all_inputs ns gi = Some inputs /\ sequence (map (default_of ns) inputs) = Some dss /\
    sequence (map const_init (filter (fun n => is_const n && negb (existsb (fun o => mem o (map snd (concat dss))) (f_out n))) ns)) = Some consts /\
    p = PGraph ops (inputs ++ if Nat.ltb opset 9 then map fst consts else []) (map fst (concat dss) ++ consts) go.
Proof.
  cbn [make_graph]. intro E. change ((fix ops (ns0 : list fnode) : option (list pnode) := match ns0 with [] => Some [] | n :: ns' => if is_const n || is_input n then ops ns' else match make_node opset n with Some p0 => match ops ns' with Some l => Some (p0 :: l) | None => None end | None => None end end) ns) with (make_ops ns) in E.
  destruct (make_ops ns) as [ops|]; [|discriminate]. destruct (all_inputs ns gi) as [inputs|]; [|discriminate]. destruct (sequence (map (default_of ns) inputs)) as [dss|] eqn:Ed; [|discriminate].
  destruct (sequence (map const_init _)) as [consts|] eqn:Ec; [|discriminate]. injection E as <-. exists ops, inputs, dss, consts. auto.
Qed.
Lemma make_ops_in ns : forall ops, make_ops ns = Some ops -> forall p, In p ops <-> exists n, In n ns /\ ~ const_node n /\ ~ input_node n /\ make_node opset n = Some p.
Proof.
  induction ns as [|n ns IH]; intros ops E p; cbn [make_ops] in E; [injection E as <-; split; [intros []|intros (n & [] & _)]|].
  destruct (is_const n || is_input n) eqn:K.
  - rewrite (IH ops E p). split; intros (m & I & H); [exists m; split; [right; auto|auto]|]. destruct I as [<-|I]; [|eauto]. exfalso. destruct H as (H1 & H2 & _). rewrite <- is_const_iff in H1. rewrite <- is_input_iff in H2. apply orb_true_iff in K. tauto.
  - destruct (make_node opset n) as [q|] eqn:En; [|discriminate]. destruct (make_ops ns) as [l|]; [|discriminate]. injection E as <-. cbn [In]. rewrite (IH l eq_refl p). split.
    + intros [<-|(m & I & H)]; [|exists m; split; [right; auto|auto]]. exists n. apply orb_false_iff in K. destruct K as [K1 K2]. repeat split; auto; [rewrite <- is_const_iff|rewrite <- is_input_iff]; congruence.
    + intros (m & [<-|I] & H); [left; destruct H as (_ & _ & H); congruence|right; eauto].
Qed.
Lemma make_ops_has ns : forall ops, make_ops ns = Some ops -> forall n, In n ns -> ~ const_node n -> ~ input_node n -> exists q, make_node opset n = Some q /\ In q ops.
Proof.
  induction ns as [|k l IHl]; intros ops E1 n In_n NC NI; [destruct In_n|]. cbn [make_ops] in E1. destruct In_n as [->|I].
  - assert (K : is_const n || is_input n = false). { apply orb_false_iff. split; [destruct (is_const n) eqn:X; auto; apply is_const_iff in X; contradiction|destruct (is_input n) eqn:X; auto; apply is_input_iff in X; contradiction]. }
    rewrite K in E1. destruct (make_node opset n) as [q|]; [|discriminate]. destruct (make_ops l); [|discriminate]. injection E1 as <-. exists q. split; [auto|left; auto].
  - destruct (is_const k || is_input k); [eauto|]. destruct (make_node opset k) as [q|]; [|discriminate]. destruct (make_ops l) as [l'|]; [|discriminate]. injection E1 as <-. destruct (IHl l' eq_refl n I NC NI) as (q' & A & B). exists q'. split; [auto|right; auto].
Qed.
Lemma make_out n p : make_node opset n = Some p -> p_out p = f_out n.
Proof. destruct n as [b1 b2 b3 b4 b5 b6 b7]. cbn. destruct (sequence _); [|discriminate]. intro E. injection E as <-. reflexivity. Qed.

(** ** Constants *)
Lemma value_attr_ok n a : In ("value", a) (f_attrs n) -> (forall b, In ("value", b) (f_attrs n) -> b = a) -> value_attr n = Some a.
Proof.
  unfold value_attr. generalize (f_attrs n). intros l I U. destruct (find (fun p => String.eqb (fst p) "value") l) as [[k v]|] eqn:E.
  - apply find_some in E. cbn [fst] in E. destruct E as [E1 E2]. apply String.eqb_eq in E2. subst k. cbn. f_equal. now apply U.
  - exfalso. pose proof (find_none _ _ E _ I) as H. cbn in H. discriminate.
Qed.
Lemma const_holds (r : env) g n : writable_graph g -> In n (f_nodes g) -> const_node n ->
  exists o a, f_out n = [o] /\ o <> "" /\ value_attr n = Some a /\ const_init n = Some (o, a) /\ (holds op_rel r (strip_node n) <-> r o = tensor a).
Proof.
  intros W I C. destruct (wg_named g W n I (or_intror C)) as (o & Eo & No & Eb). destruct (wg_const g W n I C) as (Ei & a & Ia & Ua). pose proof (value_attr_ok n a Ia Ua) as Va. exists o, a. split; [exact Eo|]. split; [exact No|]. split; [exact Va|]. split; [unfold const_init, out0; rewrite Eo, Va; reflexivity|].
  rewrite holds_eq, strip_op, strip_dom, strip_attrs, strip_out, strip_in, strip_bodies, Eb, Ei, Eo. cbn [map length]. split.
  - intros (vs & H & P). apply (cm _ _ _ a) in H; auto. subst vs. specialize (P 0 o eq_refl No). cbn in P. congruence.
  - intro E. exists [tensor a]. split; [apply (cm _ _ _ a); auto|]. intros [|[|k]] x Ek Ex; try discriminate. injection Ek as <-. cbn. congruence.
Qed.

(** ** Body graphs *)
Definition body_ok (b : fgraph) : Prop := forall h, within b h -> writable_graph h /\ forall m, In m (f_nodes h) -> input_node m -> f_op m <> "PlaceholderWithDefault" /\ forall o, In o (f_out m) -> In o (f_ins h).
Lemma p_holds_eq r nm op dom at_ ins outs bodies : p_holds op_rel tensor r (PNode nm op dom at_ ins outs bodies) <->
  exists vs, op_rel op dom at_ (length outs) (map r ins) (map (p_body op_rel tensor r) bodies) vs /\ produces r outs vs.
Proof. reflexivity. Qed.
Lemma p_body_eq r g args res : p_body op_rel tensor r g args res <->
  exists r' : env, (forall t, ~ In t (nonempty (p_ins g ++ map fst (p_inits g) ++ concat (map p_out (p_nodes g)))) -> r' t = r t) /\
    map r' (filter (fun i => negb (mem i (map fst (p_inits g)))) (p_ins g)) = args /\ (forall x a, In (x, a) (p_inits g) -> r' x = tensor a) /\
    (forall n, In n (p_nodes g) -> p_holds op_rel tensor r' n) /\ map r' (p_outs g) = res.
Proof.
  destruct g as [ns gi ini go]. cbn [p_body p_ins p_inits p_nodes p_outs].
  assert (K : forall (r' : env) l, (fix all (ns : list pnode) : Prop := match ns with [] => True | n :: ns' => p_holds op_rel tensor r' n /\ all ns' end) l <-> forall n, In n l -> p_holds op_rel tensor r' n).
  { intros r' l. induction l as [|n l IH]; [split; [intros _ n []|auto]|]. rewrite IH. cbn [In]. split; [intros [A B] m [->|Hm]; auto|intro A; split; auto]. }
  split; intros (r' & A & B & C & D & E); exists r'; (split; [exact A|split; [exact B|split; [exact C|split; [apply K; exact D|exact E]]]]).
Qed.
(** the inputs of a graph whose inputs are listed *)
Lemma all_inputs_in ns gi inputs : all_inputs ns gi = Some inputs -> forall i, In i inputs <-> In i gi \/ exists n, In n ns /\ input_node n /\ out0 n = Some i.
Proof.
  unfold all_inputs. destruct (sequence _) as [l|] eqn:E; [|discriminate]. intro H. injection H as <-. intro i. pose proof (sequence_in _ _ _ E i) as S0. rewrite in_app_iff, filter_In, S0. split.
  - intros [I|[(n & I & Eo) _]]; [auto|right]. apply filter_In in I. destruct I as [I P]. apply is_input_iff in P. eauto.
  - intros [I|(n & I & P & Eo)]; [auto|]. destruct (mem i gi) eqn:M; [left; now apply mem_in|right]. split; [|auto]. exists n. split; [|auto]. apply filter_In. split; auto. now apply is_input_iff.
Qed.
Lemma all_inputs_body ns gi inputs : all_inputs ns gi = Some inputs -> (forall m, In m ns -> input_node m -> forall o, In o (f_out m) -> In o gi) -> inputs = gi.
Proof.
  unfold all_inputs. destruct (sequence _) as [l|] eqn:E; [|discriminate]. intros H K. injection H as <-. pose proof (sequence_in _ _ _ E) as S0.
  assert (forall o, In o l -> In o gi). { intros o I. apply S0 in I. destruct I as (n & I & Eo). apply filter_In in I. destruct I as [I P]. apply is_input_iff in P. apply (K n I P). unfold out0 in Eo. destruct (f_out n); [discriminate|]. injection Eo as <-. left; auto. }
  clear - H. induction l as [|o l IH]; cbn; [now rewrite app_nil_r|]. rewrite (proj2 (mem_in o gi)) by (apply H; left; auto). cbn. apply IH. intros x I. apply H. right; auto.
Qed.
Lemma unique_producer g n m o : writable_graph g -> In n (f_nodes g) -> In m (f_nodes g) -> In o (f_out n) -> In o (f_out m) -> n = m.
Proof.
  intros W. pose proof (wg_ssa g W) as ND. revert ND. generalize (f_nodes g). intros l ND. induction l as [|k l IH]; intros I1 I2 O1 O2; [destruct I1|]. cbn [map concat] in ND. 
  assert (X : NoDup (concat (map f_out l)) /\ forall x, In x (f_out k) -> ~ In x (concat (map f_out l))).
  { clear - ND. induction (f_out k) as [|y ys IH]; [split; [exact ND|intros x []]|]. cbn in ND. inversion ND as [|? ? N ND']; subst. destruct (IH ND') as [A B]. split; auto. intros x [<-|I]; [intro J; apply N; apply in_app_iff; auto|auto]. }
  destruct X as [ND' DJ]. destruct I1 as [->|I1], I2 as [->|I2]; auto; exfalso; [apply (DJ o O1)|apply (DJ o O2)]; apply in_concat_map; eauto.
Qed.
Lemma produced_ok g n o : writable_graph g -> In n (f_nodes g) -> In o (f_out n) -> produced_by (f_nodes g) o = Some n.
Proof.
  intros W I O. unfold produced_by. destruct (find (fun m => mem o (f_out m)) (f_nodes g)) as [m|] eqn:E.
  - apply find_some in E. destruct E as [E1 E2]. f_equal. apply (unique_producer g m n o); auto. now apply mem_in.
  - exfalso. pose proof (find_none _ _ E _ I) as H. cbn in H. apply mem_false in H. auto.
Qed.

Lemma default_body g inputs dss : writable_graph g -> (forall m, In m (f_nodes g) -> input_node m -> f_op m <> "PlaceholderWithDefault") -> (forall i, In i inputs -> In i (f_ins g)) ->
  sequence (map (default_of (f_nodes g)) inputs) = Some dss -> concat dss = [].
Proof.
  intros W ND Sub E. pose proof (sequence_in _ _ _ E) as S0. assert (H : forall x, In x dss -> x = []).
  { intros x I. apply S0 in I. destruct I as (i & Ii & Ei). apply Sub in Ii. destruct (wg_ins g W i Ii) as (n & In_n & P & Eo). unfold default_of in Ei. rewrite (produced_ok g n i W In_n) in Ei by (rewrite Eo; left; auto).
    destruct (String.eqb_spec (f_op n) "PlaceholderWithDefault") as [Eq|_]; [exfalso; exact (ND n In_n P Eq)|]. congruence. }
  clear - H. induction dss as [|x l IH]; [reflexivity|]. cbn. rewrite (H x) by (left; auto). cbn. apply IH. intros y I. apply H. right; auto.
Qed.
(** the initializers of constants *)
Lemma const_inits g drop consts : writable_graph g -> sequence (map const_init (filter (fun n => is_const n && negb (drop n)) (f_nodes g))) = Some consts ->
  forall o a, In (o, a) consts <-> exists n, In n (f_nodes g) /\ const_node n /\ drop n = false /\ f_out n = [o] /\ value_attr n = Some a.
Proof.
  intros W E o a. rewrite (sequence_in _ _ _ E). split.
  - intros (n & I & C). apply filter_In in I. destruct I as [I K]. apply andb_true_iff in K. destruct K as [K1 K2]. apply is_const_iff in K1. apply negb_true_iff in K2. exists n. split; [exact I|]. split; [exact K1|]. split; [exact K2|]. destruct (wg_named g W n I (or_intror K1)) as (o' & Eo & _ & _). unfold const_init, out0 in C. rewrite Eo in *. cbn in C. destruct (value_attr n); [|discriminate]. injection C as <- <-. auto.
  - intros (n & I & C & D & Eo & Ea). exists n. split; [apply filter_In; split; auto; rewrite D, andb_true_r; now apply is_const_iff|]. unfold const_init, out0. now rewrite Eo, Ea.
Qed.
Lemma make_ind :
  (forall n, (forall b, In b (f_bodies n) -> body_ok b) -> forall p, make_node opset n = Some p -> forall r, holds op_rel r (strip_node n) <-> p_holds op_rel tensor r p) /\
  (forall g, body_ok g -> forall p, make_graph opset g = Some p -> forall r args res, body_rel op_rel r (strip g) args res <-> p_body op_rel tensor r p args res).
Proof.
  apply fnode_fgraph_ind.
  - intros nm op dom at_ ins outs bodies IH OK p E r. cbn [make_node] in E. destruct (sequence (map (make_graph opset) bodies)) as [pbs|] eqn:Es; [|discriminate]. injection E as <-. cbn [strip_node f_bodies] in *.
    apply sequence_some in Es.
    assert (K : Forall2 (fun b b' : list V -> list V -> Prop => forall a s, b a s <-> b' a s) (map (body_rel op_rel r) (map strip bodies)) (map (p_body op_rel tensor r) pbs)).
    { clear - IH OK Es. revert pbs Es. induction bodies as [|b bs IHb]; intros [|pb pbs] Es; try discriminate; cbn [map]; constructor.
      - injection Es as E1 E2. intros a s. apply IH; auto; [left; auto|apply OK; left; auto].
      - injection Es as E1 E2. apply IHb; auto; [intros x I; apply IH; right; auto|intros x I; apply OK; right; auto]. }
    rewrite holds_eq, p_holds_eq. cbn [f_op f_dom f_attrs f_in f_out f_bodies]. split; intros (vs & A & B); exists vs; (split; [|exact B]); (eapply ext; [|exact A]); [exact K|].
    clear - K. induction K; constructor; auto. intros a s. symmetry. auto.
  - intros ns gi go IH OK p E r args res. destruct (OK _ (within_refl _)) as [W PL]. destruct (make_graph_eq _ _ _ _ E) as (ops & inputs & dss & consts & E1 & E2 & E3 & E4 & ->).
    assert (Ei : inputs = gi) by (apply (all_inputs_body ns gi inputs E2); intros m I P o O; exact (proj2 (PL m I P) o O)). subst inputs.
    assert (Ed : concat dss = []) by (apply (default_body (FGraph ns gi go) gi dss W); auto; intros m I P; exact (proj1 (PL m I P))). rewrite Ed in *. cbn [map app] in *.
    assert (CI : forall o a, In (o, a) consts <-> exists n, In n ns /\ const_node n /\ f_out n = [o] /\ value_attr n = Some a).
    { intros o a. rewrite (const_inits (FGraph ns gi go) (fun n => existsb (fun o => mem o []) (f_out n)) consts W E4). split; intros (n & I & C & H); exists n; (split; [auto|split; [auto|]]); [tauto|]. split; auto. clear. induction (f_out n); auto. }
    assert (NG : forall i, In i gi -> ~ In i (map fst consts)).
    { intros i I J. apply in_map_iff in J. destruct J as ([o a] & <- & J). cbn [fst] in I. apply CI in J. destruct J as (n & In_n & C & Eo & _). destruct (wg_ins _ W o I) as (m & Im & P & Em). cbn [f_nodes] in *. assert (n = m) by (apply (unique_producer (FGraph ns gi go) n m o); auto; [rewrite Eo|rewrite Em]; left; auto). subst m. exact (const_not_input n C P). }
    assert (FI : filter (fun i => negb (mem i (map fst consts))) (gi ++ if Nat.ltb opset 9 then map fst consts else []) = gi).
    { rewrite filter_app. assert (F1 : filter (fun i => negb (mem i (map fst consts))) gi = gi). { clear - NG. induction gi as [|i l IHl]; [reflexivity|]. cbn [filter]. rewrite (proj2 (mem_false _ _) (NG i (or_introl eq_refl))). cbn [negb]. f_equal. apply IHl. intros x I. apply NG. right; auto. }
      rewrite F1. assert (F2 : forall l, (forall x, In x l -> In x (map fst consts)) -> filter (fun i => negb (mem i (map fst consts))) l = []). { clear. induction l as [|x l IHl]; intro H; [reflexivity|]. cbn [filter]. rewrite (proj2 (mem_in _ _) (H x (or_introl eq_refl))). apply IHl. intros y I. apply H. right; auto. }
      rewrite F2; [apply app_nil_r|]. destruct (Nat.ltb opset 9); [auto|intros x []]. }
    assert (DF : forall t, In t (nonempty ((gi ++ if Nat.ltb opset 9 then map fst consts else []) ++ map fst consts ++ concat (map p_out ops))) <-> In t (defs (strip (FGraph ns gi go)))).
    { intro t. rewrite in_nonempty, in_defs, !in_app_iff, in_concat_map. change (f_ins (strip (FGraph ns gi go))) with gi. split.
      - intros [[[I|I]|[I|(q & I & O)]] Ne]; (split; [auto|]); [left; auto| | |].
        + assert (J : In t (map fst consts)) by (destruct (Nat.ltb opset 9); [auto|destruct I]). right. apply in_map_iff in J. destruct J as ([o a] & <- & J). apply CI in J. destruct J as (n & In_n & C & Eo & _). exists (strip_node n). split; [apply in_strip; exists n; split; [auto|split; [now apply const_not_input|auto]]|rewrite strip_out, Eo; left; auto].
        + right. apply in_map_iff in I. destruct I as ([o a] & <- & J). apply CI in J. destruct J as (n & In_n & C & Eo & _). exists (strip_node n). split; [apply in_strip; exists n; split; [auto|split; [now apply const_not_input|auto]]|rewrite strip_out, Eo; left; auto].
        + right. apply (make_ops_in ns ops E1) in I. destruct I as (n & In_n & NC & NI & En). exists (strip_node n). split; [apply in_strip; eauto|]. rewrite strip_out, <- (make_out _ _ En). auto.
      - intros [Ne [I|(m & I & O)]]; (split; [|auto]); [auto|]. apply in_strip in I. destruct I as (n & In_n & NI & ->). rewrite strip_out in O. right. destruct (is_const n) eqn:C.
        + apply is_const_iff in C. left. destruct (const_holds r _ n W In_n C) as (o & a & Eo & _ & Va & _ & _). rewrite Eo in O. destruct O as [<-|[]]. apply in_map_iff. exists (o, a). split; auto. apply CI. eauto.
        + right. cbn [f_nodes] in In_n. assert (exists q, make_node opset n = Some q /\ In q ops) as (q & Eq & Iq).
          { apply (make_ops_has ns ops E1); auto. rewrite <- is_const_iff; congruence. }
          exists q. split; auto. now rewrite (make_out _ _ Eq). }
    assert (NH : forall r' : env, (forall n, In n (f_nodes (strip (FGraph ns gi go))) -> holds op_rel r' n) <-> (forall x a, In (x, a) consts -> r' x = tensor a) /\ forall q, In q ops -> p_holds op_rel tensor r' q).
    { intro r'. split.
      - intro H. split.
        + intros x a I. apply CI in I. destruct I as (n & In_n & C & Eo & Va). destruct (const_holds r' _ n W In_n C) as (o & a' & Eo' & _ & Va' & _ & Hh). assert (o = x) by congruence. assert (a' = a) by congruence. subst. apply Hh. apply H. apply in_strip. exists n. split; [auto|split; [now apply const_not_input|auto]].
        + intros q I. apply (make_ops_in ns ops E1) in I. destruct I as (n & In_n & NC & NI & En). apply (IH n In_n); auto; [intros b Ib h Hh; apply OK; apply (within_body (FGraph ns gi go) n b h); auto|]. apply H. apply in_strip. eauto.
      - intros [H1 H2] m I. apply in_strip in I. destruct I as (n & In_n & NI & ->). cbn [f_nodes] in In_n. destruct (is_const n) eqn:C.
        + apply is_const_iff in C. destruct (const_holds r' _ n W In_n C) as (o & a & Eo & _ & Va & _ & Hh). apply Hh. apply (H1 o a). apply CI. eauto.
        + assert (NC : ~ const_node n) by (rewrite <- is_const_iff; congruence). destruct (make_ops_has ns ops E1 n In_n NC NI) as (q & Eq & Iq). apply (IH n In_n) with (p := q); auto. intros b Ib h Hh; apply OK; apply (within_body (FGraph ns gi go) n b h); auto. }
    rewrite body_rel_eq, p_body_eq. cbn [p_ins p_inits p_nodes p_outs]. rewrite FI. change (f_ins (strip (FGraph ns gi go))) with gi. change (f_outs (strip (FGraph ns gi go))) with go. split.
    + intros (r' & A & B & C & D). exists r'. apply NH in C. destruct C as [C1 C2]. repeat split; auto. intros t N. apply A. intro I. apply N. now apply DF.
    + intros (r' & A & B & C1 & C2 & D). exists r'. split; [intros t N; apply A; intro I; apply N; now apply DF|]. split; [exact B|]. split; [exact (proj2 (NH r') (conj C1 C2))|exact D].
Qed.

(** ** The model *)
Lemma fv_strip : (forall n, (forall b, In b (f_bodies n) -> body_ok b) -> forall t, In t (fv_node (strip_node n)) -> In t (fv_node n)) /\
  (forall g, body_ok g -> forall t, In t (fv_graph (strip g)) -> In t (fv_graph g)).
Proof.
  apply fnode_fgraph_ind.
  - intros nm op dom at_ ins outs bodies IH OK t I. rewrite fv_node_eq in *. cbn [strip_node f_in f_bodies] in *. apply in_app_iff in I. apply in_app_iff. destruct I as [I|I]; [auto|right]. apply in_concat_map in I. destruct I as (b' & Ib & It). apply in_map_iff in Ib. destruct Ib as (b & <- & Ib). apply in_concat_map. exists b. split; auto.
  - intros ns gi go IH OK t I. destruct (OK _ (within_refl _)) as [W PL]. rewrite in_fv_graph in *. destruct I as [N I].
    assert (DF : In t (defs (FGraph ns gi go)) -> In t (defs (strip (FGraph ns gi go)))).
    { rewrite !in_defs. change (f_ins (strip (FGraph ns gi go))) with gi. cbn [f_ins f_nodes]. intros [Ne [J|(n & Jn & O)]]; (split; [auto|]); [auto|]. destruct (is_input n) eqn:P.
      - apply is_input_iff in P. left. exact (proj2 (PL n Jn P) t O).
      - right. exists (strip_node n). split; [|now rewrite strip_out]. apply in_strip. exists n. split; [auto|]. split; [|auto]. rewrite <- is_input_iff. congruence. }
    split; [auto|]. change (f_ins (strip (FGraph ns gi go))) with gi in I. change (f_outs (strip (FGraph ns gi go))) with go in I. cbn [f_ins f_outs f_nodes]. destruct I as [I|[I|(m & Im & It)]]; [auto|auto|]. right. right. apply in_strip in Im. destruct Im as (n & In_n & NI & ->). exists n. split; [auto|]. apply (IH n In_n); auto.
    intros b Ib h Hh. apply OK. apply (within_body (FGraph ns gi go) n b h); auto.
Qed.

Context (ns : list fnode) (gi go : list string) (p : pgraph) (WR : writable (FGraph ns gi go)) (MK : make_graph opset (FGraph ns gi go) = Some p).
Notation g := (FGraph ns gi go).
Lemma top_graph : writable_graph g.
Proof. apply (wr_graphs _ WR). constructor. Qed.
Lemma top_bodies n b : In n ns -> In b (f_bodies n) -> body_ok b.
Proof. intros I J h Hh. split; [apply (wr_graphs _ WR); exact (within_body g n b h I J Hh)|]. intros m Im P. exact (wr_bodies _ WR n b h m I J Hh Im P). Qed.
Lemma produced_top n o : In n ns -> In o (f_out n) -> produced_by ns o = Some n.
Proof. exact (produced_ok g n o top_graph). Qed.
(** the parts of the model *)
Lemma defaults_in inputs dss : all_inputs ns gi = Some inputs -> sequence (map (default_of ns) inputs) = Some dss -> forall i a d,
  In (i, a, d) (concat dss) <-> exists n c rest, In n ns /\ f_op n = "PlaceholderWithDefault" /\ f_out n = [i] /\ f_in n = d :: rest /\ In c ns /\ const_node c /\ f_out c = [d] /\ value_attr c = Some a.
Proof.
  intros E2 E3 i a d. pose proof top_graph as W. pose proof (all_inputs_in ns gi inputs E2) as AI. pose proof (sequence_in _ _ _ E3) as SD. split.
  - intro I. apply in_concat in I. destruct I as (l & Il & I). apply SD in Il. destruct Il as (j & Ij & Ej). unfold default_of in Ej. destruct (produced_by ns j) as [n|] eqn:En; [|discriminate].
    unfold produced_by in En. apply find_some in En. destruct En as [In_n En]. apply mem_in in En.
    destruct (String.eqb_spec (f_op n) "PlaceholderWithDefault") as [Eq|_]; [|injection Ej as <-; destruct I]. destruct (f_in n) as [|d' rest] eqn:Ei; [discriminate|]. destruct (produced_by ns d') as [c|] eqn:Ec; [|discriminate]. destruct (is_const c) eqn:Cc; [|discriminate]. destruct (value_attr c) as [a'|] eqn:Va; [|discriminate]. injection Ej as <-. destruct I as [I|[]]. injection I as <- <- <-.
    apply find_some in Ec. destruct Ec as [Ic Ec]. apply mem_in in Ec. apply is_const_iff in Cc. destruct (wg_named g W n In_n (or_introl (or_intror (or_introl Eq)))) as (o & Eo & _ & _). rewrite Eo in En. destruct En as [<-|[]]. destruct (wg_named g W c Ic (or_intror Cc)) as (o' & Eo' & _ & _). rewrite Eo' in Ec. destruct Ec as [<-|[]].
    exists n, c, rest. auto 12.
  - intros (n & c & rest & In_n & Eq & Eo & Ei & Ic & Cc & Ec & Va). apply in_concat. exists [(i, a, d)]. split; [|left; auto]. apply SD. exists i. split.
    + apply AI. right. exists n. split; [auto|]. split; [right; left; auto|unfold out0; now rewrite Eo].
    + unfold default_of. rewrite (produced_top n i In_n) by (rewrite Eo; left; auto). rewrite Eq, String.eqb_refl, Ei, (produced_top c d Ic) by (rewrite Ec; left; auto). rewrite (proj2 (is_const_iff c) Cc), Va. reflexivity.
Qed.
Lemma make_run feeds res : (forall x, feeds x <> None -> exists n, In n ns /\ input_node n /\ In x (f_out n)) -> (g_run op_rel feeds g res <-> p_run op_rel tensor feeds p res).
Proof.
  intro FD. pose proof top_graph as W. destruct (make_graph_eq _ _ _ _ MK) as (ops & inputs & dss & consts & E1 & E2 & E3 & E4 & Ep). pose proof (all_inputs_in ns gi inputs E2) as AI. pose proof (defaults_in inputs dss E2 E3) as DI.
  pose proof (const_inits g (fun n => existsb (fun o => mem o (map snd (concat dss))) (f_out n)) consts W E4) as CI. cbn [f_nodes] in CI.
  assert (CI' : forall o a, In (o, a) consts <-> exists n, In n ns /\ const_node n /\ ~ In o (map snd (concat dss)) /\ f_out n = [o] /\ value_attr n = Some a).
  { intros o a. rewrite CI. split; intros (n & I & C & D & Eo & Va); exists n; rewrite Eo in *; cbn [existsb] in *; (split; [auto|split; [auto|split; [|auto]]]); [rewrite orb_false_r in D; now apply mem_false|rewrite orb_false_r; now apply mem_false]. }
  clear CI. subst p. unfold g_run, p_run. cbn [p_ins p_inits p_nodes p_outs f_nodes f_outs].
  assert (IN : forall i, In i (inputs ++ if Nat.ltb opset 9 then map fst consts else []) -> feeds i <> None \/ In i inputs \/ In i (map fst consts)).
  { intros i I. apply in_app_iff in I. destruct I as [I|I]; [auto|]. destruct (Nat.ltb opset 9); [auto|destruct I]. }
  assert (II : forall i, In i inputs -> exists n, In n ns /\ input_node n /\ f_out n = [i]).
  { intros i I. apply AI in I. destruct I as [I|(n & I & P & Eo)]; [exact (wg_ins g W i I)|]. exists n. split; [auto|]. split; [auto|]. destruct (wg_named g W n I (or_introl P)) as (o & Eo' & _). unfold out0 in Eo. rewrite Eo' in *. cbn in Eo. congruence. }
  assert (NC : forall n o, In n ns -> input_node n -> In o (f_out n) -> forall a, ~ In (o, a) consts /\ ~ In o (map snd (concat dss))).
  { intros n o I P O a. split.
    - intro J. apply CI' in J. destruct J as (m & Im & C & _ & Eo & _). assert (n = m) by (apply (unique_producer g n m o); auto; rewrite Eo; left; auto). subst m. exact (const_not_input n C P).
    - intro J. apply in_map_iff in J. destruct J as ([[i a'] d] & <- & J). apply DI in J. destruct J as (_ & c & _ & _ & _ & _ & _ & Ic & C & Ec & _). cbn [snd] in O. assert (n = c) by (apply (unique_producer g n c d); auto; rewrite Ec; left; auto). subst c. exact (const_not_input n C P). }
  assert (FC : forall x a, In (x, a) consts -> feeds x = None).
  { intros x a I. destruct (feeds x) as [v|] eqn:Ef; [|auto]. exfalso. destruct (FD x) as (n & In_n & P & O); [congruence|]. exact (proj1 (NC n x In_n P O a) I). }
  split.
  - intros (r & H1 & H2 & H3). exists r. split; [|split; [|split; [|split]]]; auto.
    + intros i v I Ef. destruct (FD i) as (n & In_n & P & O); [congruence|]. specialize (H2 n i In_n P O). now rewrite Ef in H2.
    + intros i I Ef. rewrite map_app, in_app_iff. destruct (IN i I) as [J|[J|J]]; [congruence| |auto]. left. destruct (II i J) as (n & In_n & P & Eo). specialize (H2 n i In_n P). rewrite Eo, Ef in H2. destruct (H2 (or_introl eq_refl)) as (Eq & d & rest & Ei & _).
      apply AI in J. assert (J' : In i inputs) by now apply AI. destruct (default_of ns i) as [l|] eqn:Edf.
      2:{ apply sequence_some in E3. assert (K : In (default_of ns i) (map Some dss)) by (rewrite <- E3; now apply in_map). rewrite Edf in K. apply in_map_iff in K. destruct K as (x & Kx & _). discriminate. }
      assert (K : In l dss) by (apply (sequence_in _ _ _ E3); eauto). unfold default_of in Edf. rewrite (produced_top n i In_n) in Edf by (rewrite Eo; left; auto). rewrite Eq, String.eqb_refl, Ei in Edf. destruct (produced_by ns d) as [c|]; [|discriminate]. destruct (is_const c); [|discriminate]. destruct (value_attr c) as [a|]; [|discriminate]. injection Edf as <-.
      apply in_map_iff. exists (i, a). split; [auto|]. apply in_map_iff. exists (i, a, d). split; [auto|]. apply in_concat. exists [(i, a, d)]. split; [auto|left; auto].
    + intros x a I Hx. apply in_app_iff in I. destruct I as [I|I].
      * apply in_map_iff in I. destruct I as ([[i a'] d] & E & I). injection E as -> ->. assert (I0 := I). apply DI in I. destruct I as (n & c & rest & In_n & Eq & Eo & Ei & Ic & C & Ec & Va).
        assert (P : input_node n) by (right; left; auto). specialize (H2 n x In_n P). rewrite Eo in H2. rewrite Hx in H2. 2:{ apply in_app_iff. left. apply AI. right. exists n. split; [auto|]. split; [auto|]. unfold out0. now rewrite Eo. }
        destruct (H2 (or_introl eq_refl)) as (_ & d' & rest' & Ei' & E). assert (d' = d) by congruence. subst d'. rewrite E. destruct (const_holds r g c W Ic C) as (o & a' & Eo' & _ & Va' & _ & Hh). assert (o = d) by congruence. assert (a' = a) by congruence. subst. apply Hh. apply H1; auto. now apply const_not_input.
      * apply CI' in I. destruct I as (n & In_n & C & _ & Eo & Va). destruct (const_holds r g n W In_n C) as (o & a' & Eo' & _ & Va' & _ & Hh). assert (o = x) by congruence. assert (a' = a) by congruence. subst. apply Hh. apply H1; auto. now apply const_not_input.
    + intros q I. apply (make_ops_in ns ops E1) in I. destruct I as (n & In_n & NCn & NI & En). apply (proj1 make_ind n) with (p := q); auto. intros b Ib. eapply top_bodies; eauto.
  - intros (r & H1 & H2 & H3 & H4 & H5).
    set (val t := match find (fun e => String.eqb (snd e) t) (concat dss) with Some e => tensor (snd (fst e)) | None => r t end).
    assert (VO : forall t, ~ In t (map snd (concat dss)) -> val t = r t).
    { intros t N. unfold val. destruct (find _ _) as [e|] eqn:E; [|auto]. apply find_some in E. destruct E as [I E]. apply String.eqb_eq in E. exfalso. apply N. rewrite <- E. now apply in_map. }
    assert (VD : forall i a d, In (i, a, d) (concat dss) -> val d = tensor a).
    { intros i a d I. unfold val. destruct (find _ _) as [[[i' a'] d']|] eqn:E.
      - apply find_some in E. destruct E as [J E]. cbn [snd fst] in *. apply String.eqb_eq in E. subst d'. apply DI in I, J. destruct I as (_ & c & _ & _ & _ & _ & _ & Ic & _ & Ec & Va). destruct J as (_ & c' & _ & _ & _ & _ & _ & Ic' & _ & Ec' & Va'). assert (c = c') by (apply (unique_producer g c c' d); auto; [rewrite Ec|rewrite Ec']; left; auto). congruence.
      - pose proof (find_none _ _ E _ I) as N. cbn in N. rewrite String.eqb_refl in N. discriminate. }
    assert (DP : forall t, In t (map snd (concat dss)) -> exists n, In n ns /\ f_op n = "PlaceholderWithDefault" /\ In t (f_in n) /\ exists c, In c ns /\ const_node c /\ f_out c = [t]).
    { intros t I. apply in_map_iff in I. destruct I as ([[i a] d] & <- & I). apply DI in I. destruct I as (n & c & rest & In_n & Eq & Eo & Ei & Ic & C & Ec & _). exists n. split; [auto|]. split; [auto|]. split; [rewrite Ei; left; auto|eauto]. }
    exists val. split; [|split].
    + intros n In_n NI. destruct (is_const n) eqn:C.
      * apply is_const_iff in C. destruct (const_holds val g n W In_n C) as (o & a & Eo & _ & Va & _ & Hh). apply Hh. destruct (in_dec string_dec o (map snd (concat dss))) as [J|J].
        -- apply in_map_iff in J. destruct J as ([[i a'] d] & Ed & J). cbn [snd] in Ed. subst d. rewrite (VD _ _ _ J). apply DI in J. destruct J as (_ & c & _ & _ & _ & _ & _ & Ic & _ & Ec & Va'). assert (c = n) by (apply (unique_producer g c n o); auto; [rewrite Ec|rewrite Eo]; left; auto). congruence.
        -- rewrite VO by auto. assert (J' : In (o, a) consts) by (apply CI'; exists n; auto). apply H3; [apply in_app_iff; auto|]. intros _. exact (FC o a J').
      * assert (NCn : ~ const_node n) by (rewrite <- is_const_iff; congruence). destruct (make_ops_has ns ops E1 n In_n NCn NI) as (q & Eq & Iq). assert (B : forall b, In b (f_bodies n) -> body_ok b) by (intros b Ib; eapply top_bodies; eauto).
        apply (holds_agree _ _ ext (strip_node n) r val).
        -- intros x Ix. apply (proj1 fv_strip n B) in Ix. symmetry. apply VO. intro J. destruct (DP x J) as (k & Ik & Ek & Ix' & _). exact (wr_default _ WR k x n Ik Ek Ix' In_n NI Ix).
        -- intros x Ix _. symmetry. apply VO. intro J. destruct (DP x J) as (_ & _ & _ & _ & c & Ic & C' & Ec). rewrite strip_out in Ix. assert (n = c) by (apply (unique_producer g n c x); auto; rewrite Ec; left; auto). subst c. contradiction.
        -- apply (proj1 make_ind n B q Eq). auto.
    + intros n o In_n P O. destruct (NC n o In_n P O (AInt 0)) as [_ ND]. rewrite (VO o ND). assert (Io : In o inputs). { apply AI. right. exists n. split; [auto|]. split; [auto|]. destruct (wg_named g W n In_n (or_introl P)) as (o' & Eo & _). unfold out0. rewrite Eo in *. destruct O as [<-|[]]. reflexivity. }
      destruct (feeds o) as [v|] eqn:Ef; [apply H1; auto; apply in_app_iff; auto|]. specialize (H2 o (proj2 (in_app_iff _ _ _) (or_introl Io)) Ef). rewrite map_app, in_app_iff in H2. destruct H2 as [J|J].
      * apply in_map_iff in J. destruct J as ([x a] & Ex & J). cbn [fst] in Ex. subst x. assert (J0 := J). apply in_map_iff in J. destruct J as ([[i a'] d] & E & J). injection E as -> ->. assert (J1 := J). apply DI in J. destruct J as (m & c & rest & Im & Eq & Eo & Ei & _). assert (m = n) by (apply (unique_producer g m n o); auto; rewrite Eo; left; auto). subst m. split; [auto|]. exists d, rest. split; [auto|]. rewrite (VD _ _ _ J1). apply H3; [apply in_app_iff; auto|auto].
      * apply in_map_iff in J. destruct J as ([x a] & Ex & J). cbn [fst] in Ex. subst x. exfalso. exact (proj1 (NC n o In_n P O a) J).
    + rewrite <- H5. apply map_ext_in. intros t I. apply VO. intro J. destruct (DP t J) as (n & In_n & Eq & Ii & _). exact (wr_default_out _ WR n t In_n Eq Ii I).
Qed.
End Make.
