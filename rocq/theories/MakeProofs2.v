(** The parts of a written model, and when writing succeeds. *)
From Coq Require Import String List Bool ZArith Arith Lia.
From Verif Require Import FGraph FGraphProofs FGraphSpec MakeSpec MakeModel MakeProofs.
Import ListNotations.
Local Open Scope string_scope.
Local Open Scope list_scope.

Definition regular (n : fnode) : bool := negb (mem (f_op n) ["Const"; "ConstV2"; "Placeholder"; "PlaceholderWithDefault"; "PlaceholderV2"]).
Lemma regular_eq n : regular n = negb (is_const n || is_input n).
Proof. unfold regular, is_const, is_input, mem. cbn [existsb]. rewrite !orb_false_r, !orb_assoc. reflexivity. Qed.
Section Parts.
Context (opset : nat).
Lemma make_ops_order ns : forall ops, make_ops opset ns = Some ops ->
  Forall2 (fun n q => p_name q = f_name n /\ p_op q = f_op n /\ p_in q = f_in n /\ p_out q = f_out n) (filter regular ns) ops.
Proof.
  induction ns as [|n ns IH]; intros ops E; cbn [make_ops filter] in *; [injection E as <-; constructor|]. rewrite regular_eq. destruct (is_const n || is_input n); cbn [negb]; [auto|].
  destruct (make_node opset n) as [q|] eqn:En; [|discriminate]. destruct (make_ops opset ns) as [l|]; [|discriminate]. injection E as <-. constructor; auto.
  destruct n as [b1 b2 b3 b4 b5 b6 b7]. cbn [make_node] in En. destruct (sequence _); [|discriminate]. injection En as <-. auto.
Qed.
Context (ns : list fnode) (gi go : list string) (p : pgraph) (WR : writable (FGraph ns gi go)) (MK : make_graph opset (FGraph ns gi go) = Some p).
Notation g := (FGraph ns gi go).
Lemma parts : p_outs p = go /\ firstn (length gi) (p_ins p) = gi /\
  Forall2 (fun n q => p_name q = f_name n /\ p_op q = f_op n /\ p_in q = f_in n /\ p_out q = f_out n) (filter regular ns) (p_nodes p).
Proof.
  destruct (make_graph_eq _ _ _ _ _ MK) as (ops & inputs & dss & consts & E1 & E2 & E3 & E4 & ->). cbn [p_outs p_ins p_nodes]. split; [auto|]. split; [|now apply make_ops_order].
  unfold all_inputs in E2. destruct (sequence _) as [l|]; [|discriminate]. injection E2 as <-. rewrite <- !app_assoc, firstn_app, Nat.sub_diag, firstn_all. cbn. apply app_nil_r.
Qed.
Lemma required i : (In i (p_ins p) /\ ~ In i (map fst (p_inits p))) <-> exists n, In n ns /\ (f_op n = "Placeholder" \/ f_op n = "PlaceholderV2") /\ f_out n = [i].
Proof.
  pose proof (top_graph ns gi go WR) as W. destruct (make_graph_eq _ _ _ _ _ MK) as (ops & inputs & dss & consts & E1 & E2 & E3 & E4 & ->). cbn [p_ins p_inits].
  pose proof (all_inputs_in ns gi inputs E2) as AI. pose proof (defaults_in ns gi go WR inputs dss E2 E3) as DI. pose proof (const_inits g (fun n => existsb (fun o => mem o (map snd (concat dss))) (f_out n)) consts W E4) as CI. cbn [f_nodes] in CI.
  assert (II : In i inputs -> exists n, In n ns /\ input_node n /\ f_out n = [i]).
  { intros I. apply AI in I. destruct I as [I|(n & I & P & Eo)]; [exact (wg_ins g W i I)|]. exists n. split; [auto|]. split; [auto|]. destruct (wg_named g W n I (or_introl P)) as (o & Eo' & _). unfold out0 in Eo. rewrite Eo' in *. cbn in Eo. congruence. }
  split.
  - intros [I N]. rewrite map_app, in_app_iff in N. apply in_app_iff in I. destruct I as [I|I]; [|destruct (Nat.ltb opset 9); [exfalso; auto|destruct I]].
    destruct (II I) as (n & In_n & P & Eo). exists n. split; [auto|]. split; [|auto]. destruct P as [P|[P|P]]; [auto| |auto]. exfalso. apply N. left.
    destruct (default_of ns i) as [l|] eqn:Edf.
    2:{ apply sequence_some in E3. assert (K : In (default_of ns i) (map Some dss)) by (rewrite <- E3; now apply in_map). rewrite Edf in K. apply in_map_iff in K. destruct K as (x & Kx & _). discriminate. }
    assert (K : In l dss) by (apply (sequence_in _ _ _ E3); eauto). unfold default_of in Edf. rewrite (produced_top ns gi go WR n i In_n) in Edf by (rewrite Eo; left; auto). rewrite P, String.eqb_refl in Edf. destruct (f_in n) as [|d rest]; [discriminate|]. destruct (produced_by ns d) as [c|]; [|discriminate]. destruct (is_const c); [|discriminate]. destruct (value_attr c) as [a|]; [|discriminate]. injection Edf as <-.
    apply in_map_iff. exists (i, a). split; [auto|]. apply in_map_iff. exists (i, a, d). split; [auto|]. apply in_concat. exists [(i, a, d)]. split; [auto|left; auto].
  - intros (n & In_n & P & Eo). assert (P' : input_node n) by (unfold input_node; tauto). split; [apply in_app_iff; left; apply AI; right; exists n; split; [auto|split; [auto|unfold out0; now rewrite Eo]]|].
    rewrite map_app, in_app_iff. intros [I|I]; apply in_map_iff in I.
    + destruct I as ([x a] & Ex & I). cbn in Ex. subst x. apply in_map_iff in I. destruct I as ([[i' a'] d] & E & I). injection E as -> ->. apply DI in I. destruct I as (m & _ & _ & Im & Eq & Em & _). assert (n = m) by (apply (unique_producer g n m i); auto; [rewrite Eo|rewrite Em]; left; auto). subst m. rewrite Eq in P. destruct P; discriminate.
    + destruct I as ([x a] & Ex & I). cbn in Ex. subst x. apply CI in I. destruct I as (m & Im & C & _ & Em & _). assert (n = m) by (apply (unique_producer g n m i); auto; [rewrite Eo|rewrite Em]; left; auto). subst m. exact (const_not_input n C P').
Qed.
Lemma defined t : In t (p_outs p) \/ (exists q, In q (p_nodes p) /\ In t (p_in q)) -> In t (concat (map f_out ns)) -> In t (p_ins p ++ map fst (p_inits p) ++ concat (map p_out (p_nodes p))).
Proof.
  pose proof (top_graph ns gi go WR) as W. destruct parts as (Eo & _ & F2). intros R I. apply in_concat_map in I. destruct I as (n & In_n & O).
  destruct (make_graph_eq _ _ _ _ _ MK) as (ops & inputs & dss & consts & E1 & E2 & E3 & E4 & ->). cbn [p_ins p_inits p_nodes p_outs] in *.
  pose proof (all_inputs_in ns gi inputs E2) as AI. pose proof (defaults_in ns gi go WR inputs dss E2 E3) as DI. pose proof (const_inits g (fun n => existsb (fun o => mem o (map snd (concat dss))) (f_out n)) consts W E4) as CI. cbn [f_nodes] in CI.
  rewrite !in_app_iff. destruct (is_input n) eqn:P; [|destruct (is_const n) eqn:C].
  - apply is_input_iff in P. left. left. apply AI. right. exists n. split; [auto|]. split; [auto|]. destruct (wg_named g W n In_n (or_introl P)) as (o' & Eo' & _). unfold out0. rewrite Eo' in *. destruct O as [<-|[]]. reflexivity.
  - apply is_const_iff in C. right. left. rewrite map_app, in_app_iff. right. destruct (wg_named g W n In_n (or_intror C)) as (o & Eo' & _). destruct (wg_const g W n In_n C) as (_ & a & Ia & Ua). rewrite Eo' in O. destruct O as [<-|[]]. apply in_map_iff. exists (o, a). split; [auto|]. apply CI. exists n. split; [auto|]. split; [auto|]. split; [|split; [auto|now apply value_attr_ok]].
    rewrite Eo'. cbn [existsb]. rewrite orb_false_r. apply mem_false. intro J. apply in_map_iff in J. destruct J as ([[i a'] d] & Ed & J). cbn in Ed. subst d. apply DI in J. destruct J as (m & c & rest & Im & Eq & _ & Ei & _).
    assert (Io : In o (f_in m)) by (rewrite Ei; left; auto). destruct R as [R|(q & Iq & R)]; [exact (wr_default_out _ WR m o Im Eq Io R)|].
    apply (make_ops_in opset ns ops E1) in Iq. destruct Iq as (k & Ik & NCk & NIk & Ek). apply (wr_default _ WR m o k Im Eq Io Ik NIk). rewrite fv_node_eq. apply in_app_iff. left. destruct k as [b1 b2 b3 b4 b5 b6 b7]. cbn [make_node] in Ek. destruct (sequence _); [|discriminate]. injection Ek as <-. exact R.
  - right. right. apply in_concat_map. destruct (make_ops_has opset ns ops E1 n In_n) as (q & Eq & Iq); [rewrite <- is_const_iff; congruence|rewrite <- is_input_iff; congruence|]. exists q. split; [auto|]. now rewrite (make_out opset _ _ Eq).
Qed.
End Parts.

(** ** When writing succeeds *)
Lemma sequence_total {A B} (f : A -> option B) l : (forall x, In x l -> f x <> None) -> sequence (map f l) <> None.
Proof. induction l as [|x l IH]; intro H; [discriminate|]. cbn. pose proof (H x (or_introl eq_refl)) as Hx. destruct (f x); [|congruence]. specialize (IH (fun y I => H y (or_intror I))). destruct (sequence (map f l)); [discriminate|congruence]. Qed.
Section Total.
Context (opset : nat).
Lemma graph_total ns gi go : writable_graph (FGraph ns gi go) -> (forall n, In n ns -> ~ const_node n -> ~ input_node n -> make_node opset n <> None) ->
  (forall n, In n ns -> f_op n = "PlaceholderWithDefault" -> exists d rest c, f_in n = d :: rest /\ In c ns /\ const_node c /\ f_out c = [d]) -> make_graph opset (FGraph ns gi go) <> None.
Proof.
  intros W HN HD. cbn [make_graph]. change ((fix ops (ns0 : list fnode) : option (list pnode) := match ns0 with [] => Some [] | n :: ns' => if is_const n || is_input n then ops ns' else match make_node opset n with Some p0 => match ops ns' with Some l => Some (p0 :: l) | None => None end | None => None end end) ns) with (make_ops opset ns).
  assert (O : make_ops opset ns <> None).
  { clear - HN. induction ns as [|n l IH]; [discriminate|]. cbn [make_ops]. assert (IHl : make_ops opset l <> None) by (apply IH; intros m I; apply HN; right; auto). destruct (is_const n || is_input n) eqn:K; [exact IHl|]. apply orb_false_iff in K. destruct K as [K1 K2].
    assert (X : make_node opset n <> None) by (apply HN; [left; auto|rewrite <- is_const_iff; congruence|rewrite <- is_input_iff; congruence]). destruct (make_node opset n); [|congruence]. destruct (make_ops opset l); [discriminate|congruence]. }
  destruct (make_ops opset ns) as [ops|]; [clear O|congruence].
  destruct (all_inputs ns gi) as [inputs|] eqn:E2.
  2:{ exfalso. unfold all_inputs in E2. assert (X : sequence (map out0 (filter is_input ns)) <> None). { apply sequence_total. intros n I. apply filter_In in I. destruct I as [I P]. apply is_input_iff in P. destruct (wg_named _ W n I (or_introl P)) as (o & Eo & _). unfold out0. rewrite Eo. discriminate. } destruct (sequence _); [discriminate|congruence]. }
  assert (AI := all_inputs_in ns gi inputs E2).
  destruct (sequence (map (default_of ns) inputs)) as [dss|] eqn:E3.
  2:{ exfalso. revert E3. apply sequence_total. intros i I. assert (exists n, In n ns /\ input_node n /\ f_out n = [i]) as (n & In_n & P & Eo).
      { apply AI in I. destruct I as [I|(n & I & P & Eo)]; [exact (wg_ins _ W i I)|]. exists n. split; [auto|]. split; [auto|]. destruct (wg_named _ W n I (or_introl P)) as (o & Eo' & _). unfold out0 in Eo. rewrite Eo' in *. cbn in Eo. congruence. }
      unfold default_of. assert (PN : produced_by ns i = Some n) by (apply (produced_ok (FGraph ns gi go) n i W In_n); rewrite Eo; left; auto). rewrite PN. destruct (String.eqb_spec (f_op n) "PlaceholderWithDefault") as [Eq|_]; [|discriminate].
      destruct (HD n In_n Eq) as (d & rest & c & Ei & Ic & C & Ec). rewrite Ei. assert (PC : produced_by ns d = Some c) by (apply (produced_ok (FGraph ns gi go) c d W Ic); rewrite Ec; left; auto). rewrite PC. rewrite (proj2 (is_const_iff c) C). destruct (wg_const _ W c Ic C) as (_ & a & Ia & Ua). rewrite (value_attr_ok c a Ia Ua). discriminate. }
  destruct (sequence (map const_init _)) as [consts|] eqn:E4; [discriminate|]. exfalso. revert E4. apply sequence_total. intros n I. apply filter_In in I. destruct I as [I K]. apply andb_true_iff in K. destruct K as [K _]. apply is_const_iff in K.
  destruct (wg_named _ W n I (or_intror K)) as (o & Eo & _). destruct (wg_const _ W n I K) as (_ & a & Ia & Ua). unfold const_init, out0. rewrite Eo, (value_attr_ok n a Ia Ua). discriminate.
Qed.
Lemma total_ind : (forall n, (forall b, In b (f_bodies n) -> body_ok b) -> make_node opset n <> None) /\ (forall g, body_ok g -> make_graph opset g <> None).
Proof.
  apply fnode_fgraph_ind.
  - intros nm op dom at_ ins outs bodies IH OK. cbn [make_node f_bodies] in *. assert (X : sequence (map (make_graph opset) bodies) <> None) by (apply sequence_total; intros b I; apply IH; auto). destruct (sequence _); [discriminate|congruence].
  - intros ns gi go IH OK. destruct (OK _ (within_refl _)) as [W PL]. apply graph_total; auto.
    + intros n I _ _. apply (IH n I). intros b Ib h Hh. apply OK. exact (within_body (FGraph ns gi go) n b h I Ib Hh).
    + intros n I Eq. exfalso. apply (PL n I); [right; left; auto|auto].
Qed.
Lemma make_total g : writable g -> (forall n, In n (f_nodes g) -> f_op n = "PlaceholderWithDefault" -> exists d rest c, f_in n = d :: rest /\ In c (f_nodes g) /\ const_node c /\ f_out c = [d]) -> make_graph opset g <> None.
Proof.
  destruct g as [ns gi go]. intros WR HD. apply graph_total; auto; [exact (top_graph ns gi go WR)|]. intros n I _ _. apply (proj1 total_ind). intros b Ib. exact (top_bodies ns gi go WR n b I Ib).
Qed.
End Total.
