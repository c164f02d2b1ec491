(** Constant folding at graph level. *)
From Coq Require Import String List Bool Arith Lia.
From Verif Require Import FGraph FGraphProofs FGraphSpec IdentityModel IdentityProofs ApplyOptProofs ExecSpec ExecProofs
  DeadModel DeadProofs RewriteProofs BypassProofs MergeModel MergeSpec MergeProofs FoldGraphModel FoldGraphSpec.
Import ListNotations.
Local Open Scope string_scope.
Local Open Scope list_scope.

Section S.
Variable V : Type.
Variable op_rel : string -> string -> list (string * attr) -> nat -> list V ->
                  list (list V -> list V -> Prop) -> list V -> Prop.
Variable cval : list (string * attr) -> option V.
Variable enc : V -> list (string * attr).
Variable func_map : string -> option (list (string * attr) -> nat -> list V -> option (list V)).
Variable mk_name : nat -> string.
Variable okn : string -> list (string * attr) -> nat -> Prop.
Hypothesis ext : op_ext op_rel.
Hypothesis cm : const_meaning V op_rel cval enc.
Hypothesis fa : fold_agrees V op_rel func_map okn.
Notation holds := (holds op_rel). Notation all_hold := (all_hold op_rel).
Notation equiv := (equiv op_rel). Notation env := (env V).
Notation shaped := (foldable_shape V func_map okn). Notation fresh := (fresh_names mk_name).

Definition const_node (c : fnode) (t : string) (v : V) : Prop :=
  constant c /\ f_in c = [] /\ f_bodies c = [] /\ f_out c = [t] /\ t <> "" /\ cval (f_attrs c) = Some v.
Record supports (ns : list fnode) (n : fnode) (vs : list V) : Prop := {
  su_in : In n ns; su_flat : f_bodies n = []; su_named : ~ In "" (f_out n);
  su_ins : exists ins, Forall2 (fun t v => exists c, In c ns /\ const_node c t v) (f_in n) ins /\
     forall vs', op_rel (f_op n) (f_dom n) (f_attrs n) (length (f_out n)) ins [] vs' <-> vs' = vs }.

Lemma const_holds c t v (e : env) : const_node c t v -> holds e c -> e t = v.
Proof.
  intros (C & I & B & O & Nt & Cv) H. apply holds_eq in H. destruct H as (vs & Op & P). rewrite I, B, O in Op. cbn [map length] in Op.
  apply (proj1 cm) in Op; [|exact C]. destruct Op as (w & Ew & ->). assert (w = v) by congruence. subst w.
  rewrite O in P. specialize (P 0 t eq_refl Nt). cbn in P. congruence.
Qed.
Lemma supports_produces ns n vs (e : env) : supports ns n vs -> all_hold e ns -> produces e (f_out n) vs.
Proof.
  intros [Hn Hb _ (ins & F & Rel)] A. assert (H := A n Hn). apply holds_eq in H. destruct H as (vs' & Op & P).
  rewrite Hb in Op. cbn [map] in Op. assert (E : map e (f_in n) = ins).
  { clear -F A cm. induction F as [|t v ts vs (c & Hc & K) _ IH]; cbn; auto. f_equal; auto. eapply const_holds; eauto. }
  rewrite E in Op. apply Rel in Op. now subst.
Qed.
Lemma subst_const a b c t v : const_node c t v -> subst_node a b c = c.
Proof. intros (_ & I & B & _). apply subst_none; auto. rewrite I. auto. Qed.
Lemma supports_subst rk gi go ns n vs a b : WW rk (FGraph ns gi go) -> supports ns n vs -> In a (f_out n) ->
  supports (map (subst_node a b) ns) n vs.
Proof.
  intros H S Ha. assert (G := H _ (within_refl _)). destruct S as [Hn Hb Nm (ins & F & Rel)].
  assert (Na : a <> "") by (intros ->; auto).
  assert (E : subst_node a b n = n).
  { apply subst_none; auto. intro K. assert (L := g_acyclic _ _ G n a a Hn (fv_in n a K) Ha Na). lia. }
  constructor; auto.
  - rewrite <- E. now apply in_map.
  - exists ins. split; auto. eapply Forall2_imp; [|exact F]. intros t v _ _ (c & Hc & K). exists c. split; auto.
    rewrite <- (subst_const a b c t v K). now apply in_map.
Qed.
Lemma supports_incl ns ns' n vs : incl ns ns' -> supports ns n vs -> supports ns' n vs.
Proof.
  intros I [Hn Hb Nm (ins & F & Rel)]. constructor; auto. exists ins. split; auto. eapply Forall2_imp; [|exact F]. intros t v _ _ (c & Hc & K). exists c. auto.
Qed.

Definition mk_const (c : nat) (v : V) : fnode := FNode (mk_name c) "Const" "" (enc v) [] [mk_name c] [].

(** how the node list evolves *)
Definition heads_of (ns : list fnode) := map (fun n => (f_name n, f_op n, f_out n)) ns.
Lemma heads_subst a b ns : heads_of (map (subst_node a b) ns) = heads_of ns.
Proof. unfold heads_of. rewrite map_map. apply map_ext. intros []; reflexivity. Qed.


Lemma one_output rk ns gi go n vs o v c : WW rk (FGraph ns gi go) -> supports ns n vs -> In (o, v) (combine (f_out n) vs) ->
  (forall x, In x go -> ~ In x (f_out n)) -> shaped (FGraph ns gi go) -> fresh (FGraph ns gi go) c ->
  let ns1 := map (subst_node o (mk_name c)) (ns ++ [mk_const c v]) in
  exists rk', replace_all o (mk_name c) (ns ++ [mk_const c v]) = Some ns1 /\
    WW rk' (FGraph ns1 gi go) /\ supports ns1 n vs /\ equiv (FGraph ns gi go) (FGraph ns1 gi go) /\
    shaped (FGraph ns1 gi go) /\ fresh (FGraph ns1 gi go) (S c) /\
    (forall m t, In m ns1 -> In t (fv_node m) -> t <> o /\ (t = mk_name c \/ exists m', In m' ns /\ In t (fv_node m'))).
Proof.
  intros H Su Hov Hgo Sh (Inj & Nem & Fr) ns1. destruct (Fr c (le_n c)) as (F1 & F2 & F3).
  set (nm := mk_name c) in *. set (cn := mk_const c v) in *.
  destruct (add_source V op_rel ext rk ns gi go cn) as (rk1 & R1 & R2 & W1 & Q1 & Fv1); auto.
  { cbn. unfold nonempty. cbn. destruct (String.eqb_spec (mk_name c) ""); cbn; [constructor|repeat constructor; auto]. }
  { intros x Hx _. change (In x [nm]) in Hx. destruct Hx as [<-|[]]. auto. }
  { exists [v]. cbn. split; auto. apply (proj1 cm); auto. exists v. split; auto. apply (proj2 cm). }
  assert (Ho : In o (f_out n)) by (eapply in_combine_l; eauto).
  assert (No : o <> "") by (intros ->; apply (su_named _ _ _ Su); auto).
  set (g1 := FGraph (ns ++ [cn]) gi go) in *. assert (G1 := W1 g1 (within_refl _)).
  assert (Hn := su_in _ _ _ Su). assert (Hn1 : In n (f_nodes g1)) by (cbn; apply in_app_iff; auto).
  assert (Dfo : In o (defs (FGraph ns gi go))) by (apply in_defs; split; auto; right; exists n; auto).
  assert (Non : o <> nm) by (intros ->; apply F1; now apply defs_alldefs).
  assert (Dn : In nm (defs g1)).
  { apply in_defs. split; [apply Nem|]. right. exists cn. cbn. rewrite in_app_iff. cbn. auto. }
  assert (Do : In o (defs g1)) by (apply in_defs; split; auto; right; exists n; auto).
  assert (Rn : rk1 nm <= rk1 o).
  { rewrite (R2 nm); [lia|]. apply in_nonempty. split; [left; reflexivity|apply Nem]. }
  destruct (bypass_valid rk1 g1 o nm W1 Non No (Nem c) Do (or_introl Dn) Rn) as (E2 & W2 & Fv2 & Us).
  assert (Su1 : supports (ns ++ [cn]) n vs) by (eapply supports_incl; [|exact Su]; intros x Hx; apply in_app_iff; auto).
  assert (Su2 : supports ns1 n vs) by (apply (supports_subst rk1 gi go); auto).
  destruct (in_combine_nth _ _ _ _ Hov) as (k & Ko & Kv).
  assert (Cn : const_node cn nm v).
  { split; [left; auto|]. split; auto. split; auto. split; auto. split; [apply Nem|]. apply (proj2 cm). }
  assert (Eqv : forall (e : env) l, supports l n vs -> In cn l -> all_hold e l -> e o = e nm).
  { intros e l Sl Cl A. assert (P := supports_produces l n vs e Sl A). specialize (P k o Ko No). rewrite Kv in P. injection P as P.
    rewrite (const_holds cn nm v e Cn (A cn Cl)). auto. }
  exists rk1. split; [exact E2|]. split; [exact W2|]. split; [exact Su2|]. split.
  { eapply equiv_trans; [exact Q1|]. apply (subst_equiv V op_rel ext o nm g1 rk1); auto.
    - intros e A. apply (Eqv e (ns ++ [cn])); auto. apply in_app_iff. cbn. auto.
    - intros e A. apply (Eqv e ns1); auto. unfold ns1. rewrite <- (subst_const o nm cn nm v Cn). apply in_map. apply in_app_iff. cbn. auto. }
  split.
  { destruct Sh as [S1 S2 S3]. cbn [f_nodes] in *.
    assert (K : forall m', In m' ns1 -> exists m, m' = subst_node o nm m /\ (In m ns \/ m = cn)).
    { intros m' Hm'. apply in_map_iff in Hm'. destruct Hm' as (m & <- & Hm). apply in_app_iff in Hm. exists m. cbn in Hm. intuition. }
    constructor; cbn [f_nodes].
    - intros m' Hm'. destruct (K m' Hm') as (m & -> & [Hm|Hm]); rewrite f_out_subst; auto. subst m. cbn. intros [Q|[]]. exact (Nem c Q).
    - intros m' Hm' Cm'. destruct (K m' Hm') as (m & -> & [Hm|Hm]).
      + destruct (S2 m Hm) as (A1 & A2 & A3); [destruct m; exact Cm'|]. rewrite f_in_subst, f_bodies_subst, f_out_subst, A1, A2. auto.
      + subst m. cbn. eauto.
    - intros m' Hm' Nc' Fm'. destruct (K m' Hm') as (m & -> & [Hm|Hm]); rewrite f_bodies_subst.
      + destruct (S3 m Hm) as [-> Ok]; [destruct m; exact Nc'|destruct m; exact Fm'|]. split; auto. destruct m; exact Ok.
      + subst m. exfalso. apply Nc'. left. reflexivity. }
  split.
  { split; [exact Inj|]. split; [exact Nem|]. intros j Hj. destruct (Fr j ltac:(lia)) as (A1 & A2 & A3).
    assert (Nj : mk_name j <> nm) by (intro E; apply Inj in E; lia). change (FGraph ns1 gi go) with (subst_graph o nm g1). split; [|split].
    - rewrite (proj2 (alldefs_subst o nm)). cbn [alldefs g1]. rewrite map_app, concat_app, app_assoc, in_app_iff. intros [K|K]; [apply A1; exact K|].
      change (In (mk_name j) ((nonempty [nm] ++ []) ++ [])) in K. rewrite !app_nil_r in K. apply in_nonempty in K. destruct K as [[K|[]] _]. exact (Nj (eq_sym K)).
    - intro K. apply A2. apply Fv1, Fv2. exact K.
    - cbn [subst_graph g1 f_nodes]. rewrite names_subst, map_app, in_app_iff. cbn. intros [K|[K|[]]]; [apply A3; exact K|exact (Nj (eq_sym K))]. }
  intros m t Hm Ht. destruct (Us m t Hm Ht) as [A B]. split; auto. destruct B as [B|(m' & Hm' & B)]; auto. right.
  cbn [g1 f_nodes] in Hm'. apply in_app_iff in Hm'. destruct Hm' as [Hm'|[<-|[]]]; [eauto|]. destruct B.
Qed.

Definition nonconst (ns : list fnode) : nat := length (filter (fun n => negb (is_const n)) ns).
Lemma is_const_subst a b n : is_const (subst_node a b n) = is_const n.
Proof. destruct n; reflexivity. Qed.
Lemma is_const_spec n : is_const n = true <-> constant n.
Proof. unfold is_const, constant. rewrite orb_true_iff, !String.eqb_eq. tauto. Qed.
Lemma outs_of_subst a b ns : outs_of (map (subst_node a b) ns) = outs_of ns /\ nonconst (map (subst_node a b) ns) = nonconst ns.
Proof.
  unfold outs_of, nonconst. induction ns as [|n ns [IH1 IH2]]; cbn [map filter]; auto. rewrite is_const_subst.
  destruct (is_const n); cbn [negb]; auto. cbn [map list_sum length fold_right]. rewrite f_out_subst.
  unfold list_sum in *. cbn [fold_right] in *. rewrite IH1, IH2. auto.
Qed.
Lemma outs_of_app ns ns' : outs_of (ns ++ ns') = outs_of ns + outs_of ns' /\ nonconst (ns ++ ns') = nonconst ns + nonconst ns'.
Proof. unfold outs_of, nonconst. rewrite filter_app, map_app, list_sum_app, app_length. auto. Qed.
Lemma outs_of_remove l1 n l2 : is_const n = false -> outs_of (l1 ++ n :: l2) = outs_of (l1 ++ l2) + length (f_out n) /\
  nonconst (l1 ++ n :: l2) = S (nonconst (l1 ++ l2)).
Proof.
  intro E. destruct (outs_of_app l1 (n :: l2)) as [-> ->], (outs_of_app l1 l2) as [-> ->].
  unfold outs_of at 2, nonconst at 2. cbn [filter]. rewrite E. cbn [negb map length].
  change (list_sum (?x :: ?l)) with (x + list_sum l). fold (outs_of l2) (nonconst l2). lia.
Qed.

Lemma replace_outputs_spec gi go n vs ovs : forall rk ns c, WW rk (FGraph ns gi go) -> supports ns n vs ->
  incl ovs (combine (f_out n) vs) -> (forall x, In x go -> ~ In x (f_out n)) -> shaped (FGraph ns gi go) -> fresh (FGraph ns gi go) c ->
  exists rk' ns', replace_outputs V enc mk_name ovs ns c = Some (ns', c + length ovs) /\
    WW rk' (FGraph ns' gi go) /\ supports ns' n vs /\ equiv (FGraph ns gi go) (FGraph ns' gi go) /\
    shaped (FGraph ns' gi go) /\ fresh (FGraph ns' gi go) (c + length ovs) /\
    (forall m t, In m ns' -> In t (fv_node m) -> ~ In t (map fst ovs) /\
        ((exists k, c <= k /\ t = mk_name k) \/ exists m', In m' ns /\ In t (fv_node m'))) /\
    length ns' = length ns + length ovs /\ outs_of ns' = outs_of ns /\ nonconst ns' = nonconst ns.
Proof.
  induction ovs as [|[o v] ovs IH]; intros rk ns c W Su I Hgo Sh Fr.
  - exists rk, ns. cbn [replace_outputs length map]. rewrite !Nat.add_0_r. split; [reflexivity|]. split; [exact W|]. split; [exact Su|].
    split; [apply equiv_refl|]. split; [exact Sh|]. split; [exact Fr|]. split; [|auto]. intros m t Hm Ht. split; [intros []|]. right. eauto.
  - destruct (one_output rk ns gi go n vs o v c W Su (I _ (or_introl eq_refl)) Hgo Sh Fr) as (rk1 & E1 & W1 & Su1 & Q1 & Sh1 & Fr1 & U1).
    cbn zeta in *. set (ns1 := map (subst_node o (mk_name c)) (ns ++ [mk_const c v])) in *.
    destruct (IH rk1 ns1 (S c) W1 Su1 (fun x Hx => I x (or_intror Hx)) Hgo Sh1 Fr1) as (rk2 & ns2 & E2 & W2 & Su2 & Q2 & Sh2 & Fr2 & U2 & L2 & O2 & N2).
    exists rk2, ns2. cbn [replace_outputs]. fold (mk_const c v). rewrite E1, E2.
    replace (c + length ((o, v) :: ovs)) with (S c + length ovs) by (cbn; lia). split; [reflexivity|]. split; [exact W2|]. split; [exact Su2|].
    split; [eapply equiv_trans; eauto|]. split; [exact Sh2|]. split; [exact Fr2|].
    assert (Do : In o (defs (FGraph ns gi go))).
    { assert (Ho : In o (f_out n)) by (eapply in_combine_l; apply (I _ (or_introl eq_refl))).
      apply in_defs. split; [intros ->; apply (su_named _ _ _ Su); auto|]. right. exists n. split; auto. apply (su_in _ _ _ Su). }
    split.
    { intros m t Hm Ht. destruct (U2 m t Hm Ht) as [A B]. assert (C : t <> o /\ ((exists k, c <= k /\ t = mk_name k) \/ exists m', In m' ns /\ In t (fv_node m'))).
      - destruct B as [(k & Hk & ->)|(m' & Hm' & Ht')].
        + split; [|left; exists k; split; [lia|auto]]. intro K. destruct Fr as (_ & _ & Fr). destruct (Fr k ltac:(lia)) as (X & _). apply X. rewrite K. now apply defs_alldefs.
        + destruct (U1 m' t Hm' Ht') as [C D]. split; auto. destruct D as [D|D]; auto. left. exists c. auto.
      - destruct C as [C D]. split; auto. cbn [map fst]. intros [K|K]; [congruence|auto]. }
    unfold ns1 in L2, O2, N2. rewrite map_length, app_length in L2. rewrite (proj1 (outs_of_subst _ _ _)) in O2. rewrite (proj2 (outs_of_subst _ _ _)) in N2.
    rewrite (proj1 (outs_of_app _ _)) in O2. rewrite (proj2 (outs_of_app _ _)) in N2. cbn [length] in *.
    change (outs_of [mk_const c v]) with 0 in O2. change (nonconst [mk_const c v]) with 0 in N2. lia.
Qed.

Definition inv (rk : string -> nat) (st : fgraph * nat) : Prop := WW rk (fst st) /\ shaped (fst st) /\ fresh (fst st) (snd st).
Definition foldable (g : fgraph) (n : fnode) : Prop :=
  should_skip n = false /\ (forall t, In t (f_in n) -> input_is_const g t = true) /\
  (forall o, In o (f_out n) -> ~ In o (f_outs g)) /\ func_map (f_op n) <> None.

Lemma const_value_spec rk g t v : WW rk g -> shaped g -> input_is_const g t = true -> const_value V cval g t = Some v ->
  exists c, In c (f_nodes g) /\ const_node c t v.
Proof.
  intros W Sh I C. unfold const_value in C. destruct (producer g t) as [c|] eqn:P; [|discriminate].
  destruct (producer_in _ _ _ P) as [Hc Ht]. exists c. split; auto.
  assert (Nt : t <> "") by (intros ->; apply (fs_named _ _ _ _ Sh c Hc); auto).
  unfold input_is_const in I. rewrite P in I. destruct (String.eqb_spec t "") as [K|_]; [contradiction|]. cbn in I. apply is_const_spec in I.
  destruct (fs_const _ _ _ _ Sh c Hc I) as (A & B & t' & D). rewrite D in Ht. destruct Ht as [->|[]].
  split; auto.
Qed.
Lemma mapo_F2 {A B} (f : A -> option B) l : forall l', mapo f l = Some l' -> Forall2 (fun x y => f x = Some y) l l'.
Proof.
  induction l as [|x l IH]; cbn [mapo]; intros l' E; [injection E as <-; constructor|].
  destruct (f x) eqn:Ex; [|discriminate]. destruct (mapo f l) eqn:El; [|discriminate]. injection E as <-. constructor; auto.
Qed.

Lemma fold_node_spec rk g c n b st' : inv rk (g, c) -> In n (f_nodes g) -> should_skip n = false ->
  fold_node V cval enc func_map mk_name g n c = Some (b, st') ->
  exists rk', inv rk' st' /\ equiv g (fst st') /\ f_ins (fst st') = f_ins g /\ f_outs (fst st') = f_outs g /\
    ((b = false /\ st' = (g, c) /\ ~ foldable g n) \/
     (b = true /\ foldable g n /\ nonconst (f_nodes g) = S (nonconst (f_nodes (fst st'))) /\
      outs_of (f_nodes g) = outs_of (f_nodes (fst st')) + length (f_out n) /\
      length (f_nodes (fst st')) + 1 = length (f_nodes g) + length (f_out n))).
Proof.
  intros (W & Sh & Fr) Hn Sk E. cbn [fst snd] in *. unfold fold_node in E.
  destruct (forallb (input_is_const g) (f_in n) && negb (is_graph_output g n)) eqn:Q.
  2: { injection E as <- <-. exists rk. split; [split; auto|]. split; [apply equiv_refl|]. split; auto. split; auto. left. split; auto. split; auto.
       intros (_ & K1 & K2 & _). assert (Q' : forallb (input_is_const g) (f_in n) && negb (is_graph_output g n) = true); [|congruence].
       apply andb_true_iff. split; [apply forallb_forall; exact K1|]. apply negb_true_iff. unfold is_graph_output.
       destruct (existsb (fun o => mem o (f_outs g)) (f_out n)) eqn:X; auto. apply existsb_exists in X. destruct X as (o & Ho & M). apply mem_in in M. exfalso. exact (K2 o Ho M). }
  apply andb_true_iff in Q. destruct Q as [Q1 Q2]. rewrite forallb_forall in Q1. apply negb_true_iff in Q2.
  assert (Hgo : forall x, In x (f_outs g) -> ~ In x (f_out n)).
  { intros x Hx K. unfold is_graph_output in Q2. assert (X : existsb (fun o => mem o (f_outs g)) (f_out n) = true); [|congruence].
    apply existsb_exists. exists x. split; auto. now apply mem_in. }
  destruct (func_map (f_op n)) as [f|] eqn:Ef.
  2: { injection E as <- <-. exists rk. split; [split; auto|]. split; [apply equiv_refl|]. split; auto. split; auto. left. split; auto. split; auto.
       intros (_ & _ & _ & K). congruence. }
  destruct (mapo (const_value V cval g) (f_in n)) as [ins|] eqn:Ei; [|discriminate].
  destruct (f (f_attrs n) (length (f_out n)) ins) as [vs|] eqn:Ev; [|discriminate].
  destruct (replace_with_const V enc mk_name g n vs c) as [st1|] eqn:Er; [|discriminate]. injection E as <- <-.
  unfold replace_with_const in Er. destruct (Nat.eqb_spec (length (f_out n)) (length vs)) as [Lv|]; [|discriminate].
  destruct g as [ns gi go]. cbn [f_nodes f_ins f_outs] in *.
  assert (Dom : f_dom n = "" \/ f_dom n = "ai.onnx").
  { unfold should_skip in Sk. rewrite !orb_false_iff, negb_false_iff in Sk. destruct Sk as [[[K _] _] _]. apply orb_true_iff in K. rewrite !String.eqb_eq in K. exact K. }
  assert (Nc : is_const n = false) by (unfold should_skip in Sk; rewrite !orb_false_iff in Sk; tauto).
  assert (Fl : f_bodies n = [] /\ okn (f_op n) (f_attrs n) (length (f_out n))) by (apply (fs_flat _ _ _ _ Sh n Hn); [rewrite <- is_const_spec; congruence|congruence]). destruct Fl as [Fl Okn].
  assert (Su : supports ns n vs).
  { constructor; auto; [apply (fs_named _ _ _ _ Sh n Hn)|]. exists ins. split.
    - eapply Forall2_imp; [|apply mapo_F2; exact Ei]. intros t v Ht _ K. eapply const_value_spec in K; eauto.
    - intro vs'. eapply fa; eauto. }
  destruct (replace_outputs_spec gi go n vs (combine (f_out n) vs) rk ns c W Su (incl_refl _) Hgo Sh Fr)
    as (rk1 & ns1 & E1 & W1 & Su1 & Q & Sh1 & Fr1 & U1 & L1 & O1 & N1).
  rewrite E1 in Er. injection Er as <-. cbn [fst snd f_ins f_outs f_nodes].
  assert (Hn1 := su_in _ _ _ Su1). apply in_split in Hn1. destruct Hn1 as (l1 & l2 & ->).
  assert (G1 := W1 _ (within_refl _)).
  rewrite without_split; [|apply (g_names _ _ G1)|reflexivity].
  rewrite combine_fst in U1 by lia.
  assert (Nrd : forall m t, In m (l1 ++ l2) -> In t (fv_node m) -> t <> "" -> ~ In t (f_out n)).
  { intros m t Hm Ht _. apply (U1 m t); auto. rewrite in_app_iff in *. cbn. tauto. }
  destruct (remove_valid rk1 l1 n l2 gi go W1 Nrd Hgo) as [W2 Fv2].
  exists rk1. split; [|split; [|split; [reflexivity|split; [reflexivity|]]]].
  - split; [exact W2|]. cbn [fst snd]. split.
    + destruct Sh1 as [S1 S2 S3]. cbn [f_nodes] in *. assert (In' : forall m, In m (l1 ++ l2) -> In m (l1 ++ n :: l2)) by (intro m; rewrite !in_app_iff; cbn; tauto).
      constructor; cbn [f_nodes]; auto.
    + destruct Fr1 as (F1 & F2 & F3). split; auto. split; auto. intros k Hk. destruct (F3 k Hk) as (A1 & A2 & A3). split; [|split].
      * intro K. apply A1. cbn [alldefs] in *. rewrite map_app, concat_app in *. cbn [map concat]. rewrite !in_app_iff in *. tauto.
      * intro K. apply A2. apply Fv2. exact K.
      * intro K. apply A3. cbn [f_nodes] in *. rewrite map_app, in_app_iff in *. cbn. tauto.
  - eapply equiv_trans; [exact Q|]. eapply (remove_equiv V op_rel ext rk1); eauto.
    intros e A. exists (bind V (f_out n) vs e). split; [intros t Ht; now apply bind_frame|].
    apply holds_eq. exists vs. rewrite Fl. cbn [map]. destruct Su1 as [Hn1 _ Nm (ins' & F & Rel)]. split.
    + cut (map (bind V (f_out n) vs e) (f_in n) = ins'); [intros ->; apply Rel; reflexivity|].
      assert (Nin : forall t, In t (f_in n) -> ~ In t (f_out n)).
      { intros t Ht K. assert (Nt : t <> "") by (intros ->; auto). assert (X := g_acyclic _ _ G1 n t t Hn1 (fv_in n t Ht) K Nt). lia. }
      assert (Src : forall t v k, In k (l1 ++ n :: l2) -> const_node k t v -> e t = v).
      { intros t v k Hk Kc. apply (const_holds k t v); auto. apply A. rewrite in_app_iff in *. cbn in Hk. destruct Hk as [Hk|[Hk|Hk]]; auto.
        subst k. destruct Kc as (Kc & _). apply is_const_spec in Kc. congruence. }
      clear -F Nin Src. revert F Nin. generalize (f_in n) as l. intros l F. induction F as [|t v l l' (k & Hk & Kc) _ IH]; intro Nin; cbn [map]; auto. f_equal.
      * rewrite bind_frame; [eapply Src; eauto|]. rewrite in_nonempty. intros [K _]. apply (Nin t); cbn; auto.
      * apply IH. intros. apply Nin. cbn. auto.
    + apply bind_produces; [|lia]. assert (Sa := g_ssa _ _ G1). apply alldefs_split in Sa. destruct Sa as (_ & Sa & _).
      clear -Sa. destruct n as [d1 d2 d3 d4 d5 d6 d7]. cbn [alldefs_node f_out] in *. apply NoDup_app_inv in Sa. tauto.
  - right. split; auto. destruct (outs_of_remove l1 n l2 Nc) as [R1 R2]. split.
    { split; auto. split; auto. split; [intros o Ho K; exact (Hgo o K Ho)|congruence]. }
    assert (Lc : length (combine (f_out n) vs) = length (f_out n)) by (rewrite combine_length; lia). rewrite Lc in L1.
    rewrite app_length in *. cbn [length] in *. lia.
Qed.

Lemma fold_pass_spec fuel : forall rk i st ch b st', inv rk st ->
  fold_pass V cval enc func_map mk_name fuel i st ch = Some (b, st') ->
  exists rk', inv rk' st' /\ equiv (fst st) (fst st') /\ f_ins (fst st') = f_ins (fst st) /\ f_outs (fst st') = f_outs (fst st) /\
    nonconst (f_nodes (fst st')) <= nonconst (f_nodes (fst st)) /\
    ((b = ch /\ st' = st /\ forall j n, i <= j -> nth_error (f_nodes (fst st)) j = Some n -> ~ foldable (fst st) n) \/
     (b = true /\ nonconst (f_nodes (fst st')) < nonconst (f_nodes (fst st)))).
Proof.
  induction fuel as [|fuel IH]; intros rk i st ch b st' Iv E; [discriminate|]. cbn [fold_pass] in E.
  destruct (nth_error (f_nodes (fst st)) i) as [n|] eqn:En.
  2: { injection E as <- <-. exists rk. split; auto. split; [apply equiv_refl|]. split; auto. split; auto. split; auto. left. split; auto. split; auto.
       intros j n Hj Hn. apply nth_error_None in En. assert (K : nth_error (f_nodes (fst st)) j <> None) by congruence. apply nth_error_Some in K. lia. }
  destruct (should_skip n) eqn:Sk.
  - destruct (IH rk (S i) st ch b st' Iv E) as (rk' & I' & Q & E1 & E2 & L & K). exists rk'. split; auto. split; auto. split; auto. split; auto. split; auto.
    destruct K as [(-> & -> & K)|K]; auto. left. split; auto. split; auto. intros j m Hj Hm. destruct (Nat.eq_dec i j) as [<-|].
    + assert (m = n) by congruence. subst. intros (X & _). congruence.
    + apply (K j); auto. lia.
  - destruct (fold_node V cval enc func_map mk_name (fst st) n (snd st)) as [[b1 st1]|] eqn:Ef; [|discriminate].
    destruct (fold_node_spec rk (fst st) (snd st) n b1 st1) as (rk1 & I1 & Q1 & A1 & A2 & K1); auto.
    { eapply nth_error_In; eauto. }
    destruct (IH rk1 (S i) st1 _ b st' I1 E) as (rk' & I' & Q & E1 & E2 & L & K). exists rk'. split; auto.
    split; [eapply equiv_trans; eauto|]. split; [congruence|]. split; [congruence|].
    destruct K1 as [(-> & K1 & Nf)|(-> & _ & N1 & _)].
    + assert (K2 : st1 = st) by (rewrite K1; symmetry; apply surjective_pairing). subst st1. split; [exact L|]. rewrite orb_false_r in K. destruct K as [(-> & -> & K)|K]; auto.
      left. split; auto. split; auto. intros j m Hj Hm. destruct (Nat.eq_dec i j) as [<-|]; [|apply (K j); auto; lia].
      assert (m = n) by congruence. subst. exact Nf.
    + split; [lia|]. right. rewrite orb_true_r in K. split; [|lia]. destruct K as [(K & _)|(K & _)]; exact K.
Qed.

Lemma fold_graph_spec fuel : forall rk st st', inv rk st -> fold_graph V cval enc func_map mk_name fuel st = Some st' ->
  exists rk', inv rk' st' /\ equiv (fst st) (fst st') /\ f_ins (fst st') = f_ins (fst st) /\ f_outs (fst st') = f_outs (fst st) /\
    forall n, In n (f_nodes (fst st')) -> ~ foldable (fst st') n.
Proof.
  induction fuel as [|fuel IH]; intros rk st st' Iv E; [discriminate|]. cbn [fold_graph] in E.
  destruct (fold_pass V cval enc func_map mk_name (S (length (f_nodes (fst st)) + outs_of (f_nodes (fst st)))) 0 st false) as [[b st1]|] eqn:Ep; [|discriminate].
  destruct (fold_pass_spec _ rk 0 st false b st1 Iv Ep) as (rk1 & I1 & Q1 & A1 & A2 & L & K).
  destruct b.
  - destruct (IH rk1 st1 st' I1 E) as (rk' & I' & Q & E1 & E2 & F). exists rk'. split; auto. split; [eapply equiv_trans; eauto|]. split; [congruence|]. split; [congruence|auto].
  - injection E as <-. destruct K as [(_ & -> & K)|(K & _)]; [|discriminate]. exists rk1. split; auto. split; auto. split; auto. split; auto.
    intros n Hn. apply In_nth_error in Hn. destruct Hn as (j & Hj). apply (K j); auto. lia.
Qed.

(** termination: nothing but a folding function (or an undecodable constant) can make the pass fail *)
Definition never_raises (g : fgraph) : Prop :=
  (forall op f at_ k ins, func_map op = Some f -> exists vs, f at_ k ins = Some vs /\ length vs = k) /\
  (forall n, In n (f_nodes g) -> constant n -> cval (f_attrs n) <> None) /\
  (forall n, In n (f_nodes g) -> func_map (f_op n) <> None -> ~ In "" (f_in n)).
Definition calm (ns : list fnode) : Prop :=
  (forall n, In n ns -> constant n -> cval (f_attrs n) <> None) /\
  (forall n, In n ns -> func_map (f_op n) <> None -> ~ In "" (f_in n)).
Hypothesis total : forall op f at_ k ins, func_map op = Some f -> exists vs, f at_ k ins = Some vs /\ length vs = k.

Lemma replace_outputs_calm ovs : forall ns c ns' c', calm ns -> (forall k, mk_name k <> "") ->
  replace_outputs V enc mk_name ovs ns c = Some (ns', c') -> calm ns'.
Proof.
  induction ovs as [|[o v] ovs IH]; cbn [replace_outputs]; intros ns c ns' c' C N E; [injection E as <- <-; exact C|].
  destruct (replace_all o (mk_name c) (ns ++ [FNode (mk_name c) "Const" "" (enc v) [] [mk_name c] []])) as [ns1|] eqn:R; [|discriminate].
  apply (IH ns1 (S c) ns' c'); auto. unfold replace_all in R.
  assert (C1 : calm (ns ++ [FNode (mk_name c) "Const" "" (enc v) [] [mk_name c] []])).
  { destruct C as [A B]. split; intros n Hn; apply in_app_iff in Hn; destruct Hn as [Hn|[<-|[]]]; auto; cbn [f_attrs].
    intros _. rewrite (proj2 cm). discriminate. }
  destruct (String.eqb o (mk_name c)); [injection R as <-; exact C1|]. destruct (existsb _ _); [discriminate|]. injection R as <-.
  destruct C1 as [A B]. split; intros n' Hn'; apply in_map_iff in Hn'; destruct Hn' as (n & <- & Hn).
  - intro K. replace (f_attrs (subst_node o (mk_name c) n)) with (f_attrs n) by (destruct n; reflexivity). apply (A n Hn). destruct n; exact K.
  - intro K. rewrite f_in_subst. intro X. apply in_map_iff in X. destruct X as (t & Et & Ht). unfold sub in Et. destruct (String.eqb_spec t o).
    + exact (N c Et).
    + subst t. revert Ht. apply (B n Hn). destruct n; exact K.
Qed.
Lemma fold_node_total rk g c n : inv rk (g, c) -> In n (f_nodes g) -> should_skip n = false -> calm (f_nodes g) ->
  exists b st', fold_node V cval enc func_map mk_name g n c = Some (b, st') /\ calm (f_nodes (fst st')).
Proof.
  intros (W & Sh & Fr) Hn Sk C. cbn [fst snd] in *. unfold fold_node.
  destruct (forallb (input_is_const g) (f_in n) && negb (is_graph_output g n)) eqn:Q; [|exists false, (g, c); auto].
  apply andb_true_iff in Q. destruct Q as [Q1 Q2]. rewrite forallb_forall in Q1. apply negb_true_iff in Q2.
  destruct (func_map (f_op n)) as [f|] eqn:Ef; [|exists false, (g, c); auto].
  destruct (mapo_forall (const_value V cval g) (fun _ _ => True) (f_in n)) as (ins & Ei & _).
  { intros t Ht. assert (I := Q1 t Ht). unfold input_is_const in I. apply orb_true_iff in I. destruct I as [I|I].
    - apply String.eqb_eq in I. subst. exfalso. apply (proj2 C n Hn); auto. congruence.
    - unfold const_value. destruct (producer g t) as [k|] eqn:P; [|discriminate]. apply is_const_spec in I. destruct (producer_in _ _ _ P) as [Hk _].
      destruct (cval (f_attrs k)) eqn:Ec; [eauto|]. exfalso. exact (proj1 C k Hk I Ec). }
  rewrite Ei. destruct (total _ f (f_attrs n) (length (f_out n)) ins Ef) as (vs & Ev & Lv). rewrite Ev. unfold replace_with_const.
  rewrite (proj2 (Nat.eqb_eq _ _) (eq_sym Lv)).
  destruct g as [ns gi go]. cbn [f_nodes f_ins f_outs] in *.
  assert (Hgo : forall x, In x go -> ~ In x (f_out n)).
  { intros x Hx K. unfold is_graph_output in Q2. assert (X : existsb (fun o => mem o go) (f_out n) = true); [|unfold f_outs in Q2; congruence].
    apply existsb_exists. exists x. split; auto. now apply mem_in. }
  assert (Dom : f_dom n = "" \/ f_dom n = "ai.onnx").
  { unfold should_skip in Sk. rewrite !orb_false_iff, negb_false_iff in Sk. destruct Sk as [[[K _] _] _]. apply orb_true_iff in K. rewrite !String.eqb_eq in K. exact K. }
  assert (Nc : is_const n = false) by (unfold should_skip in Sk; rewrite !orb_false_iff in Sk; tauto).
  assert (Fl : f_bodies n = [] /\ okn (f_op n) (f_attrs n) (length (f_out n))) by (apply (fs_flat _ _ _ _ Sh n Hn); [rewrite <- is_const_spec; congruence|congruence]). destruct Fl as [Fl Okn].
  assert (Su : supports ns n vs).
  { constructor; auto; [apply (fs_named _ _ _ _ Sh n Hn)|]. exists ins. split.
    - eapply Forall2_imp; [|apply mapo_F2; exact Ei]. intros t v Ht _ K. eapply const_value_spec in K; eauto.
    - intro vs'. eapply fa; eauto. }
  destruct (replace_outputs_spec gi go n vs (combine (f_out n) vs) rk ns c W Su (incl_refl _) Hgo Sh Fr)
    as (rk1 & ns1 & E1 & _). rewrite E1. eexists _, _. split; [reflexivity|]. cbn [fst f_nodes].
  assert (C1 : calm ns1) by (eapply replace_outputs_calm; [exact C|apply Fr|exact E1]).
  destruct C1 as [A B]. split; intros m Hm; apply without_in in Hm; destruct Hm; auto.
Qed.
Lemma fold_pass_total fuel : forall rk i st ch, inv rk st -> calm (f_nodes (fst st)) ->
  (length (f_nodes (fst st)) - i) + outs_of (f_nodes (fst st)) < fuel ->
  exists b st', fold_pass V cval enc func_map mk_name fuel i st ch = Some (b, st') /\ calm (f_nodes (fst st')).
Proof.
  induction fuel as [|fuel IH]; intros rk i st ch Iv C L; [lia|]. cbn [fold_pass].
  destruct (nth_error (f_nodes (fst st)) i) as [n|] eqn:En; [|eexists _, _; split; [reflexivity|exact C]].
  assert (Li : i < length (f_nodes (fst st))) by (apply nth_error_Some; congruence).
  destruct (should_skip n) eqn:Sk; [apply (IH rk); auto; lia|].
  destruct (fold_node_total rk (fst st) (snd st) n) as (b & st1 & E & C1); auto.
  { eapply nth_error_In; eauto. }
  rewrite E. destruct (fold_node_spec rk (fst st) (snd st) n b st1) as (rk1 & I1 & _ & _ & _ & K); auto.
  { eapply nth_error_In; eauto. }
  apply (IH rk1); auto. destruct K as [(_ & -> & _)|(_ & _ & _ & O & Ln)]; [rewrite <- surjective_pairing; lia|lia].
Qed.
Lemma fold_graph_total fuel : forall rk st, inv rk st -> calm (f_nodes (fst st)) -> nonconst (f_nodes (fst st)) < fuel ->
  exists st', fold_graph V cval enc func_map mk_name fuel st = Some st'.
Proof.
  induction fuel as [|fuel IH]; intros rk st Iv C L; [lia|]. cbn [fold_graph].
  destruct (fold_pass_total (S (length (f_nodes (fst st)) + outs_of (f_nodes (fst st)))) rk 0 st false Iv C) as (b & st1 & E & C1); [lia|].
  rewrite E. destruct b; [|eauto]. destruct (fold_pass_spec _ rk 0 st false true st1 Iv E) as (rk1 & I1 & _ & _ & _ & _ & K).
  apply (IH rk1); auto. destruct K as [(K & _)|(_ & K)]; [discriminate|lia].
Qed.
End S.
