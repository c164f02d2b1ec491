(** Converting While: the nodes of the result. *)
From Coq Require Import String List Bool ZArith Arith Lia Permutation.
From Verif Require Import FGraph FGraphProofs FGraphSpec IdentityProofs InlineModel InlineSpec InlineProofs InlineProofs3 InlineProofs4 WhileSpec WhileModel WhileProofs WhileProofs2 WhileProofs3 WhileProofs4 WhileProofs5 WhileProofs6.
Import ListNotations.
Local Open Scope string_scope.
Local Open Scope list_scope.

Lemma obind_some {X Y} (o : option X) (f : X -> option Y) y : obind o f = Some y -> exists x, o = Some x /\ f x = Some y.
Proof. destruct o as [x|]; [|discriminate]. cbn. eauto. Qed.
Lemma bind_inputs_ext b b' g : (forall i, dict_get b i = dict_get b' i) -> bind_inputs b g = bind_inputs b' g.
Proof.
  intro E. unfold bind_inputs. apply flat_map_ext. intro n. unfold bind_node. destruct (f_out n) as [|o os]; auto. destruct (mem o (f_ins g)); auto. unfold bound. now rewrite E.
Qed.
Definition nosv (sv : dict) (k : string) : bool := match dict_get sv k with None => true | Some _ => false end.
Lemma state_filter sv : forall ks ci bo win, length ci = length ks -> length bo = length ks -> length win = length ks ->
  (forall i k x p, nth_error ks i = Some k -> nth_error win i = Some x -> nth_error ci i = Some p -> dict_get sv p = match k with Read => Some x | _ => None end) ->
  filter (fun p => nosv sv (fst p)) (combine (not_lst ks ci) (not_lst ks (merge ks bo win))) = combine (filter (nosv sv) (not_lst ks ci)) (of_kind Var ks bo).
Proof.
  induction ks as [|k ks IH]; intros [|c ci] [|b bo] [|w win] L1 L2 L3 H; try discriminate; [reflexivity|]. cbn [length] in *. rewrite merge_cons, !not_lst_cons, of_kind_cons.
  pose proof (H 0 k w c eq_refl eq_refl eq_refl) as H0. specialize (IH ci bo win ltac:(lia) ltac:(lia) ltac:(lia) (fun i => H (S i))).
  assert (Hn : nosv sv c = match k with Read => false | _ => true end) by (unfold nosv; rewrite H0; destruct k; auto).
  destruct k; cbn [kind_eqb] in *; cbn [combine filter fst]; auto; rewrite Hn; cbn [combine]; [now rewrite IH|exact IH].
Qed.
Lemma state_pairs sv : forall ks ci bo win, length ci = length ks -> length bo = length ks -> length win = length ks ->
  (forall i k x p, nth_error ks i = Some k -> nth_error win i = Some x -> nth_error ci i = Some p -> dict_get sv p = match k with Read => Some x | _ => None end) ->
  forall k v, In (k, v) (combine (not_lst ks ci) (not_lst ks (merge ks bo win))) -> dict_get sv k = None \/ dict_get sv k = Some v.
Proof.
  induction ks as [|k ks IH]; intros [|c ci] [|b bo] [|w win] L1 L2 L3 H; try discriminate; [intros k v []|]. cbn [length] in *. rewrite merge_cons, !not_lst_cons.
  pose proof (H 0 k w c eq_refl eq_refl eq_refl) as H0. specialize (IH ci bo win ltac:(lia) ltac:(lia) ltac:(lia) (fun i => H (S i))).
  destruct k; cbn [kind_eqb] in *; auto; intros k v [E|I]; auto; injection E as <- <-; auto.
Qed.
Lemma not_lst_length {A B} ks : forall (a : list A) (b : list B), length a = length ks -> length b = length ks -> length (not_lst ks a) = length (not_lst ks b).
Proof. induction ks as [|k ks IH]; intros [|x a] [|y b] L1 L2; try discriminate; [reflexivity|]. cbn [length] in *. rewrite !not_lst_cons. specialize (IH a b ltac:(lia) ltac:(lia)). destruct (kind_eqb k Lst); cbn [length]; lia. Qed.
Lemma not_lst_nodup {A} ks : forall l : list A, NoDup l -> NoDup (not_lst ks l).
Proof.
  induction ks as [|k ks IH]; intros [|x l] ND; try constructor. rewrite not_lst_cons. inversion ND as [|? ? N ND']; subst. destruct (kind_eqb k Lst); auto. constructor; auto.
  intro K. apply N. apply in_not_lst in K. destruct K as (i & k' & _ & _ & E). now apply nth_error_In in E.
Qed.
Lemma filter_all {A} (p : A -> bool) l : (forall x, In x l -> p x = true) -> filter p l = l.
Proof. induction l as [|a l IH]; intro H; [reflexivity|]. cbn [filter]. rewrite (H a) by (left; auto). f_equal. apply IH. intros. apply H. right. auto. Qed.

Section Structure.
Variables (order : list fnode -> list fnode) (op_of : string -> string) (w : while_op) (max : option Z) (const_attrs : list (string * attr)) (shared : bool).
Variables (fresh cname cond_name : string) (cond body : fgraph) (ta_reads : list string) (nodes : list fnode) (pairs : list (string * string)).
Variables (ks : list kind) (ws : list lwrite).
Hypothesis Ord : forall l, Permutation (order l) l.
Hypothesis E : convert_while order op_of w max const_attrs shared fresh cname cond_name cond body ta_reads = Some (nodes, pairs).
Notation mi := (max_input (w_ins w) max shared fresh).
Hypothesis HW : while_node op_of ta_reads ks ws cond body (w_ins w) (w_outs w) mi cname (cond_param cname) cond_name.
Definition copied : bool := match max with Some z => negb (Z.eqb z (-1)) && shared | None => false end.
Definition made_nodes : list fnode :=
  match max with
  | Some z => if copied then [FNode fresh "Const" "" const_attrs [] [fresh] []] else []
  | None => [FNode (w_name w ++ "_cast")%string "Cast" "" [("to", AInt 7)] [mi] [NamesModel.port_name (w_name w ++ "_cast")%string 0%N] []]
  end.
Definition trip_name : string :=
  match max with Some z => if Z.eqb z (-1) then "" else mi | None => NamesModel.port_name (w_name w ++ "_cast")%string 0%N end.

Lemma structure : exists i0 i1 win n0 n1 nm b0 b1 bi o0 o1 bo c0 c1 ci strays news0 q wired cns c,
  w_ins w = i0 :: i1 :: win /\ w_outs w = n0 :: n1 :: nm /\ f_ins body = b0 :: b1 :: bi /\ f_outs body = o0 :: o1 :: bo /\ f_ins cond = c0 :: c1 :: ci /\
  length win = length ks /\ length nm = length ks /\ length bi = length ks /\ length bo = length ks /\ length ci = length ks /\
  nodes = (made_nodes ++ strays ++ news0) ++ [FNode (w_name w ++ "_loop")%string "Loop" "" [] (trip_name :: q :: of_kind Var ks win)
            (output_names (w_name w ++ "_loop")%string (length (of_kind Var ks nm ++ rev (of_kind Lst ks nm)))) [wired]] /\
  pairs = combine (of_kind Var ks nm ++ rev (of_kind Lst ks nm)) (output_names (w_name w ++ "_loop")%string (length (of_kind Var ks nm ++ rev (of_kind Lst ks nm)))) /\
  (forall n, In n strays -> placeholder n) /\
  prefix_graph cond_name (bind_inputs (combine (c0 :: c1 :: not_lst ks ci) (i0 :: mi :: not_lst ks win)) (drop_lists ks cond)) (f_outs cond) = Some (news0, [q]) /\
  prefix_graph "cond__" (bind_inputs (combine (c0 :: c1 :: not_lst ks ci) (b0 :: mi :: not_lst ks (merge ks bo win))) (drop_lists ks cond)) (f_outs cond) = Some (cns, [c]) /\
  f_ins wired = b0 :: cond_param cname :: of_kind Var ks bi /\
  f_outs wired = c :: of_kind Var ks bo ++ rev (map wr_out ws) /\
  (forall m, In m (f_nodes (equations wired)) <-> (~ placeholder m /\ exists n, In n (f_nodes body) /\ m = T ks mi win b0 b1 bi n) \/ In m cns).
Proof.
  destruct HW as [Lin Lout Roles LF HB HC]. pose proof (lb_ins _ _ _ _ _ _ HB) as Lb. pose proof (lb_outs _ _ _ _ _ _ HB) as Lo. pose proof (lc_ins _ _ _ _ _ HC) as Lc.
  destruct (w_ins w) as [|i0 [|i1 win]] eqn:Ei; try discriminate. destruct (w_outs w) as [|n0 [|n1 nm]] eqn:En; try discriminate.
  destruct (f_ins body) as [|b0 [|b1 bi]] eqn:Ebi; try discriminate. destruct (f_outs body) as [|o0 [|o1 bo]] eqn:Ebo; try discriminate. destruct (f_ins cond) as [|c0 [|c1 ci]] eqn:Eci; try discriminate.
  cbn [length skipn firstn app] in *. assert (Lw : length win = length ks) by lia. assert (Lnm : length nm = length ks) by lia. assert (Lbi : length bi = length ks) by lia. assert (Lbo : length bo = length ks) by lia. assert (Lci : length ci = length ks) by lia.
  clear Lin Lout Lb Lo Lc. set (M := max_input (i0 :: i1 :: win) max shared fresh) in *.
  assert (TC : trip_count w max const_attrs shared fresh = Some (i0 :: M :: win, trip_name, made_nodes)).
  { unfold trip_count, trip_name, made_nodes, copied, M, max_input. rewrite Ei. cbn [nth]. destruct max as [m|]; [|reflexivity]. destruct (Z.eqb m (-1)); [reflexivity|]. destruct shared; reflexivity. }
  unfold convert_while in E. rewrite TC in E. cbn [obind nth] in E. rewrite Ebi, Eci, Ebo, En in E. cbn [length] in E.
  replace (Nat.ltb (S (S (length bi))) (S (S (length win)))) with false in E by (symmetry; apply Nat.ltb_ge; lia). replace (Nat.ltb (S (S (length ci))) (S (S (length win)))) with false in E by (symmetry; apply Nat.ltb_ge; lia). cbn [orb] in E.
  unfold kinds in E. cbn [skipn] in E. rewrite (kinds_eq op_of ta_reads ks win bi Lw Lbi) in E by eauto. cbn [nth] in E.
  pose proof (deletions ks b0 b1 c0 c1 i0 M o0 o1 n0 n1 bi ci win bo nm LF Lbi Lci Lw Lbo Lnm) as D. apply obind_some in D. destruct D as (names & D1 & D). apply obind_some in D. destruct D as (bouts & D2 & D3).
  rewrite D1 in E. cbn [obind] in E. rewrite D2 in E. cbn [obind] in E. rewrite D3 in E. cbn [obind l_cond_ins l_body_ins l_tf l_names l_scans l_body_outs] in E.
  apply obind_some in E. destruct E as (bd & Eb & E1). apply obind_some in E1. destruct E1 as ([g couts] & Ep & E2). apply obind_some in E2. destruct E2 as (q & Eq & E3). apply obind_some in E3. destruct E3 as (wired & Ew & E4).
  injection E4 as <- <-. cbn [skipn] in *. rewrite loop_vars_eq.
  destruct (HC) as [FC _ Lres HL Ib Ii]. rewrite Eci in *. cbn [skipn firstn app] in *. unfold keep2 in Ib, Ii. cbn [skipn firstn app] in Ib, Ii.
  assert (NDc : NoDup (c0 :: c1 :: not_lst ks ci)).
  { pose proof (fn_params _ FC) as ND. rewrite Eci in ND. inversion ND as [|? ? N0 ND1]; subst. inversion ND1 as [|? ? N1 ND2]; subst. assert (Inc : forall x, In x (not_lst ks ci) -> In x ci) by (intros x K; apply in_not_lst in K; destruct K as (i & k' & _ & _ & X); now apply nth_error_In in X).
    constructor; [|constructor; [|now apply not_lst_nodup]]; [intros [K|K]; apply N0; [left; auto|right; auto]|intro K; apply N1; auto]. }
  (* the condition before the loop *)
  assert (B1 : forall i, dict_get bd i = dict_get (combine (c0 :: c1 :: not_lst ks ci) (i0 :: M :: not_lst ks win)) i).
  { intro i. unfold parameter_binding in Eb. cbn [f_ins] in Eb. rewrite (bind_loop_get [] _ _ _ _ NDc Eb (i0 :: M :: not_lst ks win)).
    - destruct (dict_get _ i); reflexivity.
    - cbn [length]. rewrite (not_lst_length ks win ci); auto.
    - rewrite !filter_all; auto.
    - auto. }
  assert (Ib' : inlinable cond_name bd (drop_lists ks cond)) by (eapply inlinable_ext; [|exact Ib]; intro; symmetry; apply B1).
  unfold inline_subgraph in Ep. cbn [f_outs] in Ep. destruct (prefix_graph cond_name _ (f_outs cond)) as [[ns os]|] eqn:Epg; [|discriminate]. injection Ep as <- <-. cbn [f_nodes] in *.
  pose proof (strip_bound ks cond_name bd cond FC) as SB. rewrite Eci in SB. unfold keep2 in SB. cbn [skipn firstn app length] in SB. specialize (SB ltac:(lia) Ib').
  destruct (prefix_strip _ _ _ _ _ Epg) as (strays & news0 & -> & St & Epg'). rewrite SB, (bind_inputs_ext _ _ _ B1) in Epg'.
  assert (Eos : exists q', os = [q']).
  { pose proof (results cond_name _ (drop_lists ks cond) Ib news0 os Epg') as R. apply (f_equal (@length _)) in R. rewrite map_length in R. cbn [f_outs drop_lists] in R. rewrite Lres in R. destruct os as [|q' [|]]; try discriminate. eauto. }
  destruct Eos as (q' & ->). cbn in Eq. injection Eq as <-.
  (* the body *)
  assert (Elists : rev (of_kind Lst ks bo) = rev (of_kind Lst ks bo)) by reflexivity.
  destruct (wired_structure ks body ws M win cname b0 b1 o0 o1 bi bo Ebi Ebo Lw HB order _ _ wired Ord Ew) as (bd2 & cns2 & couts2 & c & Eb2 & Ep2 & Ec2 & Wi & Wo & Wn).
  set (sv := state_vars ks win ci (dict_set [] c1 M)) in *. cbn [f_outs] in Ep2.
  destruct (ci_facts cond c0 c1 ci Eci FC) as (N01 & N0 & N1 & NDci).
  destruct (state_vars_get ks win ci (dict_set [] c1 M) Lw Lci NDci) as [SV1 SV2]. fold sv in SV1, SV2.
  assert (SVk : forall i k x p, nth_error ks i = Some k -> nth_error win i = Some x -> nth_error ci i = Some p -> dict_get sv p = match k with Read => Some x | _ => None end).
  { intros i k x p H1 H2 H3. rewrite (SV2 i k x p H1 H2 H3). destruct k; auto; rewrite dict_get_set; destruct (String.eqb_spec c1 p) as [->|]; auto; exfalso; apply N1; now apply nth_error_In in H3. }
  assert (SV0 : dict_get sv c0 = None) by (rewrite SV1 by auto; rewrite dict_get_set; destruct (String.eqb_spec c1 c0); [congruence|reflexivity]).
  assert (SVm : dict_get sv c1 = Some M) by (rewrite SV1 by auto; rewrite dict_get_set, String.eqb_refl; reflexivity).
  assert (B2 : forall i, dict_get bd2 i = dict_get (combine (c0 :: c1 :: not_lst ks ci) (b0 :: M :: not_lst ks (merge ks bo win))) i).
  { intro i. unfold parameter_binding in Eb2. cbn [f_ins] in Eb2. rewrite (bind_loop_get sv _ _ _ _ NDc Eb2 (b0 :: M :: not_lst ks (merge ks bo win))).
    - destruct (dict_get (combine _ _) i); reflexivity.
    - cbn [length]. rewrite (not_lst_length ks (merge ks bo win) ci); auto. apply merge_length; auto.
    - cbn [combine filter fst]. rewrite SV0, SVm. cbn [combine]. f_equal. exact (state_filter sv ks ci bo win Lci Lbo Lw SVk).
    - intros k v [K|[K|K]]; [injection K as <- <-; auto|injection K as <- <-; auto|]. exact (state_pairs sv ks ci bo win Lci Lbo Lw SVk k v K). }
  rewrite Ebi in Ii. rewrite Ebo in Ii. cbn [firstn skipn app] in Ii.
  assert (Ii' : inlinable "cond__" bd2 (drop_lists ks cond)) by (eapply inlinable_ext; [|exact Ii]; intro; symmetry; apply B2).
  pose proof (strip_bound ks "cond__" bd2 cond FC) as SB2. rewrite Eci in SB2. unfold keep2 in SB2. cbn [skipn firstn app length] in SB2. specialize (SB2 ltac:(lia) Ii').
  destruct (prefix_strip _ _ _ _ _ Ep2) as (strays2 & news2 & -> & St2 & Epg2). rewrite SB2, (bind_inputs_ext _ _ _ B2) in Epg2.
  assert (Eos2 : couts2 = [c]).
  { pose proof (results "cond__" _ (drop_lists ks cond) Ii news2 couts2 Epg2) as R. apply (f_equal (@length _)) in R. rewrite map_length in R. cbn [f_outs drop_lists] in R. rewrite Lres in R. destruct couts2 as [|q2 [|]]; try discriminate. cbn in Ec2. congruence. }
  subst couts2.
  assert (NPc : forall m, In m news2 -> ~ placeholder m).
  { intros m Im. destruct (copy_inv "cond__" _ (drop_lists ks cond) Ii news2 [c] Epg2 m Im) as [(n & _ & NP & ->)|(nm0 & at_ & i & p & _ & _ & ->)]; [exact NP|now apply identity_regular]. }
  exists i0, i1, win, n0, n1, nm, b0, b1, bi, o0, o1, bo, c0, c1, ci, strays, news0, q', wired, news2, c.
  do 10 (split; [solve [auto]|]). split; [reflexivity|]. split; [reflexivity|]. split; [intros n I; apply graph_input_iff; auto|].
  split; [exact Epg'|]. split; [exact Epg2|]. split; [exact Wi|]. split; [exact Wo|].
  intro m. rewrite in_equations. split.
  - intros [I NP]. apply (Wn m NP) in I. destruct I as [I|I]; [left; auto|]. apply in_app_iff in I. destruct I as [I|I]; [|right; auto]. exfalso. apply NP. apply graph_input_iff. auto.
  - intros [[NP I]|I]; split; auto; apply Wn; auto. right. apply in_app_iff. auto.
Qed.
End Structure.
