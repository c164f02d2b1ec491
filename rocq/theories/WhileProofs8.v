(** Converting While: the Loop node computes what the While node computes. *)
From Coq Require Import String List Bool ZArith Arith Lia Permutation.
From Verif Require Import FGraph FGraphProofs FGraphSpec IdentityProofs InlineModel InlineSpec InlineProofs InlineProofs3 InlineProofs4 WhileSpec WhileModel WhileProofs WhileProofs2 WhileProofs3 WhileProofs4 WhileProofs5 WhileProofs6 WhileProofs7.
Import ListNotations.
Local Open Scope string_scope.
Local Open Scope list_scope.

Lemma of_kind_pos k ks : forall i, nth_error ks i = Some k -> exists j, forall A (l : list A), length l = length ks -> nth_error (of_kind k ks l) j = nth_error l i.
Proof.
  induction ks as [|k0 ks IH]; intros [|i] E; try discriminate.
  - injection E as ->. exists 0. intros A [|x l] L; [discriminate|]. rewrite of_kind_cons. assert (kind_eqb k k = true) as -> by (destruct k; reflexivity). reflexivity.
  - destruct (IH i E) as (j & H). exists (if kind_eqb k0 k then S j else j). intros A [|x l] L; [discriminate|]. rewrite of_kind_cons. cbn in L. specialize (H A l ltac:(lia)). destruct (kind_eqb k0 k); exact H.
Qed.
Lemma port_nonempty a n : NamesModel.port_name a n <> "".
Proof. unfold NamesModel.port_name. destruct a; discriminate. Qed.
Lemma nth_error_rev {A} (l : list A) j x : nth_error l j = Some x -> nth_error (rev l) (length l - S j) = Some x.
Proof.
  intro E. assert (L : j < length l) by (apply nth_error_Some; congruence). apply nth_error_split in E. destruct E as (l1 & l2 & -> & <-).
  rewrite rev_app_distr. cbn [rev]. rewrite <- app_assoc, nth_error_app2; rewrite rev_length, app_length; cbn [length]; [|lia]. replace (length l1 + S (length l2) - S (length l1) - length l2) with 0 by lia. reflexivity.
Qed.
Lemma tlists {V} (vo : value_ops V) vs : (forall v, In v vs -> exists l, v = tlist vo l) -> exists ls, vs = map (tlist vo) ls.
Proof. induction vs as [|v vs IH]; intro H; [exists []; reflexivity|]. destruct (H v (or_introl eq_refl)) as (l & ->). destruct IH as (ls & ->); [intros; apply H; right; auto|]. exists (l :: ls). reflexivity. Qed.

Section Anywhere.
Variable V : Type.
Variable vo : value_ops V.
Variable op_rel : string -> string -> list (string * attr) -> nat -> list V -> list (list V -> list V -> Prop) -> list V -> Prop.
Hypothesis LS : loop_semantics vo op_rel.
Notation holds := (holds op_rel). Notation body_rel := (body_rel op_rel).
Lemma iteration_ext (C B C' B' : list V -> list V -> Prop) a : (forall x y, C x y <-> C' x y) -> (forall x y, B x y <-> B' x y) -> forall k s, iteration vo C B a k s -> iteration vo C' B' a k s.
Proof. intros HC HB k s I. induction I; econstructor; eauto; [now apply HC|now apply HB]. Qed.
Lemma tf_while_ext (C B C' B' : list V -> list V -> Prop) : (forall x y, C x y <-> C' x y) -> (forall x y, B x y <-> B' x y) -> forall s f, tf_while vo C B s f -> tf_while vo C' B' s f.
Proof. intros HC HB s f I. induction I; [apply tf_stop; now apply HC|eapply tf_step; eauto; [now apply HC|now apply HB]]. Qed.
Lemma index_anywhere (r r1 : env V) body ws s v : function_graph body -> r "" = r1 "" -> (forall w, In w ws -> wr_index w = "" \/ In (wr_index w) (outputs_of (f_nodes body))) ->
  index_is op_rel r body ws s v -> index_is op_rel r1 body ws s v.
Proof.
  intros F E0 HI H r' H1 H2 H3 w Iw.
  assert (Em : forall t, t = "" \/ In t (outputs_of (f_nodes body)) -> (fun t => if mem t (outputs_of (f_nodes body)) then r' t else r t) t = r' t).
  { intros t K. cbn. destruct (mem t (outputs_of (f_nodes body))) eqn:M; auto. apply mem_false in M. destruct K as [->|K]; [|contradiction]. rewrite E0. symmetry. apply H1. now rewrite (fn_defs body F). }
  rewrite <- (Em (wr_index w) (HI w Iw)). apply (H (fun t => if mem t (outputs_of (f_nodes body)) then r' t else r t)); auto.
  - intros t Nt. rewrite (fn_defs body F) in Nt. apply mem_false in Nt. now rewrite Nt.
  - rewrite <- H2. apply map_ext_in. intros t It. apply Em. right. destruct (fn_param _ F t It) as (n & In_n & _ & On). apply in_outputs_of. exists n. rewrite On. split; auto. left. auto.
  - intros n In_n Op. apply (holds_agree V op_rel (ls_ext _ _ LS) n r'); auto.
    + intros t It. symmetry. apply Em. apply in_equations in In_n. apply (fn_closed _ F n t); tauto.
    + intros t It _. symmetry. apply Em. right. apply in_outputs_of. apply in_equations in In_n. exists n. tauto.
Qed.
Lemma counted_anywhere (r r1 : env V) cond body ks ws limit z q args outer cname cparam : function_graph cond -> loop_body ks body ws outer cname cparam -> r "" = r1 "" ->
  counted vo op_rel r cond body ks ws limit z q args -> counted vo op_rel r1 cond body ks ws limit z q args.
Proof.
  intros FC HB E0 [K1 K2 K3]. pose proof (lb_function _ _ _ _ _ _ HB) as FB.
  assert (EC : forall a s, body_rel r (equations cond) a s <-> body_rel r1 (equations cond) a s) by (intros; apply (fn_anywhere V vo op_rel LS); auto).
  assert (EB : forall a s, body_rel r (equations body) a s <-> body_rel r1 (equations body) a s) by (intros; apply (fn_anywhere V vo op_rel LS); auto).
  assert (EI : forall k s, iteration vo (body_rel r1 (equations cond)) (body_rel r1 (equations body)) args k s -> iteration vo (body_rel r (equations cond)) (body_rel r (equations body)) args k s).
  { intros k s. apply iteration_ext; intros; [symmetry; apply EC|symmetry; apply EB]. }
  constructor.
  - intros k rest v. rewrite <- EC. apply K1.
  - intros k s I. apply K2. auto.
  - intros k s I C. rewrite <- EC in C. destruct (K3 k s (EI _ _ I) C) as [H1 H2]. split; auto. eapply index_anywhere; eauto.
    intros w Iw. assert (exists n, In n (f_nodes body) /\ f_in n = [wr_param w; wr_index w; wr_item w]) as (n & In_n & Fi).
    { destruct HB as [? ? ? Lists _ _ _ _ _ _ _]. clear - Lists Iw. revert Lists. generalize (combine (of_kind Lst ks (skipn 2 (f_ins body))) (of_kind Lst ks (skipn 2 (f_outs body)))) as l. revert Iw.
      induction ws as [|w0 l1 IH]; intros Iw l Lists; [destruct Iw|]. inversion Lists as [|po ? l0 ? Hw Hr]; subst. destruct Iw as [->|Iw]; [|exact (IH Iw _ Hr)]. destruct Hw as (Ep & n & H1 & H2 & H3 & _). exists n. split; auto. rewrite H3, Ep. reflexivity. }
    apply (fn_closed _ FB n); auto. rewrite fv_node_eq, Fi. apply in_app_iff. left. cbn. auto.
Qed.
End Anywhere.

Section Main.
Variable V : Type.
Variable vo : value_ops V.
Variable op_rel : string -> string -> list (string * attr) -> nat -> list V -> list (list V -> list V -> Prop) -> list V -> Prop.
Hypothesis LS : loop_semantics vo op_rel.
Notation holds := (holds op_rel). Notation body_rel := (body_rel op_rel). Notation all_hold := (all_hold op_rel).
Variables (ks : list kind) (body cond : fgraph) (ws : list lwrite) (mi : string) (win nm : list string) (cname scope : string).
Variables (i0 b0 b1 o0 o1 c0 c1 : string) (bi bo ci : list string).
Hypothesis Ebi : f_ins body = b0 :: b1 :: bi.
Hypothesis Ebo : f_outs body = o0 :: o1 :: bo.
Hypothesis Eci : f_ins cond = c0 :: c1 :: ci.
Hypothesis Lw : length win = length ks.
Hypothesis Lnm : length nm = length ks.
Hypothesis Lbo : length bo = length ks.
Hypothesis Lci : length ci = length ks.
Hypothesis HB : loop_body ks body ws (mi :: of_kind Read ks win) cname (cond_param cname).
Hypothesis FC : function_graph cond.
Hypothesis HL : forall p, In p (of_kind Lst ks ci) -> ~ In p (f_outs cond) /\ forall n, In n (f_nodes cond) -> ~ In p (fv_node n).
Hypothesis IC0 : inlinable scope (combine (c0 :: c1 :: not_lst ks ci) (i0 :: mi :: not_lst ks win)) (drop_lists ks cond).
Hypothesis IC : inlinable "cond__" (combine (c0 :: c1 :: not_lst ks ci) (b0 :: mi :: not_lst ks (merge ks bo win))) (drop_lists ks cond).
Variables (news0 cns : list fnode) (q0 c : string) (wired : fgraph).
Hypothesis E0 : prefix_graph scope (bind_inputs (combine (c0 :: c1 :: not_lst ks ci) (i0 :: mi :: not_lst ks win)) (drop_lists ks cond)) (f_outs cond) = Some (news0, [q0]).
Hypothesis EC : prefix_graph "cond__" (bind_inputs (combine (c0 :: c1 :: not_lst ks ci) (b0 :: mi :: not_lst ks (merge ks bo win))) (drop_lists ks cond)) (f_outs cond) = Some (cns, [c]).
Hypothesis Wi : f_ins wired = b0 :: cond_param cname :: of_kind Var ks bi.
Hypothesis Wo : f_outs wired = c :: of_kind Var ks bo ++ rev (map wr_out ws).
Hypothesis Wn : forall m, In m (f_nodes (equations wired)) <-> (~ placeholder m /\ exists n, In n (f_nodes body) /\ m = T ks mi win b0 b1 bi n) \/ In m cns.
Notation old := (of_kind Var ks nm ++ rev (of_kind Lst ks nm)).
Notation nv := (length (of_kind Var ks nm)).
Notation nl := (length (of_kind Lst ks nm)).

Section Env.
Variable r : env V.
Variable z : Z.
Hypothesis Rmi : r mi = num vo z.
Variables (limit : option Z) (q : list V -> bool -> Prop).
Notation C := (body_rel r (equations cond)).
Notation B := (body_rel r (equations body)).
Notation W := (body_rel r (equations wired)).
Variable i1 : string.
Notation args := (map r (i0 :: i1 :: win)).
Hypothesis CT : counted vo op_rel r cond body ks ws limit z q args.
Variable ls0 : list (list (option V)).
Hypothesis HL0 : of_kind Lst ks (map r win) = map (tlist vo) ls0.

Lemma args_eq : args = num vo (Z.of_nat 0) :: num vo z :: map r win.
Proof. destruct (cnt_state _ _ _ _ _ _ _ _ _ _ _ CT 0 args (it_first _ _ _ _)) as [E _]. cbn [map firstn] in *. injection E as -> ->. reflexivity. Qed.
Lemma ls0_length : length ls0 = nl.
Proof. rewrite <- (map_length (tlist vo) ls0), <- HL0. apply of_kind_len; auto. now rewrite map_length. Qed.
Lemma ws_length : length ws = nl.
Proof. destruct (lists_params ks body ws mi win cname b0 b1 o0 o1 bi bo Ebi Ebo Lw HB) as [P _]. rewrite <- (map_length wr_param ws), P. apply of_kind_len; auto. pose proof (lb_ins _ _ _ _ _ _ HB) as L. rewrite Ebi in L. cbn in L. lia. Qed.
Let Hc := cnt_cond _ _ _ _ _ _ _ _ _ _ _ CT.
Lemma Hst k s : iteration vo C B args k s -> firstn 2 s = [num vo (Z.of_nat k); num vo z] /\ of_kind Read ks (skipn 2 s) = map r (of_kind Read ks win).
Proof. intro I. destruct (cnt_state _ _ _ _ _ _ _ _ _ _ _ CT k s I) as [E R]. split; auto. rewrite R. cbn [map skipn]. apply of_kind_map. Qed.
Lemma Hidx k s : iteration vo C B args k s -> C s [truth vo true] -> index_is op_rel r body ws s (num vo (Z.of_nat k)) /\ forall l, In l ls0 -> k < length l.
Proof.
  intros I HC. destruct (cnt_index _ _ _ _ _ _ _ _ _ _ _ CT k s I HC) as [E R]. split; auto. intros l Il. apply R. cbn [map skipn]. rewrite HL0. now apply in_map.
Qed.
Lemma Hb s s' : B s s' -> length s' = 2 + length ks.
Proof. intro H. apply body_rel_eq in H. destruct H as (r' & _ & _ & _ & <-). rewrite map_length. exact (lb_outs _ _ _ _ _ _ HB). Qed.
Lemma Hs : forall k rest ls, length rest = length ks -> of_kind Read ks rest = map r (of_kind Read ks win) -> of_kind Lst ks rest = map (tlist vo) ls -> (forall l, In l ls -> k < length l) ->
  index_is op_rel r body ws (num vo (Z.of_nat k) :: num vo z :: rest) (num vo (Z.of_nat k)) ->
  forall cv c' vs' row, W (num vo (Z.of_nat k) :: cv :: of_kind Var ks rest) (c' :: vs' ++ row) -> length vs' = length (of_kind Var ks rest) ->
  exists s', B (num vo (Z.of_nat k) :: num vo z :: rest) s' /\ of_kind Var ks (skipn 2 s') = vs' /\ of_kind Lst ks (skipn 2 s') = map (tlist vo) (written V k ls row) /\ length row = length ls0 /\
    forall rest', length rest' = length ks -> of_kind Var ks rest' = vs' -> of_kind Read ks rest' = map r (of_kind Read ks win) -> C (num vo (Z.of_nat k) :: num vo z :: rest') [c'].
Proof.
  intros k rest ls H1 H2 H3 H4 H5 cv c' vs' row H6 H7.
  destruct (iter_sound V vo op_rel LS ks body cond ws mi win cname b0 b1 o0 o1 c0 c1 bi bo ci Ebi Ebo Eci Lw HB FC Lci HL IC cns c EC (equations wired) Wi Wo Wn r z Rmi k rest ls H1 H2 H3 H4 H5 cv _ c' vs' row eq_refl H6 H7) as (s' & K1 & K2 & K3 & K4 & K5 & K6).
  exists s'. repeat split; auto. rewrite K5, ws_length, ls0_length. reflexivity.
Qed.
Lemma core_sound cv fin rows : onnx_loop vo W limit 0 cv (map r (of_kind Var ks win)) fin rows -> C args [truth vo cv] ->
  exists final, tf_while vo C B args final /\ length final = 2 + length ks /\ of_kind Var ks (skipn 2 final) = fin /\ of_kind Lst ks (skipn 2 final) = map (tlist vo) (filled vo rows ls0) /\
    of_kind Read ks (skipn 2 final) = map r (of_kind Read ks win) /\ forall row, In row rows -> length row = nl.
Proof.
  intros HLp HC. pose proof args_eq as EA. rewrite EA in HC. apply Hc in HC. destruct HC as (Lr & b & Q & Et). apply (truth_inj vo) in Et.
  rewrite EA. rewrite <- ls0_length. eapply (loop_sound vo C B W ks (map r (of_kind Read ks win)) limit z q args ls0 (fun k s => index_is op_rel r body ws s (num vo (Z.of_nat k))) Hc Hst Hidx Hb Hs 0 cv _ fin rows HLp []); eauto.
  - rewrite <- EA. constructor.
  - apply of_kind_map.
  - rewrite filled_nil. exact HL0.
  - rewrite Et. destruct (below limit 0); reflexivity.
Qed.
(** the same in another environment *)
Lemma Hd_any (r' : env V) : r' "" = r "" -> r' mi = r mi -> (forall x, In x win -> r' x = r x) ->
  simulates vo C B ks (map r (of_kind Read ks win)) z ls0 (fun k s => index_is op_rel r body ws s (num vo (Z.of_nat k))) (body_rel r' (equations wired)).
Proof.
  intros X0 Xm Xw. assert (EV : map r' win = map r win) by (apply map_ext_in; exact Xw). assert (ERd : map r' (of_kind Read ks win) = map r (of_kind Read ks win)) by (rewrite <- !of_kind_map, EV; reflexivity).
  assert (EB : forall a s, B a s <-> body_rel r' (equations body) a s) by (intros; apply (fn_anywhere V vo op_rel LS); auto; exact (lb_function _ _ _ _ _ _ HB)).
  assert (EQ : forall a s, C a s <-> body_rel r' (equations cond) a s) by (intros; apply (fn_anywhere V vo op_rel LS); auto).
  intros k rest ls H1 H2 H3 H5 cv s' c' H6 H7 H8. assert (L' : length (skipn 2 s') = length ks) by (rewrite skipn_length, (Hb _ _ H6); lia).
  assert (H5' : index_is op_rel r' body ws (num vo (Z.of_nat k) :: num vo z :: rest) (num vo (Z.of_nat k))).
  { eapply (index_anywhere V vo op_rel LS r r'); eauto; [exact (lb_function _ _ _ _ _ _ HB)|]. intros w0 Iw. destruct (write_facts ks body ws mi win cname b0 b1 o0 o1 bi bo Ebi Ebo HB w0 Iw) as (o & n & _ & _ & In_n & _ & Fi & _).
    apply (fn_closed _ (lb_function _ _ _ _ _ _ HB) n); auto. rewrite fv_node_eq, Fi. cbn. auto. }
  rewrite <- ERd in H2, H7. rewrite EB in H6. rewrite EQ in H8. rewrite Rmi in Xm.
  destruct (iter_complete V vo op_rel LS ks body cond ws mi win cname b0 b1 o0 o1 c0 c1 bi bo ci Ebi Ebo Eci Lw HB FC Lci HL IC cns c EC (equations wired) Wi Wo Wn r' z Xm k rest ls H1 H2 H3 H5' cv s' c' (skipn 2 s') H6 L' eq_refl H7 H8) as (row & K1 & K2 & K3).
  exists row. repeat split; auto. rewrite K2, ws_length, ls0_length. reflexivity.
Qed.
Lemma core_complete final : tf_while vo C B args final ->
  exists cv, C args [truth vo cv] /\ forall r' : env V, r' "" = r "" -> r' mi = r mi -> (forall x, In x win -> r' x = r x) ->
    exists rows, onnx_loop vo (body_rel r' (equations wired)) limit 0 cv (map r (of_kind Var ks win)) (of_kind Var ks (skipn 2 final)) rows /\
    length final = 2 + length ks /\ of_kind Lst ks (skipn 2 final) = map (tlist vo) (filled vo rows ls0) /\ of_kind Read ks (skipn 2 final) = map r (of_kind Read ks win) /\ forall row, In row rows -> length row = nl.
Proof.
  intro HT. pose proof args_eq as EA. destruct (loop_complete vo C B ks (map r (of_kind Read ks win)) limit z q args ls0 (fun k s => index_is op_rel r body ws s (num vo (Z.of_nat k))) Hc Hst Hidx Hb args final HT 0 (map r win) EA (it_first _ _ _ _)) as (b & Q & Lr & H).
  assert (HF : length final = 2 + length ks /\ of_kind Read ks (skipn 2 final) = map r (of_kind Read ks win)).
  { assert (G : forall s f, tf_while vo C B s f -> forall k, iteration vo C B args k s -> length s = 2 + length ks -> length f = 2 + length ks /\ of_kind Read ks (skipn 2 f) = map r (of_kind Read ks win)).
    { induction 1 as [s HC|s s' f HC HBs HT' IH]; intros k I L; [split; auto; apply (Hst k s I)|]. apply (IH (S k)); [econstructor; eauto|eapply Hb; eauto]. }
    apply (G args final HT 0); [constructor|]. cbn [map length]. rewrite map_length. lia. }
  destruct HF as [LF RF]. exists (below limit 0 && b). split; [rewrite EA; apply Hc; split; auto; exists b; auto|]. intros r' X0 Xm Xw.
  destruct (H _ (Hd_any r' X0 Xm Xw) [] (below limit 0 && b) eq_refl) as (rows & K1 & K2 & K3).
  - rewrite filled_nil. exact HL0.
  - destruct (below limit 0); reflexivity.
  - exists rows. rewrite of_kind_map in K1. rewrite <- ls0_length. repeat split; auto.
Qed.

(** the outputs *)
Lemma result_of pre rows final : produces r (output_names pre (length old)) (of_kind Var ks (skipn 2 final) ++ columns vo nl rows) ->
  length final = 2 + length ks -> of_kind Lst ks (skipn 2 final) = map (tlist vo) (filled vo rows ls0) -> of_kind Read ks (skipn 2 final) = map r (of_kind Read ks win) -> (forall row, In row rows -> length row = nl) ->
  forall n0 n1, while_result vo r (combine old (output_names pre (length old))) ks (n0 :: n1 :: nm) args final.
Proof.
  intros P LF EL ER HR n0 n1. split; auto. intros i k o start v Ek Eo Es Ev. cbn [map skipn] in Eo, Es. assert (LF2 : length (skipn 2 final) = length ks) by (rewrite skipn_length; lia).
  destruct (of_kind_pos k ks i Ek) as (j & Hj). pose proof (Hj _ nm Lnm) as Jo. rewrite Eo in Jo. pose proof (Hj _ (skipn 2 final) LF2) as Jv. rewrite Ev in Jv.
  pose proof (Hj _ (map r win) ltac:(now rewrite map_length)) as Js. rewrite Es in Js.
  assert (ON : forall p x, nth_error old p = Some x -> In (x, NamesModel.port_name pre (N.of_nat p)) (combine old (output_names pre (length old))) /\ nth_error (of_kind Var ks (skipn 2 final) ++ columns vo nl rows) p = Some (r (NamesModel.port_name pre (N.of_nat p)))).
  { intros p x Ep. assert (Lp : p < length old) by (apply nth_error_Some; congruence). assert (En : nth_error (output_names pre (length old)) p = Some (NamesModel.port_name pre (N.of_nat p))).
    { unfold output_names. rewrite nth_error_map, (nth_error_nth' _ 0) by (rewrite seq_length; auto). rewrite seq_nth by auto. reflexivity. }
    split; [|apply P; auto; apply port_nonempty]. clear - Ep En. revert Ep En. generalize (NamesModel.port_name pre (N.of_nat p)) as y0. generalize (output_names pre (length old)) as b. generalize old as a. revert p. intros p a. revert p. induction a as [|y a IH]; intros [|p] b y0 Ep En; try discriminate; destruct b as [|u b]; try discriminate; [left; cbn in *; congruence|right; exact (IH p b y0 Ep En)]. }
  destruct k; cbn [stands_for].
  - assert (Ep : nth_error old j = Some o) by (rewrite nth_error_app1; auto; apply nth_error_Some; congruence). destruct (ON j o Ep) as [I1 I2]. exists (NamesModel.port_name pre (N.of_nat j)). split; auto.
    rewrite nth_error_app1 in I2; [|apply nth_error_Some; congruence]. congruence.
  - rewrite ER in Jv. rewrite of_kind_map in Js. congruence.
  - assert (Lj : j < nl) by (apply nth_error_Some; congruence). assert (Ep : nth_error old (nv + (nl - S j)) = Some o).
    { rewrite nth_error_app2 by lia. replace (nv + (nl - S j) - nv) with (nl - S j) by lia. now apply nth_error_rev. }
    destruct (ON _ o Ep) as [I1 I2]. rewrite nth_error_app2 in I2; rewrite (of_kind_len Var ks (skipn 2 final) nm) in *; auto; [|lia]. replace (nv + (nl - S j) - nv) with (nl - S j) in I2 by lia.
    unfold columns in I2. rewrite nth_error_map, (nth_error_nth' _ 0) in I2 by (rewrite seq_length; lia). rewrite seq_nth in I2 by lia. cbn [option_map] in I2. injection I2 as I2. cbn [Nat.add] in I2.
    rewrite EL in Jv. rewrite HL0 in Js. rewrite nth_error_map in Jv, Js. destruct (nth_error ls0 j) as [l|] eqn:Ejl; [|discriminate]. cbn [option_map] in Js. injection Js as Js.
    set (xs := map (fun row => nth j (rev row) (absent vo)) rows). exists (NamesModel.port_name pre (N.of_nat (nv + (nl - S j)))), xs, l. split; auto. split; [|split; auto].
    + rewrite <- I2. f_equal. apply map_ext_in. intros row Ir. rewrite rev_nth by (rewrite (HR row Ir); lia). rewrite (HR row Ir). reflexivity.
    + unfold filled in Jv. rewrite nth_error_map in Jv. destruct (nth_error (combine (seq 0 (length ls0)) ls0) j) as [[j' l']|] eqn:X; [|discriminate].
      assert (j' = j /\ l' = l) as [-> ->].
      { split.
        - assert (Y : nth_error (map fst (combine (seq 0 (length ls0)) ls0)) j = Some j') by (rewrite nth_error_map, X; reflexivity). rewrite map_fst_combine in Y by (now rewrite seq_length). rewrite (nth_error_nth' _ 0) in Y by (rewrite seq_length, ls0_length; auto). rewrite seq_nth in Y by (rewrite ls0_length; auto). now injection Y.
        - assert (Y : nth_error (map snd (combine (seq 0 (length ls0)) ls0)) j = Some l') by (rewrite nth_error_map, X; reflexivity). assert (Ms : forall (a : list nat) (b : list (list (option V))), length a = length b -> map snd (combine a b) = b) by (induction a as [|? a IH]; intros [|? b] L; try discriminate; [reflexivity|]; cbn; f_equal; apply IH; cbn in L; lia). rewrite Ms in Y by apply seq_length. congruence. }
      cbn [option_map fst snd] in Jv. injection Jv as Jv. rewrite <- Jv. unfold xs. rewrite !map_map, map_length. reflexivity.
Qed.
(** the condition before the loop *)
Lemma cond_before cv : r i1 = num vo z -> (C args [truth vo cv] <-> body_rel r (equations (drop_lists ks cond)) (map r (i0 :: mi :: not_lst ks win)) [truth vo cv]).
Proof.
  intro R1. cbn [map]. rewrite R1, Rmi. rewrite <- not_lst_map. apply (cond_strip V vo op_rel LS ks cond c0 c1 ci Eci FC Lci HL). now rewrite map_length.
Qed.
Lemma arg_i1 : r i1 = num vo z. Proof. pose proof args_eq as E. cbn [map] in E. now injection E. Qed.
Lemma NDc : NoDup (c0 :: c1 :: not_lst ks ci).
Proof. pose proof (i_params _ _ _ IC) as H. unfold drop_lists, keep2 in H. cbn [f_ins] in H. rewrite Eci in H. exact H. Qed.
Lemma before_args : arguments r (combine (c0 :: c1 :: not_lst ks ci) (i0 :: mi :: not_lst ks win)) (f_ins (drop_lists ks cond)) (map r (i0 :: mi :: not_lst ks win)).
Proof.
  unfold drop_lists, keep2. cbn [f_ins]. rewrite Eci. cbn [firstn skipn app]. apply arguments_combine; [exact NDc|]. cbn [length]. rewrite (not_lst_length ks win ci); auto.
Qed.
Lemma q0_bool : all_hold r news0 -> C args [r q0].
Proof.
  intro H. pose proof (sound V op_rel (ls_ext _ _ LS) (ls_identity _ _ LS) scope _ (drop_lists ks cond) IC0 news0 [q0] E0 r _ H before_args) as K. cbn [map] in K.
  pose proof args_eq as EA. rewrite EA. apply (cond_strip V vo op_rel LS ks cond c0 c1 ci Eci FC Lci HL); [now rewrite map_length|]. rewrite not_lst_map, <- Rmi. cbn [map] in EA, K. injection EA as X _. change (Z.of_nat 0) with 0%Z. rewrite <- X. exact K.
Qed.
End Env.
End Main.
