(** Converting While: every execution of the new nodes is one of the While node and vice versa. *)
From Coq Require Import String List Bool ZArith Arith Lia Permutation.
From Verif Require Import FGraph FGraphProofs FGraphSpec IdentityProofs InlineModel InlineSpec InlineProofs InlineProofs3 InlineProofs4 WhileSpec WhileModel WhileProofs WhileProofs2 WhileProofs3 WhileProofs4 WhileProofs5 WhileProofs6 WhileProofs7 WhileProofs8.
Import ListNotations.
Local Open Scope string_scope.
Local Open Scope list_scope.

Section While.
Variable V : Type.
Variable vo : value_ops V.
Variable op_rel : string -> string -> list (string * attr) -> nat -> list V -> list (list V -> list V -> Prop) -> list V -> Prop.
Hypothesis LS : loop_semantics vo op_rel.
Notation holds := (holds op_rel). Notation body_rel := (body_rel op_rel). Notation all_hold := (all_hold op_rel).
Variables (order : list fnode -> list fnode) (op_of : string -> string) (w : while_op) (max : option Z) (const_attrs : list (string * attr)) (shared : bool).
Variables (fresh cname cond_name : string) (cond body : fgraph) (ta_reads : list string) (nodes : list fnode) (pairs : list (string * string)).
Variables (ks : list kind) (ws : list lwrite).
Hypothesis Ord : forall l, Permutation (order l) l.
Hypothesis E : convert_while order op_of w max const_attrs shared fresh cname cond_name cond body ta_reads = Some (nodes, pairs).
Notation mi := (max_input (w_ins w) max shared fresh).
Hypothesis HW : while_node op_of ta_reads ks ws cond body (w_ins w) (w_outs w) mi cname (cond_param cname) cond_name.
Variable z : Z.
Hypothesis CT : constant_trip vo op_rel max const_attrs z.
Notation limit := (limit_of max z).
Notation trip := (trip_name w max shared fresh).
Notation made := (made_nodes w max const_attrs shared fresh).

Lemma mi_named : mi <> "".
Proof. destruct (lb_outer _ _ _ _ _ _ (wn_body _ _ _ _ _ _ _ _ _ _ _ _ HW) mi) as (N & _); [left; reflexivity|exact N]. Qed.
(** the nodes made for the number of iterations *)
Lemma made_facts (r : env V) : r "" = absent vo -> r (nth 1 (w_ins w) "") = num vo z -> (all_hold r made <-> r mi = num vo z /\ r trip = match limit with Some m => num vo m | None => absent vo end).
Proof.
  intros R0 R1. pose proof mi_named as N. unfold all_hold, made_nodes, trip_name, limit_of, copied, max_input in *. destruct max as [m|] eqn:EM.
  - destruct (CT m) as [-> HC]; auto. destruct (Z.eqb z (-1)) eqn:Z1; cbn [negb andb] in *.
    + split; [intros _; auto|intros _ n []].
    + destruct shared.
      * split.
        -- intro H. specialize (H _ (or_introl eq_refl)). apply holds_eq in H. cbn [f_op f_dom f_attrs f_out f_in f_bodies length map] in H. destruct H as (vs & H & P). apply HC in H. subst vs.
           specialize (P 0 fresh eq_refl N). cbn in P. injection P as P. auto.
        -- intros [H _] n [<-|[]]. apply holds_eq. cbn [f_op f_dom f_attrs f_out f_in f_bodies length map]. exists [num vo z]. split; [now apply HC|]. intros [|[|k]] o Eo; try discriminate. injection Eo as <-. intros _. cbn. now rewrite H.
      * split; [intros _; auto|intros _ n []].
  - split.
    + intro H. specialize (H _ (or_introl eq_refl)). apply holds_eq in H. cbn [f_op f_dom f_attrs f_out f_in f_bodies length map] in H. destruct H as (vs & H & P). rewrite R1 in H. apply (ls_cast _ _ LS) in H. subst vs.
      specialize (P 0 _ eq_refl (port_nonempty _ _)). cbn [nth_error] in P. injection P as P. auto.
    + intros [_ H] n [<-|[]]. apply holds_eq. cbn [f_op f_dom f_attrs f_out f_in f_bodies length map]. exists [num vo z]. split; [rewrite R1; now apply (ls_cast _ _ LS)|]. intros [|[|k]] o Eo; try discriminate. injection Eo as <-. intros _. cbn [nth_error]. now rewrite H.
Qed.
Lemma made_regular n : In n made -> ~ placeholder n /\ forall o, In o (f_out n) -> o <> "" .
Proof.
  pose proof mi_named as N. unfold made_nodes, copied, max_input in *. destruct max as [m|]; [destruct (negb (Z.eqb m (-1)) && shared)|]; intro I; cbn [In] in I; try contradiction; destruct I as [<-|[]]; (split; [intro P; unfold placeholder in P; cbn in P; repeat (destruct P as [P|P]; [discriminate|]); destruct P|]).
  - intros o [<-|[]]. exact N.
  - intros o [<-|[]]. apply port_nonempty.
Qed.
Lemma made_reads n x : In n made -> In x (fv_node n) -> In x (w_ins w).
Proof.
  unfold made_nodes, max_input. destruct max as [m|]; [destruct (copied _ _)|]; intro J; cbn [In] in J; try contradiction; destruct J as [<-|[]]; rewrite fv_node_eq; cbn [f_in f_bodies map concat app]; intros I; try destruct I as [I|I]; try destruct I.
  apply nth_In. rewrite (wn_ins _ _ _ _ _ _ _ _ _ _ _ _ HW). lia.
Qed.
Lemma limit_unique l : match limit with Some m => num vo m | None => absent vo end = match l with Some m => num vo m | None => absent vo end -> l = limit.
Proof.
  destruct limit as [m|], l as [m'|]; intro H; auto; [apply (num_inj vo) in H; congruence|exfalso; exact (absent_num vo m H)|exfalso; exact (absent_num vo m' (eq_sym H))].
Qed.

Theorem while_sound (r : env V) q : r "" = absent vo -> (forall v, In v (of_kind Lst ks (skipn 2 (map r (w_ins w)))) -> exists l, v = tlist vo l) ->
  counted vo op_rel r cond body ks ws limit z q (map r (w_ins w)) -> runs op_rel r nodes ->
  exists final, tf_while vo (body_rel r (equations cond)) (body_rel r (equations body)) (map r (w_ins w)) final /\ while_result vo r pairs ks (w_outs w) (map r (w_ins w)) final.
Proof.
  intros R0 HT CN (front & nm' & ins' & outs' & b & En & HF & HLp).
  destruct (structure order op_of w max const_attrs shared fresh cname cond_name cond body ta_reads nodes pairs ks ws Ord E HW) as
    (i0 & i1 & win & n0 & n1 & nm & b0 & b1 & bi & o0 & o1 & bo & c0 & c1 & ci & strays & news0 & q0 & wired & cns & c & Ei & Eo & Ebi & Ebo & Eci & Lw & Lnm & Lbi & Lbo & Lci & EN & EP & St & P0 & PC & Wi & Wo & Wn).
  rewrite EN in En. apply app_inj_tail in En. destruct En as [<- En]. injection En as <- <- <- <-.
  pose proof (wn_body _ _ _ _ _ _ _ _ _ _ _ _ HW) as HB. pose proof (wn_cond _ _ _ _ _ _ _ _ _ _ _ _ HW) as [FC _ _ HL IB II].
  assert (exists M, M = mi) as (M & EM) by eauto. rewrite <- EM in HB, IB, II, P0, PC, Wn. rewrite Ei in HB, IB, II. rewrite Eci in HL, IB, II. rewrite Ebi in II. rewrite Ebo in II. unfold keep2 in IB, II. cbn [skipn firstn app] in HB, HL, IB, II.
  rewrite Ei in HT, CN |- *. rewrite Eo. cbn [skipn map] in HT. apply tlists in HT. destruct HT as (ls0 & HT).
  assert (R1 : r i1 = num vo z) by (eapply arg_i1; eauto).
  destruct (proj1 (made_facts r R0 ltac:(rewrite Ei; exact R1))) as [Rm Rt].
  { intros n I. apply HF; [apply in_app_iff; auto|now apply made_regular]. }
  rewrite <- EM in Rm. assert (HN : all_hold r news0).
  { intros n I. apply HF; [apply in_app_iff; right; apply in_app_iff; auto|]. destruct (copy_inv _ _ _ IB news0 _ P0 n I) as [(k & _ & NP & ->)|(nm0 & at_ & i & p & _ & _ & ->)]; [exact NP|now apply identity_regular]. }
  assert (HQ : body_rel r (equations cond) (map r (i0 :: i1 :: win)) [r q0]) by (eapply q0_bool; eauto).
  apply holds_eq in HLp. cbn [f_op f_dom f_attrs f_out f_in f_bodies map] in HLp. destruct HLp as (vals & HOp & HP). apply (ls_loop _ _ LS) in HOp. destruct HOp as (m & cv & vs & lim & fin & rows & Eins & Em & HL0 & HR & ->).
  injection Eins as E1 E2 E3. rewrite Rt in E1. rewrite Em in E1. apply limit_unique in E1. subst lim. rewrite E2 in HQ. rewrite <- E3 in *.
  destruct (core_sound V vo op_rel LS ks body cond ws _ win nm cname i0 b0 b1 o0 o1 c0 c1 bi bo ci Ebi Ebo Eci Lw Lnm Lbo Lci HB FC HL II cns c wired PC Wi Wo Wn r z Rm limit q i1 CN ls0 HT cv fin rows HL0 HQ) as (final & K1 & K2 & K3 & K4 & K5 & K6).
  exists final. split; auto. rewrite EP. eapply result_of; eauto. rewrite K3. rewrite map_length in HP. 
  assert (Ll : length (output_names (w_name w ++ "_loop")%string (length (of_kind Var ks nm ++ rev (of_kind Lst ks nm)))) - length (of_kind Var ks win) = length (of_kind Lst ks nm)).
  { unfold output_names. rewrite map_length, seq_length, app_length, rev_length, (of_kind_len Var ks win nm) by auto. lia. }
  rewrite Ll in HP. exact HP.
Qed.

Lemma computed_eq front strays news (lo : fnode) : (forall n, In n front -> ~ placeholder n) -> (forall n, In n strays -> placeholder n) -> (forall n, In n news -> ~ placeholder n) -> ~ placeholder lo ->
  computed ((front ++ strays ++ news) ++ [lo]) = outputs_of front ++ outputs_of news ++ f_out lo.
Proof.
  intros H1 H2 H3 H4. unfold computed. cbn [f_nodes equations]. rewrite !filter_app, !outputs_of_app.
  assert (F : forall l, (forall n, In n l -> ~ placeholder n) -> filter (fun n => negb (mem (f_op n) ["Placeholder"; "PlaceholderWithDefault"; "PlaceholderV2"])) l = l).
  { intros l Hl. apply filter_all. intros n I. specialize (Hl n I). apply graph_input_false in Hl. unfold is_graph_input in Hl. now rewrite Hl. }
  rewrite (F front H1), (F news H3). rewrite (F [lo]) by (intros n [<-|[]]; auto).
  assert (filter (fun n => negb (mem (f_op n) ["Placeholder"; "PlaceholderWithDefault"; "PlaceholderV2"])) strays = []) as ->.
  { clear - H2. induction strays as [|n l IH]; [reflexivity|]. cbn [filter]. assert (P : placeholder n) by (apply H2; left; auto). apply graph_input_iff in P. unfold is_graph_input in P. rewrite P. cbn [negb]. apply IH. intros. apply H2. right. auto. }
  cbn [outputs_of map concat app]. rewrite app_nil_r, <- app_assoc. reflexivity.
Qed.
Lemma made_value (r : env V) : r "" = absent vo -> r (nth 1 (w_ins w) "") = num vo z -> (forall o, In o (outputs_of made) -> r o = num vo z) ->
  r mi = num vo z /\ r trip = match limit with Some m => num vo m | None => absent vo end.
Proof.
  intros R0 R1 H. unfold made_nodes, trip_name, limit_of, copied, max_input in *. destruct max as [m|] eqn:EM.
  - destruct (CT m) as [-> HC]; auto. destruct (Z.eqb z (-1)) eqn:Z1; cbn [negb andb] in *; auto. destruct shared; auto. assert (r fresh = num vo z) by (apply H; cbn; auto). auto.
  - split; auto. apply H. cbn. auto.
Qed.

Theorem while_complete (r : env V) q final : r "" = absent vo -> (forall v, In v (of_kind Lst ks (skipn 2 (map r (w_ins w)))) -> exists l, v = tlist vo l) ->
  counted vo op_rel r cond body ks ws limit z q (map r (w_ins w)) -> fresh_names (w_ins w) nodes pairs ->
  tf_while vo (body_rel r (equations cond)) (body_rel r (equations body)) (map r (w_ins w)) final ->
  exists r' : env V, (forall t, ~ In t (computed nodes) -> r' t = r t) /\ runs op_rel r' nodes /\ while_result vo r' pairs ks (w_outs w) (map r (w_ins w)) final.
Proof.
  intros R0 HT CN [NN1 NN2 NN3] HTF.
  destruct (structure order op_of w max const_attrs shared fresh cname cond_name cond body ta_reads nodes pairs ks ws Ord E HW) as
    (i0 & i1 & win & n0 & n1 & nm & b0 & b1 & bi & o0 & o1 & bo & c0 & c1 & ci & strays & news0 & q0 & wired & cns & c & Ei & Eo & Ebi & Ebo & Eci & Lw & Lnm & Lbi & Lbo & Lci & EN & EP & St & P0 & PC & Wi & Wo & Wn).
  set (louts := output_names (w_name w ++ "_loop")%string (length (of_kind Var ks nm ++ rev (of_kind Lst ks nm)))) in *.
  pose proof (wn_body _ _ _ _ _ _ _ _ _ _ _ _ HW) as HB. pose proof (wn_cond _ _ _ _ _ _ _ _ _ _ _ _ HW) as [FC _ _ HL IB II].
  assert (exists M, M = mi) as (M & EM) by eauto. rewrite <- EM in HB, IB, II, P0, PC, Wn. rewrite Ei in HB, IB, II. rewrite Eci in HL, IB, II. rewrite Ebi in II. rewrite Ebo in II. unfold keep2 in IB, II. cbn [skipn firstn app] in HB, HL, IB, II.
  assert (FB : function_graph body) by exact (lb_function _ _ _ _ _ _ HB).
  assert (NPn : forall n, In n news0 -> ~ placeholder n).
  { intros n I. destruct (copy_inv _ _ _ IB news0 _ P0 n I) as [(k & _ & NP & ->)|(nm0 & at_ & i & p & _ & _ & ->)]; [exact NP|now apply identity_regular]. }
  assert (EComp : computed nodes = outputs_of made ++ outputs_of news0 ++ louts).
  { rewrite EN. apply computed_eq; auto; [intros n I; now apply made_regular|]. intro P. unfold placeholder in P. cbn in P. repeat (destruct P as [P|P]; [discriminate|]). destruct P. }
  rewrite EComp in NN1, NN2 |- *. apply NoDup_app_inv in NN1. destruct NN1 as (ND1 & ND23 & D1). apply NoDup_app_inv in ND23. destruct ND23 as (ND2 & ND3 & D2).
  assert (Lempty : ~ In "" (outputs_of made ++ outputs_of news0 ++ louts)).
  { rewrite !in_app_iff. intros [K|[K|K]].
    - apply in_outputs_of in K. destruct K as (n & I & O). exact (proj2 (made_regular n I) _ O eq_refl).
    - apply (new_names cond_name _ (drop_lists ks cond) IB news0 [q0] P0) in K. exact (in_scope_nonempty _ _ (i_scope _ _ _ IB) K eq_refl).
    - unfold louts, output_names in K. apply in_map_iff in K. destruct K as (j & K & _). exact (port_nonempty _ _ K). }
  rewrite Ei in HT, CN, HTF, NN2 |- *. rewrite Eo. cbn [skipn map] in HT. apply tlists in HT. destruct HT as (ls0 & HT).
  assert (R1 : r i1 = num vo z) by (eapply arg_i1; eauto).
  (* the number of iterations *)
  set (r1 := fun t => if mem t (outputs_of made) then num vo z else r t).
  assert (A1 : forall t, ~ In t (outputs_of made) -> r1 t = r t) by (intros t N; unfold r1; apply mem_false in N; now rewrite N).
  assert (A1i : forall t, In t (i0 :: i1 :: win) -> r1 t = r t) by (intros t I; apply A1; intro K; apply (NN2 t I); apply in_app_iff; auto).
  assert (A1e : r1 "" = r "") by (apply A1; intro K; apply Lempty; apply in_app_iff; auto).
  assert (EArgs : map r1 (i0 :: i1 :: win) = map r (i0 :: i1 :: win)) by (apply map_ext_in; exact A1i).
  assert (EWin : map r1 win = map r win) by (cbn [map] in EArgs; now injection EArgs).
  destruct (made_value r1) as [Rm Rt]; [now rewrite A1e|rewrite Ei; cbn [nth]; rewrite A1i by (right; left; auto); exact R1|intros o I; unfold r1; apply mem_in in I; now rewrite I|]. rewrite <- EM in Rm.
  assert (CN1 : counted vo op_rel r1 cond body ks ws limit z q (map r1 (i0 :: i1 :: win))) by (rewrite EArgs; eapply (counted_anywhere V vo op_rel LS r r1); eauto).
  assert (HTF1 : tf_while vo (body_rel r1 (equations cond)) (body_rel r1 (equations body)) (map r1 (i0 :: i1 :: win)) final).
  { rewrite EArgs. eapply tf_while_ext; [| |exact HTF]; intros; apply (fn_anywhere V vo op_rel LS); auto. }
  assert (HT1 : of_kind Lst ks (map r1 win) = map (tlist vo) ls0) by (now rewrite EWin).
  destruct (core_complete V vo op_rel LS ks body cond ws M win nm cname i0 b0 b1 o0 o1 c0 c1 bi bo ci Ebi Ebo Eci Lw Lnm Lbo Lci HB FC HL II cns c wired PC Wi Wo Wn r1 z Rm limit q i1 CN1 ls0 HT1 final HTF1) as (cv & HC & HLoop).
  (* the condition before the loop *)
  assert (R11 : r1 i1 = num vo z) by (rewrite A1i by (right; left; auto); exact R1).
  apply (cond_before V vo op_rel LS ks cond M win i0 c0 c1 ci Eci Lw Lci FC HL r1 z Rm i1 cv R11) in HC.
  destruct (complete V op_rel (ls_ext _ _ LS) (ls_identity _ _ LS) cond_name _ (drop_lists ks cond) IB news0 [q0] P0 r1 _ _ ltac:(eapply before_args; eauto) HC) as (r2 & A2 & H2 & Q2). cbn [map] in Q2. injection Q2 as Q2.
  assert (A2i : forall t, In t (i0 :: i1 :: win) -> r2 t = r1 t) by (intros t I; apply A2; intro K; apply (NN2 t I); rewrite !in_app_iff; auto).
  assert (A2e : r2 "" = r1 "") by (apply A2; intro K; apply Lempty; rewrite !in_app_iff; auto).
  assert (A2m : forall t, In t (outputs_of made) -> r2 t = r1 t) by (intros t I; apply A2; intro K; apply (D1 t I); apply in_app_iff; auto).
  assert (R2v : r2 M = num vo z /\ r2 trip = match limit with Some m => num vo m | None => absent vo end).
  { rewrite EM. apply made_value; [congruence|rewrite Ei; cbn [nth]; rewrite A2i by (right; left; auto); exact R11|]. intros o I. rewrite A2m by auto. unfold r1. apply mem_in in I. now rewrite I. }
  destruct R2v as [R2m R2t].
  destruct (HLoop r2 A2e ltac:(congruence) ltac:(intros; apply A2i; right; right; auto)) as (rows & K1 & K2 & K3 & K4 & K5).
  (* the results *)
  set (vals := of_kind Var ks (skipn 2 final) ++ columns vo (length (of_kind Lst ks nm)) rows).
  set (r3 := fun t => match param_value louts vals t with Some v => v | None => r2 t end).
  assert (A3 : forall t, ~ In t louts -> r3 t = r2 t) by (intros t N; unfold r3; now rewrite param_value_out).
  assert (LF2 : length (skipn 2 final) = length ks) by (rewrite skipn_length; lia).
  assert (Lvals : length vals = length louts).
  { unfold vals, louts, columns, output_names. rewrite app_length, !map_length, !seq_length, app_length, rev_length, (of_kind_len Var ks (skipn 2 final) nm); auto. }
  assert (ND3' : map r3 louts = vals) by (apply param_value_map; auto).
  assert (A3i : forall t, In t (i0 :: i1 :: win) -> r3 t = r t).
  { intros t I. rewrite A3; [now rewrite A2i, A1i by auto|]. intro K. apply (NN2 t I). rewrite !in_app_iff. auto. }
  assert (EArgs3 : map r3 (i0 :: i1 :: win) = map r (i0 :: i1 :: win)) by (apply map_ext_in; exact A3i).
  assert (Prod : produces r3 louts vals) by (intros k o Ek _; rewrite <- ND3', nth_error_map, Ek; reflexivity).
  assert (Elp : map snd pairs = louts).
  { rewrite EP. clear. unfold louts, output_names. assert (G : forall (a b : list string), length a = length b -> map snd (combine a b) = b) by (induction a as [|? a IH]; intros [|? b] L; try discriminate; [reflexivity|]; cbn; f_equal; apply IH; cbn in L; lia).
    apply G. rewrite map_length, seq_length. reflexivity. }
  exists r3. split; [|split].
  - intros t N. rewrite !in_app_iff in N. rewrite A3, A2, A1; tauto.
  - exists (made ++ strays ++ news0), (w_name w ++ "_loop")%string, (trip :: q0 :: of_kind Var ks win), louts, wired. split; [exact EN|]. split.
    + intros n I NP. assert (F3 : forall x, In x (fv_node n) -> r3 x = r2 x).
      { intros x Ix. apply A3. rewrite <- Elp. intro K. destruct (NN3 x n K) as [N _]; [rewrite EN; apply in_app_iff; left; exact I|contradiction]. }
      assert (O3 : forall x, In x (f_out n) -> In n made \/ In n news0 -> r3 x = r2 x).
      { intros x Ix [J|J]; apply A3; intro K.
        - apply (D1 x); [apply in_outputs_of; eauto|apply in_app_iff; auto].
        - apply (D2 x); [apply in_outputs_of; eauto|auto]. }
      apply in_app_iff in I. destruct I as [I|I].
      * apply (holds_agree V op_rel (ls_ext _ _ LS) n r2); [intros; symmetry; auto|intros; symmetry; auto|]. apply (proj2 (made_facts r2 ltac:(congruence) ltac:(rewrite Ei; cbn [nth]; rewrite A2i by (right; left; auto); exact R11))); [|exact I]. rewrite <- EM. auto.
      * apply in_app_iff in I. destruct I as [I|I]; [exfalso; apply NP; auto|]. apply (holds_agree V op_rel (ls_ext _ _ LS) n r2); [intros; symmetry; auto|intros; symmetry; auto|]. apply H2. exact I.
    + set (lnode := FNode (w_name w ++ "_loop")%string "Loop" "" [] (trip :: q0 :: of_kind Var ks win) louts [wired]) in *.
      assert (In_l : In lnode nodes) by (rewrite EN; apply in_app_iff; right; left; reflexivity).
      assert (F3 : forall x, In x (trip :: q0 :: of_kind Var ks win) -> r3 x = r2 x).
      { intros x Ix. apply A3. rewrite <- Elp. intro K. destruct (NN3 x lnode K In_l) as [N _]. apply N. rewrite fv_node_eq. apply in_app_iff. left. exact Ix. }
      assert (FW : forall a s, body_rel r2 (equations wired) a s <-> body_rel r3 (equations wired) a s).
      { apply (body_agree V op_rel (ls_ext _ _ LS)). intros x Ix. symmetry. apply A3. rewrite <- Elp. intro K. destruct (NN3 x lnode K In_l) as [N1 N2]. specialize (N2 wired (or_introl eq_refl)).
        apply N1. rewrite fv_node_eq. apply in_app_iff. right. cbn [lnode f_bodies map concat]. rewrite app_nil_r. apply in_fv_graph. apply in_fv_graph in Ix. destruct Ix as [Nd Ix]. split.
        - intro Kd. apply N2. now apply defs_alldefs.
        - cbn [equations f_ins f_outs] in Ix. destruct Ix as [Ix|[Ix|(n & In_n & Fx)]]; [left; exact Ix|right; left; exact Ix|]. right. right. exists n. split; auto. apply filter_In in In_n. tauto. }
      apply holds_eq. cbn [f_op f_dom f_attrs f_out f_in f_bodies map]. exists vals. split; [|exact Prod].
      apply (ls_ext _ _ LS "Loop" "" [] (length louts) _ [body_rel r2 (equations wired)]); [constructor; [exact FW|constructor]|].
      apply (ls_loop _ _ LS). exists (r3 trip), cv, (map r3 (of_kind Var ks win)), limit, (of_kind Var ks (skipn 2 final)), rows.
      assert (EV3 : map r3 (of_kind Var ks win) = map r1 (of_kind Var ks win)).
      { rewrite <- !of_kind_map. f_equal. rewrite EWin. cbn [map] in EArgs3. now injection EArgs3. }
      split; [rewrite (F3 q0) by (right; left; auto); rewrite Q2; reflexivity|]. split; [rewrite F3 by (left; auto); exact R2t|]. rewrite EV3. split; [exact K1|].
      assert (LV : length (map r1 (of_kind Var ks win)) = length (of_kind Var ks nm)) by (rewrite map_length; apply of_kind_len; auto).
      assert (LO : length louts = length (of_kind Var ks nm) + length (of_kind Lst ks nm)) by (unfold louts, output_names; rewrite map_length, seq_length, app_length, rev_length; reflexivity).
      split; [intros row Ir; rewrite LV, (K5 row Ir); auto|]. rewrite LV, LO. replace (length (of_kind Var ks nm) + length (of_kind Lst ks nm) - length (of_kind Var ks nm)) with (length (of_kind Lst ks nm)) by lia. reflexivity.
  - rewrite EP. rewrite <- EArgs3. assert (EWin3 : map r3 win = map r win) by (cbn [map] in EArgs3; now injection EArgs3).
    assert (ER3 : map r3 (of_kind Read ks win) = map r1 (of_kind Read ks win)) by (rewrite <- !of_kind_map, EWin3, EWin; reflexivity).
    eapply result_of; eauto; try (now rewrite EWin3); try (now rewrite ER3).
Qed.
End While.
