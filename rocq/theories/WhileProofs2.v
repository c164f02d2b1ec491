(** Converting While: copying the condition, following written lists, removing nodes. *)
From Coq Require Import String List Bool ZArith Arith Lia Permutation.
From Verif Require Import FGraph FGraphProofs FGraphSpec IdentityProofs InlineModel InlineSpec InlineProofs InlineProofs3 InlineProofs4 WhileSpec WhileModel WhileProofs.
Import ListNotations.
Local Open Scope string_scope.
Local Open Scope list_scope.

(** ** parameters that are left over are not copied *)
Definition regular (n : fnode) : bool := negb (is_graph_input n).
Lemma filter_regular_substs s l : filter regular (map (substs_node s) l) = map (substs_node s) (filter regular l).
Proof.
  induction l as [|n l IH]; [reflexivity|]. cbn [map filter]. unfold regular in *. rewrite graph_input_substs. destruct (is_graph_input n); cbn [negb map]; rewrite IH; reflexivity.
Qed.
Lemma make_scoped_less scope names names' outs outs' new n m : incl names' names -> incl outs' outs ->
  make_scoped scope names outs new n = Some m -> make_scoped scope names' outs' new n = Some m.
Proof.
  intros I1 I2. unfold make_scoped. set (nm := scoped scope (f_name n)). set (os := output_names nm (length (f_out n))).
  destruct (mem nm (names ++ map f_name new)) eqn:M1; [discriminate|]. destruct (existsb _ os) eqn:M2; [discriminate|]. cbn [orb]. intro E.
  assert (mem nm (names' ++ map f_name new) = false) as ->.
  { apply mem_false. apply mem_false in M1. intro K. apply M1. rewrite in_app_iff in *. destruct K; auto. }
  assert (existsb (fun o => mem o (outs' ++ concat (map f_out new))) os = false) as ->; [|exact E].
  apply not_true_is_false. intro K. apply existsb_exists in K. destruct K as (o & Io & Ko). pose proof (existsb_false _ _ M2 o Io) as F. cbn beta in F.
  apply mem_false in F. apply mem_in in Ko. apply F. rewrite in_app_iff in *. destruct Ko; auto.
Qed.
Lemma prefix_loop_strip scope names outs names' outs' : incl names' names -> incl outs' outs ->
  forall fuel kept todo new go st, prefix_loop scope names outs fuel (PState kept todo new go) = Some st ->
  (forall n, In n kept -> is_graph_input n = true) ->
  (forall n, In n (p_kept st) -> is_graph_input n = true) /\
  forall fuel', length (filter regular todo) <= fuel' ->
    prefix_loop scope names' outs' fuel' (PState [] (filter regular todo) new go) = Some (PState [] [] (p_new st) (p_outs st)).
Proof.
  intros I1 I2. induction fuel as [|fuel IH]; intros kept todo new go st E K.
  - cbn [prefix_loop p_todo] in E. destruct todo; [|discriminate]. injection E as <-. split; [exact K|]. intros [|f] _; reflexivity.
  - destruct todo as [|n todo]; cbn [prefix_loop p_todo p_kept p_new p_outs] in E.
    + injection E as <-. split; [exact K|]. intros [|f] _; reflexivity.
    + destruct (is_graph_input n) eqn:G.
      * apply IH in E; [|intros m; rewrite in_app_iff; intros [Q|[<-|[]]]; auto]. assert (RG : regular n = false) by (unfold regular; now rewrite G). cbn [filter]. rewrite RG. exact E.
      * destruct (make_scoped scope names outs new n) as [n'|] eqn:M; [|discriminate]. rewrite rename_outputs in E. cbn [p_kept p_todo p_new p_outs] in E.
        apply IH in E.
        -- destruct E as [E1 E2]. split; [exact E1|]. assert (RG : regular n = true) by (unfold regular; now rewrite G). cbn [filter]. rewrite RG. cbn [length]. intros [|fuel'] L; [lia|].
           cbn [prefix_loop p_todo p_kept p_new p_outs]. rewrite G, (make_scoped_less _ _ _ _ _ _ _ _ I1 I2 M), rename_outputs. cbn [p_kept p_todo p_new p_outs map].
           rewrite filter_regular_substs in E2. apply E2. rewrite map_length. lia.
        -- intros m Im. apply in_map_iff in Im. destruct Im as (m0 & <- & Im). rewrite graph_input_substs. auto.
Qed.
Lemma prefix_strip scope nodes gouts ns o : prefix_graph scope nodes gouts = Some (ns, o) ->
  exists strays news, ns = strays ++ news /\ (forall n, In n strays -> is_graph_input n = true) /\ prefix_graph scope (filter regular nodes) gouts = Some (news, o).
Proof.
  unfold prefix_graph. destruct (prefix_loop _ _ _ _ _) as [st|] eqn:E; [|discriminate]. intro Q. injection Q as <- <-.
  eapply (prefix_loop_strip scope _ _ (map f_name (filter regular nodes)) (concat (map f_out (filter regular nodes)))) in E; [| | |intros n []].
  - destruct E as [E1 E2]. exists (p_kept st), (p_new st). split; [reflexivity|]. split; [exact E1|]. rewrite E2 by auto. reflexivity.
  - intros x Ix. apply in_map_iff in Ix. destruct Ix as (n & <- & Ix). apply filter_In in Ix. apply in_map. tauto.
  - intros x Ix. apply in_concat_map in Ix. destruct Ix as (n & Ix & Ox). apply filter_In in Ix. apply in_concat_map. exists n. tauto.
Qed.
Lemma strip_bound ks scope binding cond : function_graph cond -> length (f_ins cond) = 2 + length ks -> inlinable scope binding (drop_lists ks cond) ->
  filter regular (bind_inputs binding (FGraph (f_nodes cond) (keep2 ks (f_ins cond)) (f_outs cond))) = bind_inputs binding (drop_lists ks cond).
Proof.
  intros FG L I. unfold bind_inputs. cbn [f_nodes f_ins drop_lists]. set (ps := of_kind Lst ks (skipn 2 (f_ins cond))).
  pose proof (ops_no_input scope binding (drop_lists ks cond) I) as NI. cbn [f_nodes f_ins drop_lists] in NI. fold ps in NI.
  assert (D : forall p, In p ps -> In p (f_ins cond) /\ ~ In p (keep2 ks (f_ins cond))).
  { intros p Ip. pose proof (fn_params _ FG) as ND. destruct (f_ins cond) as [|c0 [|c1 ci]]; try discriminate. cbn [length] in L. unfold ps, keep2 in *. cbn [skipn firstn app] in *.
    assert (S1 : forall (l : list string) ks, NoDup l -> In p (of_kind Lst ks l) -> In p l /\ ~ In p (not_lst ks l)).
    { clear. induction l as [|x l IH]; intros [|k ks] ND Ip; try contradiction. inversion ND as [|? ? Nx ND']; subst. rewrite of_kind_cons in Ip. rewrite not_lst_cons.
      destruct (kind_eqb k Lst) eqn:Ek.
      - destruct Ip as [->|Ip]; [|specialize (IH _ ND' Ip); cbn [In]; tauto]. split; [left; auto|]. intro K. apply Nx. unfold not_lst in K. apply in_map_iff in K. destruct K as ([? ?] & E & K). cbn in E. subst.
        apply filter_In in K. destruct K as [K _]. apply in_combine_r in K. exact K.
      - specialize (IH _ ND' Ip). cbn [In]. split; [tauto|]. intros [->|K]; tauto. }
    inversion ND as [|? ? N0 ND1]; subst. inversion ND1 as [|? ? N1 ND2]; subst. destruct (S1 _ _ ND2 Ip) as [A B]. cbn [In] in *. split; [tauto|]. intros [->|[->|K]]; tauto. }
  assert (G : forall l, incl l (f_nodes cond) -> filter regular (flat_map (bind_node binding (keep2 ks (f_ins cond))) l) =
     flat_map (bind_node binding (keep2 ks (f_ins cond))) (filter (fun n => negb (existsb (fun o => mem o ps) (f_out n))) l)).
  { induction l as [|n l IH]; intro Inc; [reflexivity|]. cbn [flat_map filter]. rewrite filter_app, IH by (intros x Ix; apply Inc; right; auto).
    assert (In_n : In n (f_nodes cond)) by (apply Inc; left; auto). destruct (existsb (fun o => mem o ps) (f_out n)) eqn:X; cbn [negb].
    - apply existsb_exists in X. destruct X as (p & Op & Mp). apply mem_in in Mp. destruct (D p Mp) as [D1 D2]. destruct (fn_param _ FG p D1) as (m & Im & Pm & Om).
      assert (n = m) as -> by (apply (unique_output (f_nodes cond) n m p (fn_ssa _ FG)); auto; rewrite Om; left; auto).
      unfold bind_node. rewrite Om. assert (mem p (keep2 ks (f_ins cond)) = false) as -> by (now apply mem_false). cbn [filter]. unfold regular. apply graph_input_iff in Pm. rewrite Pm. reflexivity.
    - cbn [flat_map]. f_equal. rewrite (filter_ext_in _ (fun _ => true)).
      + clear. induction (bind_node _ _ _); cbn [filter]; congruence.
      + intros m Im. unfold regular. rewrite NI; [reflexivity|]. apply in_flat_map. exists n. split; [|exact Im]. apply filter_In. rewrite X. auto. }
  apply G. intros x Ix. exact Ix.
Qed.

(** ** bindings *)
Lemma inlinable_ext scope b b' g : (forall i, dict_get b i = dict_get b' i) -> inlinable scope b g -> inlinable scope b' g.
Proof.
  intros E I. assert (Q : forall i p, binds b' i p <-> binds b i p).
  { intros i p. rewrite <- !bound_iff. unfold bound. rewrite E. tauto. }
  destruct I. constructor; auto.
  - intros l1 n l2 i p El Eo Ii Bp. apply (i_target l1 n l2 i p); auto. now apply Q.
  - intros o Io. destruct (i_result o Io) as [A B]. split; auto. intro Ii. destruct (B Ii) as (p & Bp). exists p. now apply Q.
  - intros i n Ii Nb In_n. apply (i_unbound i n); auto. intros p Bp. apply (Nb p). now apply Q.
  - intros i p Bp. apply (i_fresh_target i p). now apply Q.
Qed.
Lemma dict_get_set d k v i : dict_get (dict_set d k v) i = if String.eqb k i then Some v else dict_get d i.
Proof. unfold dict_get, dict_set. cbn [find fst]. destruct (String.eqb k i); reflexivity. Qed.
Lemma dict_get_cons k v d i : dict_get ((k, v) :: d) i = if String.eqb k i then Some v else dict_get d i.
Proof. exact (dict_get_set d k v i). Qed.
Lemma dict_get_none names : forall vals i, ~ In i names -> dict_get (combine names vals) i = None.
Proof.
  induction names as [|k names IH]; intros [|v vals] i N; try reflexivity. cbn [combine]. rewrite dict_get_cons. destruct (String.eqb_spec k i) as [->|]; [exfalso; apply N; left; auto|].
  apply IH. intro. apply N. now right.
Qed.
(** [vals]: the names the parameters get *)
Lemma bind_loop_get sv : forall names inputs acc b, NoDup names -> bind_loop names inputs sv acc = Some b ->
  forall vals, length vals = length names ->
  (filter (fun p => match dict_get sv (fst p) with None => true | Some _ => false end) (combine names vals) = combine (filter (fun k => match dict_get sv k with None => true | Some _ => false end) names) inputs) ->
  (forall k v, In (k, v) (combine names vals) -> dict_get sv k = None \/ dict_get sv k = Some v) ->
  forall i, dict_get b i = match dict_get (combine names vals) i with Some v => Some v | None => dict_get acc i end.
Proof.
  induction names as [|k names IH]; intros inputs acc b ND E vals L F S i.
  - cbn [bind_loop] in E. destruct inputs; [|discriminate]. injection E as <-. reflexivity.
  - destruct vals as [|v vals]; [discriminate|]. cbn [combine] in *. inversion ND as [|? ? Nk ND']; subst. cbn [bind_loop filter fst] in *. rewrite dict_get_cons.
    destruct (dict_get sv k) as [w|] eqn:Ek.
    + destruct (S k v (or_introl eq_refl)) as [S1|S1]; rewrite Ek in S1; [discriminate|]. injection S1 as ->.
      rewrite (IH _ _ _ ND' E vals ltac:(cbn in L; lia) F ltac:(intros; apply S; right; auto) i). destruct (String.eqb_spec k i) as [->|N].
      * rewrite (dict_get_none _ _ _ Nk), dict_get_set, String.eqb_refl. reflexivity.
      * rewrite dict_get_set. destruct (String.eqb_spec k i); [congruence|]. reflexivity.
    + destruct inputs as [|x inputs]; [discriminate|]. cbn [combine] in F. injection F as Fv F. subst x.
      rewrite (IH _ _ _ ND' E vals ltac:(cbn in L; lia) F ltac:(intros; apply S; right; auto) i). destruct (String.eqb_spec k i) as [->|N].
      * rewrite (dict_get_none _ _ _ Nk), dict_get_set, String.eqb_refl. reflexivity.
      * rewrite dict_get_set. destruct (String.eqb_spec k i); [congruence|]. reflexivity.
Qed.
Lemma bind_loop_length sv : forall names inputs acc b, bind_loop names inputs sv acc = Some b -> length inputs = length (filter (fun k => match dict_get sv k with None => true | Some _ => false end) names).
Proof.
  induction names as [|k names IH]; intros inputs acc b E; cbn [bind_loop filter] in *; [destruct inputs; [reflexivity|discriminate]|].
  destruct (dict_get sv k); [eauto|]. destruct inputs; [discriminate|]. cbn [length]. f_equal. eauto.
Qed.
(** the parameters that become names of the enclosing graph *)
Lemma state_vars_get : forall ks ins params d, length ins = length ks -> length params = length ks -> NoDup params ->
  (forall t, ~ In t params -> dict_get (state_vars ks ins params d) t = dict_get d t) /\
  (forall i k x p, nth_error ks i = Some k -> nth_error ins i = Some x -> nth_error params i = Some p -> dict_get (state_vars ks ins params d) p = match k with Read => Some x | _ => dict_get d p end).
Proof.
  induction ks as [|k ks IH]; intros [|x ins] [|p params] d L1 L2 ND; try discriminate.
  - split; [reflexivity|]. intros [|i]; discriminate.
  - inversion ND as [|? ? Np ND']; subst. cbn [length] in *. assert (Q : forall d', state_vars ks ins params d' = state_vars ks ins params d') by reflexivity.
    set (d' := match k with Read => dict_set d p x | _ => d end). assert (E : state_vars (k :: ks) (x :: ins) (p :: params) d = state_vars ks ins params d') by (destruct k; reflexivity).
    rewrite E. destruct (IH ins params d' ltac:(lia) ltac:(lia) ND') as [A B]. split.
    + intros t Nt. rewrite A by (intro; apply Nt; right; auto). unfold d'. destruct k; auto. rewrite dict_get_set. destruct (String.eqb_spec p t) as [->|]; auto. exfalso. apply Nt. left. auto.
    + intros [|i] k' x' p' E1 E2 E3; cbn [nth_error] in *.
      * injection E1 as <-. injection E2 as <-. injection E3 as <-. rewrite A by auto. unfold d'. destruct k; auto. rewrite dict_get_set, String.eqb_refl. reflexivity.
      * rewrite (B i k' x' p' E1 E2 E3). destruct k'; auto; unfold d'; destruct k; auto; rewrite dict_get_set; destruct (String.eqb_spec p p') as [->|]; auto; exfalso; apply Np; apply nth_error_In in E3; auto.
Qed.

(** ** removing what feeds the lists *)
Lemma filter_names (P : string -> bool) (ns : list fnode) : NoDup (map f_name ns) -> NoDup (map f_name (filter (fun m => P (f_name m)) ns)).
Proof.
  induction ns as [|n ns IH]; intro ND; [constructor|]. cbn [map] in ND. inversion ND as [|? ? N ND']; subst. cbn [filter]. destruct (P (f_name n)); auto. cbn [map]. constructor; auto.
  intro K. apply N. apply in_map_iff in K. destruct K as (m & E & K). apply filter_In in K. apply in_map_iff. exists m. tauto.
Qed.
Lemma same_name ns n m : NoDup (map f_name ns) -> In n ns -> In m ns -> f_name n = f_name m -> n = m.
Proof.
  induction ns as [|a ns IH]; intros ND H1 H2 E; [destruct H1|]. cbn [map] in ND. inversion ND as [|? ? N ND']; subst. destruct H1 as [->|H1], H2 as [->|H2]; auto.
  - exfalso. apply N. rewrite E. now apply in_map.
  - exfalso. apply N. rewrite <- E. now apply in_map.
Qed.
Lemma remove_feeds_spec fi : forall fuel queue ns ns3, remove_feeds fi fuel queue ns = Some ns3 -> NoDup (map f_name ns) ->
  (forall t n, In t queue -> In n ns -> In t (f_out n) -> f_in n = [] /\ placeholder n) ->
  (forall m, In m ns3 -> In m ns) /\ (forall m, In m ns -> ~ placeholder m -> In m ns3).
Proof.
  induction fuel as [|fuel IH]; intros queue ns ns3 E ND H; destruct queue as [|t queue]; cbn [remove_feeds] in E; try discriminate; try (injection E as <-; auto).
  unfold producer in E. destruct (find (fun n => mem t (f_out n)) ns) as [n|] eqn:F.
  - apply find_some in F. destruct F as [In_n Mt]. apply mem_in in Mt. destruct (H t n (or_introl eq_refl) In_n Mt) as [Ei Pn]. destruct (mem t fi).
    + apply (IH _ _ _ E ND). intros. eapply H; eauto. now right.
    + rewrite Ei, app_nil_r in E. apply IH in E.
      * destruct E as [E1 E2]. split.
        -- intros m Im. apply E1 in Im. apply filter_In in Im. tauto.
        -- intros m Im NPm. apply E2; auto. apply filter_In. split; auto. apply negb_true_iff. apply String.eqb_neq. intro Q. apply NPm.
           now rewrite (same_name ns m n ND Im In_n Q).
      * exact (filter_names (fun nm => negb (String.eqb nm (f_name n))) ns ND).
      * intros t' m It Im Om. apply filter_In in Im. apply (H t' m); try tauto. now right.
  - apply (IH _ _ _ E ND). intros. eapply H; eauto. now right.
Qed.

(** ** following the names of a list *)
Lemma readers_fv t :
  (forall n m, In m (readers_node t n) -> (forall b, In b (f_bodies n) -> ~ In t (alldefs b)) -> In t (fv_node n)) /\
  (forall g m, In m (readers_graph t g) -> ~ In t (alldefs g) -> In t (fv_graph g)).
Proof.
  apply fnode_fgraph_ind.
  - intros b1 b2 b3 b4 b5 b6 b7 IH m Im Nb. cbn [readers_node f_bodies fv_node] in *. apply in_app_iff in Im. rewrite in_app_iff. destruct Im as [Im|Im].
    + destruct (mem t b5) eqn:M; [|destruct Im]. left. now apply mem_in.
    + right. apply in_concat in Im. destruct Im as (l & Il & Im). apply in_map_iff in Il. destruct Il as (b & <- & Ib). apply in_concat_map. exists b. split; auto. apply (IH b Ib m); auto.
  - intros ns gi go IH m Im Nd. cbn [readers_graph] in Im. apply in_concat in Im. destruct Im as (l & Il & Im). apply in_map_iff in Il. destruct Il as (n & <- & In_n).
    apply in_fv_graph. cbn [f_nodes]. split; [intro K; apply Nd; now apply defs_alldefs|]. right. right. exists n. split; auto.
    apply (IH n In_n m); auto. intros b Ib K. apply Nd. apply alldefs_in. right. exists n. split; auto. apply alldefs_in_node. right. eauto.
Qed.
