(** Converting While: one iteration. *)
From Coq Require Import String List Bool ZArith Arith Lia Permutation.
From Verif Require Import FGraph FGraphProofs FGraphSpec IdentityProofs InlineModel InlineSpec InlineProofs InlineProofs3 InlineProofs4 WhileSpec WhileModel WhileProofs WhileProofs2 WhileProofs3.
Import ListNotations.
Local Open Scope string_scope.
Local Open Scope list_scope.

(** ** selections *)
Lemma of_kind_map {A B} (f : A -> B) k ks : forall l, of_kind k ks (map f l) = map f (of_kind k ks l).
Proof. induction ks as [|k0 ks IH]; intros [|x l]; try reflexivity. cbn [map]. rewrite !of_kind_cons, IH. destruct (kind_eqb k0 k); reflexivity. Qed.
Lemma not_lst_map {A B} (f : A -> B) ks : forall l, not_lst ks (map f l) = map f (not_lst ks l).
Proof. induction ks as [|k0 ks IH]; intros [|x l]; try reflexivity. cbn [map]. rewrite !not_lst_cons, IH. destruct (kind_eqb k0 Lst); reflexivity. Qed.
Lemma of_kind_ext {A} ks : forall a b : list A, length a = length ks -> length b = length ks -> (forall k, of_kind k ks a = of_kind k ks b) -> a = b.
Proof.
  induction ks as [|k0 ks IH]; intros [|x a] [|y b] L1 L2 E; try discriminate; [reflexivity|]. cbn [length] in *.
  pose proof (E k0) as E0. rewrite !of_kind_cons in E0. assert (kind_eqb k0 k0 = true) as R by (destruct k0; reflexivity). rewrite R in E0. injection E0 as -> E0. f_equal.
  apply IH; try lia. intro k. specialize (E k). rewrite !of_kind_cons in E. destruct (kind_eqb k0 k); [now injection E|exact E].
Qed.
Lemma not_lst_ext {A} ks : forall a b : list A, length a = length ks -> length b = length ks -> of_kind Var ks a = of_kind Var ks b -> of_kind Read ks a = of_kind Read ks b -> not_lst ks a = not_lst ks b.
Proof.
  induction ks as [|k0 ks IH]; intros [|x a] [|y b] L1 L2 E1 E2; try discriminate; [reflexivity|]. cbn [length] in *. rewrite !of_kind_cons in E1, E2. rewrite !not_lst_cons.
  destruct k0; cbn [kind_eqb] in *; [injection E1 as -> E1; f_equal|injection E2 as -> E2; f_equal|]; apply IH; auto; lia.
Qed.
Lemma merge_cons {A} k ks (x y : A) a b : merge (k :: ks) (x :: a) (y :: b) = (match k with Read => y | _ => x end) :: merge ks a b.
Proof. destruct k; reflexivity. Qed.
Lemma merge_length {A} ks : forall a b : list A, length a = length ks -> length b = length ks -> length (merge ks a b) = length ks.
Proof. intros a b L1 L2. unfold merge. rewrite map_length, !combine_length. lia. Qed.
Lemma merge_var {A} ks : forall a b : list A, length a = length ks -> length b = length ks -> of_kind Var ks (merge ks a b) = of_kind Var ks a.
Proof. induction ks as [|k ks IH]; intros [|x a] [|y b] L1 L2; try discriminate; [reflexivity|]. cbn [length] in *. rewrite merge_cons, !of_kind_cons, IH by lia. destruct k; reflexivity. Qed.
Lemma merge_read {A} ks : forall a b : list A, length a = length ks -> length b = length ks -> of_kind Read ks (merge ks a b) = of_kind Read ks b.
Proof. induction ks as [|k ks IH]; intros [|x a] [|y b] L1 L2; try discriminate; [reflexivity|]. cbn [length] in *. rewrite merge_cons, !of_kind_cons, IH by lia. destruct k; reflexivity. Qed.
Lemma of_kind_zip {A B C} (f : A -> C) (g : B -> C) k ks : forall l l', length l = length ks -> length l' = length ks ->
  (forall i x y, nth_error ks i = Some k -> nth_error l i = Some x -> nth_error l' i = Some y -> f x = g y) -> map f (of_kind k ks l) = map g (of_kind k ks l').
Proof.
  induction ks as [|k0 ks IH]; intros [|x l] [|y l'] L1 L2 H; try discriminate; [reflexivity|]. cbn [length] in *. rewrite !of_kind_cons. specialize (IH l l' ltac:(lia) ltac:(lia) (fun i => H (S i))).
  destruct (kind_eqb k0 k) eqn:E; auto. cbn [map]. f_equal; auto. apply (H 0); auto. cbn. f_equal. destruct k0, k; cbn in E; congruence.
Qed.
Lemma arguments_combine {V} (r : string -> V) ins : forall names, NoDup ins -> length names = length ins -> arguments r (combine ins names) ins (map r names).
Proof.
  unfold arguments. induction ins as [|i ins IH]; intros [|x names] ND L; try discriminate; [constructor|]. inversion ND as [|? ? N ND']; subst. cbn [combine map]. constructor.
  - intros p B. inversion B; subst; [reflexivity|congruence].
  - specialize (IH names ND' ltac:(cbn in L; lia)). assert (Q : forall l args, (forall j, In j l -> j <> i) -> Forall2 (fun i0 a => forall p, binds (combine ins names) i0 p -> a = r p) l args ->
      Forall2 (fun i0 a => forall p, binds ((i, x) :: combine ins names) i0 p -> a = r p) l args).
    { induction 2 as [|j a l args Ha F IHF]; constructor; [|apply IHF; intros; apply H; right; auto]. intros p B. inversion B; subst; [exfalso; eapply H; [left; reflexivity|reflexivity]|auto]. }
    apply Q; auto. intros j Ij ->. contradiction.
Qed.

Section Sem.
Variable V : Type.
Variable vo : value_ops V.
Variable op_rel : string -> string -> list (string * attr) -> nat -> list V -> list (list V -> list V -> Prop) -> list V -> Prop.
Hypothesis LS : loop_semantics vo op_rel.
Notation holds := (holds op_rel). Notation body_rel := (body_rel op_rel). Notation all_hold := (all_hold op_rel).
Lemma Ext : op_ext op_rel. Proof. exact (ls_ext _ _ LS). Qed.
Lemma Idm : identity_meaning op_rel. Proof. exact (ls_identity _ _ LS). Qed.

(** ** functions *)
Lemma fn_defs g : function_graph g -> forall t, In t (defs (equations g)) <-> In t (outputs_of (f_nodes g)).
Proof.
  intros F t. rewrite in_defs, in_outputs_of. split.
  - intros [N [I|(n & I & O)]]; [destruct (fn_param _ F t I) as (n & In_n & _ & E); exists n; rewrite E; split; auto; left; auto|]. apply in_equations in I. destruct I. eauto.
  - intros (n & I & O). split; [intros ->; apply (fn_named _ F); apply in_outputs_of; eauto|]. cbn [f_ins equations]. destruct (is_graph_input n) eqn:P.
    + apply graph_input_iff in P. destruct (fn_placeholder _ F n I P) as (_ & _ & i & E & Ii). rewrite E in O. destruct O as [<-|[]]. auto.
    + apply graph_input_false in P. right. exists n. split; auto. now apply in_equations.
Qed.
Lemma fn_fv g : function_graph g -> forall t, In t (fv_graph (equations g)) -> t = "".
Proof.
  intros F t I. apply in_fv_graph in I. destruct I as [N I]. rewrite (fn_defs g F) in N. cbn [equations f_ins f_outs] in I. destruct I as [I|[I|(n & I & K)]].
  - exfalso. apply N. destruct (fn_param _ F t I) as (n & In_n & _ & E). apply in_outputs_of. exists n. rewrite E. split; auto. left. auto.
  - exfalso. apply N. now apply (fn_results _ F).
  - change (filter _ (f_nodes g)) with (f_nodes (equations g)) in I. apply in_equations in I. destruct I as [I _]. destruct (fn_closed _ F n t I K); [auto|contradiction].
Qed.
(** a function means the same wherever it is called *)
Lemma fn_anywhere g (r r' : env V) : function_graph g -> r "" = r' "" -> forall a s, body_rel r (equations g) a s <-> body_rel r' (equations g) a s.
Proof. intros F E. apply (body_agree V op_rel Ext). intros x Ix. now rewrite (fn_fv g F x Ix). Qed.

(** ** the condition without its parameters for written lists *)
Section Cond.
Variables (ks : list kind) (cond : fgraph) (c0 c1 : string) (ci : list string).
Hypothesis Eci : f_ins cond = c0 :: c1 :: ci.
Hypothesis FC : function_graph cond.
Hypothesis Lci : length ci = length ks.
Hypothesis HL : forall p, In p (of_kind Lst ks ci) -> ~ In p (f_outs cond) /\ forall n, In n (f_nodes cond) -> ~ In p (fv_node n).
Lemma drop_equations : equations (drop_lists ks cond) = FGraph (f_nodes (equations cond)) (c0 :: c1 :: not_lst ks ci) (f_outs cond).
Proof.
  unfold equations, drop_lists, keep2. cbn [f_nodes f_ins f_outs]. rewrite Eci. cbn [firstn skipn app]. f_equal.
  assert (G : forall l, incl l (f_nodes cond) -> filter (fun n => negb (mem (f_op n) ["Placeholder"; "PlaceholderWithDefault"; "PlaceholderV2"])) (filter (fun n => negb (existsb (fun o => mem o (of_kind Lst ks ci)) (f_out n))) l) =
    filter (fun n => negb (mem (f_op n) ["Placeholder"; "PlaceholderWithDefault"; "PlaceholderV2"])) l).
  { induction l as [|n l IH]; intro Inc; [reflexivity|]. cbn [filter]. rewrite <- IH by (intros x Ix; apply Inc; right; auto). destruct (existsb _ (f_out n)) eqn:X; cbn [negb filter]; [|reflexivity].
    apply existsb_exists in X. destruct X as (p & Op & Mp). apply mem_in in Mp. assert (Ip : In p (f_ins cond)) by (rewrite Eci; right; right; apply in_of_kind in Mp; destruct Mp as (i & _ & E); now apply nth_error_In in E).
    destruct (fn_param _ FC p Ip) as (m & Im & Pm & Om). assert (n = m) as -> by (apply (unique_output (f_nodes cond) n m p (fn_ssa _ FC)); auto; [apply Inc; left; auto|rewrite Om; left; auto]).
    apply graph_input_iff in Pm. unfold is_graph_input in Pm. rewrite Pm. reflexivity. }
  apply G. intros x Ix. exact Ix.
Qed.
Lemma lst_ci p : In p (of_kind Lst ks ci) -> In p ci. Proof. intro I. apply in_of_kind in I. destruct I as (i & _ & E). now apply nth_error_In in E. Qed.
Lemma ci_facts : c0 <> c1 /\ ~ In c0 ci /\ ~ In c1 ci /\ NoDup ci.
Proof. pose proof (fn_params _ FC) as ND. rewrite Eci in ND. inversion ND as [|? ? N0 ND1]; subst. inversion ND1 as [|? ? N1 ND2]; subst. cbn [In] in N0. repeat split; auto. Qed.
Lemma keep_ci p : In p (c0 :: c1 :: not_lst ks ci) <-> In p (f_ins cond) /\ ~ In p (of_kind Lst ks ci).
Proof.
  destruct ci_facts as (N01 & N0 & N1 & ND). rewrite Eci. cbn [In]. rewrite in_not_lst, in_of_kind. split.
  - intros [->|[->|(i & k & E1 & N & E2)]].
    + split; auto. intros (i & _ & E). apply N0. now apply nth_error_In in E.
    + split; auto. intros (i & _ & E). apply N1. now apply nth_error_In in E.
    + split; [right; right; now apply nth_error_In in E2|]. intros (j & E3 & E4). assert (j = i) as -> by (apply (NoDup_nth_error ci); auto; [apply nth_error_Some; congruence|congruence]). congruence.
  - intros [[->|[->|I]] N]; auto. right. right. apply In_nth_error in I. destruct I as (i & E). assert (Li : i < length ks) by (rewrite <- Lci; apply nth_error_Some; congruence).
    destruct (nth_error ks i) as [k|] eqn:Ek; [|apply nth_error_None in Ek; lia]. exists i, k. split; auto. split; auto. intros ->. apply N. eauto.
Qed.
Lemma cond_strip (r : env V) a0 a1 rest res : length rest = length ks ->
  (body_rel r (equations cond) (a0 :: a1 :: rest) res <-> body_rel r (equations (drop_lists ks cond)) (a0 :: a1 :: not_lst ks rest) res).
Proof.
  intro L. rewrite drop_equations, !body_rel_eq. cbn [f_ins f_nodes f_outs]. rewrite (ltac:(reflexivity) : f_ins (equations cond) = f_ins cond), (ltac:(reflexivity) : f_outs (equations cond) = f_outs cond), Eci.
  destruct ci_facts as (N01 & N0 & N1 & ND). set (lp := of_kind Lst ks ci) in *.
  assert (DN : forall t, In t (defs (FGraph (f_nodes (equations cond)) (c0 :: c1 :: not_lst ks ci) (f_outs cond))) <-> In t (defs (equations cond)) /\ ~ In t lp).
  { intro t. rewrite !in_defs. cbn [f_ins f_nodes]. rewrite keep_ci. fold lp. rewrite (ltac:(reflexivity) : f_ins (equations cond) = f_ins cond).
    assert (O : (exists n, In n (f_nodes (equations cond)) /\ In t (f_out n)) -> ~ In t lp).
    { intros (n & I & O) K. apply in_equations in I. destruct I as [I NP]. assert (Ip : In t (f_ins cond)) by (rewrite Eci; right; right; now apply lst_ci).
      destruct (fn_param _ FC t Ip) as (m & Im & Pm & Om). apply NP. replace n with m; auto. apply (unique_output (f_nodes cond) m n t (fn_ssa _ FC)); auto. rewrite Om. left. auto. }
    change (f_nodes (equations cond)) with (filter (fun n => negb (mem (f_op n) ["Placeholder"; "PlaceholderWithDefault"; "PlaceholderV2"])) (f_nodes cond)) in *. tauto. }
  assert (Rd : forall n t, In n (f_nodes (equations cond)) -> In t (fv_node n) \/ In t (f_out n) -> ~ In t lp).
  { intros n t I [K|K] Kp.
    - apply in_equations in I. destruct I as [I _]. exact (proj2 (HL t Kp) n I K).
    - pose proof I as I'. apply in_equations in I. destruct I as [I NP]. assert (Ip : In t (f_ins cond)) by (rewrite Eci; right; right; now apply lst_ci).
      destruct (fn_param _ FC t Ip) as (m & Im & Pm & Om). apply NP. replace n with m; auto. apply (unique_output (f_nodes cond) m n t (fn_ssa _ FC)); auto. rewrite Om. left. auto. }
  assert (Tr : forall r1 r2 : env V, (forall t, ~ In t lp -> r1 t = r2 t) -> all_hold r1 (f_nodes (equations cond)) -> all_hold r2 (f_nodes (equations cond))).
  { intros r1 r2 E H n I. eapply (holds_agree V op_rel Ext); [| |apply (H n I)]; intros; apply E; eauto. }
  assert (Rs : forall r1 r2 : env V, (forall t, ~ In t lp -> r1 t = r2 t) -> map r1 (f_outs cond) = map r2 (f_outs cond)).
  { intros r1 r2 E. apply map_ext_in. intros t I. apply E. intro K. exact (proj1 (HL t K) I). }
  split; intros (r' & H1 & H2 & H3 & H4).
  - exists (fun t => if mem t lp then r t else r' t). assert (Q : forall t, ~ In t lp -> r' t = (if mem t lp then r t else r' t)) by (intros t N; apply mem_false in N; now rewrite N).
    split; [|split; [|split]].
    + intros t N. destruct (mem t lp) eqn:M; auto. apply H1. intro K. apply N. apply DN. split; auto. now apply mem_false.
    + cbn [map] in *. injection H2 as E0 E1 E2. rewrite <- !Q, E0, E1; [| |].
      * f_equal. f_equal. rewrite <- E2, not_lst_map. apply map_ext_in. intros t It. symmetry. apply Q. apply (keep_ci t). right. right. auto.
      * apply (keep_ci c1). right. left. auto.
      * apply (keep_ci c0). left. auto.
    + eapply Tr; [|exact H3]. exact Q.
    + rewrite <- H4. symmetry. now apply Rs.
  - exists (fun t => if mem t lp then match param_value ci rest t with Some a => a | None => r' t end else r' t).
    assert (Q : forall t, ~ In t lp -> r' t = (if mem t lp then match param_value ci rest t with Some a => a | None => r' t end else r' t)) by (intros t N; apply mem_false in N; now rewrite N).
    split; [|split; [|split]].
    + intros t N. assert (Nl : ~ In t lp).
      { intro K. apply N. rewrite (fn_defs cond FC). assert (Ip : In t (f_ins cond)) by (rewrite Eci; right; right; now apply lst_ci).
        destruct (fn_param _ FC t Ip) as (m & Im & Pm & Om). apply in_outputs_of. exists m. rewrite Om. split; auto. left. auto. }
      rewrite <- Q by auto. apply H1. rewrite DN. tauto.
    + cbn [map] in *. injection H2 as E0 E1 E2. rewrite <- !Q, E0, E1; [| |].
      * f_equal. f_equal. etransitivity; [|apply (param_value_map r' ci rest ND ltac:(lia))]. apply map_ext_in. intros t It. destruct (mem t lp) eqn:M; auto.
        assert (Kt : In t (not_lst ks ci)).
        { assert (K : In t (c0 :: c1 :: not_lst ks ci)) by (apply keep_ci; split; [rewrite Eci; right; right; auto|now apply mem_false]). destruct K as [->|[->|K]]; [contradiction|contradiction|auto]. }
        clear - E2 Kt ND L Lci. assert (G : forall l (ks : list kind) rest, NoDup l -> length l = length ks -> length rest = length ks -> map r' (not_lst ks l) = not_lst ks rest -> In t (not_lst ks l) ->
          r' t = match param_value l rest t with Some a => a | None => r' t end).
        { clear. unfold param_value. induction l as [|x l IH]; intros [|k ks'] [|y rest] ND L1 L2 E K; try discriminate; [reflexivity|]. inversion ND as [|? ? Nx ND']; subst. cbn [combine find fst].
          destruct (String.eqb_spec x t) as [->|N].
          - cbn. rewrite !not_lst_cons in *. destruct (kind_eqb k Lst); [|cbn in E; congruence]. exfalso. apply Nx. apply in_not_lst in K. destruct K as (i & k' & _ & _ & K). now apply nth_error_In in K.
          - rewrite !not_lst_cons in *. cbn [length] in *. destruct (kind_eqb k Lst).
            + apply (IH ks' rest); auto; lia.
            + cbn [map] in E. injection E as _ E. destruct K as [->|K]; [congruence|]. apply (IH ks' rest); auto; lia. }
        apply (G ci ks rest); auto.
      * apply (keep_ci c1). right. left. auto.
      * apply (keep_ci c0). left. auto.
    + eapply Tr; [|exact H3]. exact Q.
    + rewrite <- H4. symmetry. now apply Rs.
Qed.
End Cond.
End Sem.
