(** To show that a sequence of nodes does not compute an operator, scalars suffice. *)
From Coq Require Import ZArith String List Bool Lia Arith.
From Flocq Require Import BinarySingleNaN.
From Verif Require Import ElemSpec ElemModel ElemLift ElemFloat ElemProofs.
Import ListNotations.
Local Open Scope list_scope.
Local Open Scope nat_scope.
Definition scalar (v : val) : ten := Ten [] (fun _ => Some v).
Fixpoint oevals (opset : nat) (ins tmps : list (option val)) (steps : list step) : option (list (option val)) :=
  match steps with
  | [] => Some tmps
  | Const [] v :: steps' => oevals opset ins (tmps ++ [Some v]) steps'
  | Const _ _ :: _ => None
  | Node op a rs :: steps' =>
      match looks ins tmps rs with
      | Some os => oevals opset ins (tmps ++ [match all_vals os with Some vs => onnx_op opset op a vs | None => None end]) steps'
      | None => None
      end
  end.
Definition oeval (opset : nat) (p : list step * ref) (vs : list val) : option (option val) :=
  match oevals opset (map Some vs) [] (fst p) with Some tmps => look (map Some vs) tmps (snd p) | None => None end.
Definition is_scalar (t : ten) (o : option val) : Prop := tshape t = [] /\ telem t [] = o.
Lemma look_scalar ins tmps vs os r o : Forall2 is_scalar ins vs -> Forall2 is_scalar tmps os -> look vs os r = Some o ->
  exists t, look ins tmps r = Some t /\ is_scalar t o.
Proof.
  assert (G : forall l os k o, Forall2 is_scalar l os -> nth_error os k = Some o -> exists t, nth_error l k = Some t /\ is_scalar t o).
  { clear. intros l os k o F. revert k. induction F; intros [|k]; cbn; try discriminate; [intros [= <-]; eauto|auto]. }
  destruct r; cbn; eauto.
Qed.
Lemma looks_scalar ins tmps vs os rs : Forall2 is_scalar ins vs -> Forall2 is_scalar tmps os -> forall l, looks vs os rs = Some l ->
  exists ts, looks ins tmps rs = Some ts /\ Forall2 is_scalar ts l.
Proof.
  intros A B. induction rs as [|r rs IH]; cbn; intros l.
  - intros [= <-]. eauto.
  - destruct (look vs os r) as [o|] eqn:E; [|discriminate]. destruct (looks vs os rs) as [l'|]; [|discriminate]. intros [= <-].
    destruct (look_scalar _ _ _ _ _ _ A B E) as (t & -> & T). destruct (IH _ eq_refl) as (ts & -> & F). eauto.
Qed.
Lemma lift_scalar f ts os : Forall2 is_scalar ts os -> exists t, lift f ts = Some t /\ is_scalar t (match all_vals os with Some vs => f vs | None => None end).
Proof.
  intros F. assert (E : bcast_all (map tshape ts) = Some []).
  { induction F as [|t o ts os (A & _) F IH]; cbn; auto. rewrite IH, A. reflexivity. }
  unfold lift. rewrite E. eexists; split; [reflexivity|]. split; [reflexivity|]. cbn [telem].
  replace (map (fun t => telem t (align (tshape t) [])) ts) with os; [reflexivity|].
  clear E. induction F as [|t o ts os (A & B) F IH]; cbn; auto. f_equal; auto. rewrite A. cbn. auto.
Qed.
Lemma run_scalar opset steps : forall ins vs tmps os os', Forall2 is_scalar ins vs -> Forall2 is_scalar tmps os -> oevals opset vs os steps = Some os' ->
  exists tmps', run opset ins tmps steps = Some tmps' /\ Forall2 is_scalar tmps' os'.
Proof.
  induction steps as [|s steps IH]; intros ins vs tmps os os' A B; cbn [oevals run].
  - intros [= <-]. eauto.
  - destruct s as [[|d sh] v|op a rs]; cbn [run_step]; [|discriminate|].
    + intros E. eapply IH; [exact A| |exact E]. apply Forall2_app; auto. constructor; auto. split; reflexivity.
    + destruct (looks vs os rs) as [l|] eqn:E; [|discriminate]. destruct (looks_scalar _ _ _ _ _ A B _ E) as (ts & -> & F).
      destruct (lift_scalar (onnx_op opset op a) ts l F) as (t & -> & T). intros E'. eapply IH; [exact A| |exact E']. apply Forall2_app; auto.
Qed.
Theorem not_computes opset p n (Q : list val -> Prop) f vs v o : oeval opset p vs = Some o -> length vs = n -> Q vs -> f vs = Some v ->
  (match o with Some w => ~ same v w | None => True end) -> ~ computes opset p n Q f.
Proof.
  intros E L HQ Hf N C. unfold oeval in E. destruct (oevals opset (map Some vs) [] (fst p)) as [os|] eqn:R; [|discriminate].
  assert (I : Forall2 is_scalar (map scalar vs) (map Some vs)). { clear. induction vs; cbn; constructor; auto. split; reflexivity. }
  destruct (run_scalar _ _ _ _ _ _ _ I (Forall2_nil _) R) as (tmps & R' & F). destruct (look_scalar _ _ _ _ _ _ I F E) as (t & T & (T1 & T2)).
  destruct (lift_scalar f _ _ I) as (tf & Tf & (F1 & F2)). rewrite all_vals_map, Hf in F2.
  destruct (C (map scalar vs) tf) as (onnx & Ro & (_ & A)); auto.
  - now rewrite map_length.
  - intros sh ix ws B J V. assert (E' : bcast_all (map tshape (map scalar vs)) = Some []).
    { clear. induction vs; cbn; auto. cbn in IHvs. rewrite IHvs. reflexivity. }
    rewrite E' in B. injection B as <-. destruct ix; [|destruct J].
    replace (map (fun t => telem t (align (tshape t) [])) (map scalar vs)) with (map Some vs) in V; [rewrite all_vals_map in V; now injection V as <-|].
    clear. induction vs; cbn; auto. f_equal. auto.
  - unfold result in Ro. rewrite R', T in Ro. injection Ro as <-. rewrite F1 in A. destruct (A [] Logic.I v F2) as (w & W & Sm).
    rewrite <- T2, W in N. exact (N Sm).
Qed.
(** different values, decided by computation *)
Definition differ (v w : val) : bool :=
  match v with
  | VB a => match w with VB b => xorb a b | _ => true end
  | VI t a => match w with VI u b => negb (ity_eqb t u && Z.eqb a b) | _ => true end
  | VF f x => match as_fl f w with Some y => negb (Beqb x y) && negb (is_nan x && is_nan y) | None => true end
  end.
Lemma differ_not_same v w : differ v w = true -> ~ same v w.
Proof.
  intros D H. destruct H as [v|f x y H]; cbn in D.
  - destruct v as [b|t z|f x]; cbn in D.
    + now rewrite xorb_nilpotent in D.
    + rewrite Z.eqb_refl in D. destruct t; discriminate D.
    + rewrite as_fl_same in D. destruct x as [[]|[]| |s m e B]; try discriminate D.
      rewrite Beqb_correct in D by reflexivity. now rewrite Raux.Req_bool_true in D.
  - rewrite as_fl_same, H in D. discriminate D.
Qed.
(** a node sequence is wrong on one tuple of elements *)
Definition wrong (v : option val) (o : option (option val)) : bool :=
  match v, o with Some v, Some (Some w) => differ v w | Some _, Some None => true | _, _ => false end.
Theorem wrong_not_computes opset p n (Q : list val -> Prop) f vs : length vs = n -> Q vs -> wrong (f vs) (oeval opset p vs) = true ->
  ~ computes opset p n Q f.
Proof.
  unfold wrong. intros L HQ W. destruct (f vs) as [v|] eqn:F; [|discriminate W]. destruct (oeval opset p vs) as [o|] eqn:E; [|discriminate W].
  eapply not_computes; eauto. destruct o as [w|]; auto. now apply differ_not_same.
Qed.
(** for every opset: the versions up to 19 one by one, then the others at once *)
Ltac each opset tac := do 20 (destruct opset as [|opset]; [first [exfalso; lia | tac]|]); first [exfalso; lia | tac].
Ltac in_types := repeat constructor; try (split; vm_compute; discriminate); try (vm_compute; discriminate).
Ltac refute_with l tac := eexists; split; [reflexivity|]; apply (wrong_not_computes _ _ _ _ _ l); [reflexivity|tac|vm_compute; reflexivity].
Ltac refute opset l := each opset ltac:(refute_with l in_types).
Ltac selecting b x y := exists b, x, y; split; [reflexivity|]; split; (split; [reflexivity|in_types]).
