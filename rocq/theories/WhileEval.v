(** Evaluating concrete functions whose operators are functions, for examples of C53. *)
From Coq Require Import String List Bool ZArith Arith Lia.
From Verif Require Import FGraph FGraphProofs FGraphSpec InlineModel InlineSpec InlineProofs WhileSpec WhileCheck.
Import ListNotations.
Local Open Scope string_scope.
Local Open Scope list_scope.

Section Eval.
Context {V : Type} (vo : value_ops V) (op_rel : string -> string -> list (string * attr) -> nat -> list V -> list (list V -> list V -> Prop) -> list V -> Prop).
Context (fop : string -> list (string * attr) -> list V -> option (list V)).
Definition functional (n : fnode) : Prop := f_bodies n = [] /\ forall ins vs, op_rel (f_op n) (f_dom n) (f_attrs n) (length (f_out n)) ins [] vs <-> fop (f_op n) (f_attrs n) ins = Some vs /\ length vs = length (f_out n).
Definition lookup (e : list (string * V)) (r : string -> V) (t : string) : V := match find (fun p => String.eqb (fst p) t) e with Some p => snd p | None => r t end.
Fixpoint eval (r : string -> V) (ns : list fnode) (e : list (string * V)) : option (list (string * V)) :=
  match ns with
  | [] => Some e
  | n :: ns' => match fop (f_op n) (f_attrs n) (map (lookup e r) (f_in n)) with
                | Some vs => if Nat.eqb (length vs) (length (f_out n)) then eval r ns' (combine (f_out n) vs ++ e) else None
                | None => None
                end
  end.
(** inputs come from names defined before, or from outside *)
Fixpoint ordered (all before : list string) (ns : list fnode) : bool :=
  match ns with
  | [] => true
  | n :: ns' => forallb (fun t => mem t before || negb (mem t all)) (f_in n) && nodupb (f_out n) && forallb (fun o => negb (mem o before) && negb (String.eqb o "") && mem o all) (f_out n) && ordered all (f_out n ++ before) ns'
  end.
Definition call (r : string -> V) (g : fgraph) (args : list V) : option (list V) :=
  if Nat.eqb (length args) (length (f_ins g)) then option_map (fun e => map (lookup e r) (f_outs g)) (eval r (f_nodes g) (combine (f_ins g) args)) else None.
Definition callable (g : fgraph) : bool := nodupb (f_ins g) && negb (mem "" (f_ins g)) && ordered (defs g) (f_ins g) (f_nodes g) && forallb (fun o => mem o (defs g)) (f_outs g).

Lemma lookup_app e e' r t : lookup (e ++ e') r t = lookup e (lookup e' r) t.
Proof. unfold lookup. induction e as [|[a v] e IH]; [reflexivity|]. cbn [app find fst]. destruct (String.eqb a t); auto. Qed.
Lemma lookup_miss e r t : ~ In t (map fst e) -> lookup e r t = r t.
Proof. unfold lookup. induction e as [|[a v] e IH]; intro N; [reflexivity|]. cbn [find fst]. destruct (String.eqb_spec a t); [exfalso; apply N; left; auto|]. apply IH. intro; apply N; right; auto. Qed.
Lemma lookup_combine r : forall names vs, NoDup names -> length names = length vs -> map (lookup (combine names vs) r) names = vs.
Proof.
  induction names as [|x names IH]; intros [|v vs] ND L; try discriminate; [reflexivity|]. inversion ND; subst. cbn [combine map]. unfold lookup at 1. cbn [find fst]. rewrite String.eqb_refl. f_equal.
  etransitivity; [|apply (IH vs); auto]. apply map_ext_in. intros t I. unfold lookup. cbn [find fst]. destruct (String.eqb_spec x t); [congruence|reflexivity].
Qed.
Lemma keys_combine (names : list string) (vs : list V) : length names = length vs -> map fst (combine names vs) = names.
Proof. revert vs. induction names as [|x names IH]; intros [|v vs] L; try discriminate; [reflexivity|]. cbn. f_equal. apply IH. auto. Qed.

(** an execution agrees with the evaluation *)
Lemma eval_agrees r (r' : string -> V) all : forall ns before e, Forall functional ns -> ordered all before ns = true -> map fst e = before -> (forall t, ~ In t all -> r' t = r t) ->
  (forall t, In t before -> r' t = lookup e r t) -> (forall n, In n ns -> holds op_rel r' n) ->
  exists e', eval r ns e = Some e' /\ forall t, In t (before ++ outputs_of ns) -> r' t = lookup e' r t.
Proof.
  induction ns as [|n ns IH]; intros before e F O K A B H; [exists e; split; [reflexivity|]; intros t I; rewrite app_nil_r in I; auto|].
  inversion F as [|? ? [Fb Fn] F']; subst. cbn [ordered] in O. do 3 (apply andb_true_iff in O; destruct O as [O ?O]). rewrite forallb_forall in O. specialize (H n (or_introl eq_refl)) as Hn.
  apply holds_eq in Hn. destruct Hn as (vs & Hv & P). rewrite Fb in Hv. cbn [map] in Hv. apply Fn in Hv. destruct Hv as [Hv Lv].
  assert (EI : map r' (f_in n) = map (lookup e r) (f_in n)).
  { apply map_ext_in. intros t I. specialize (O t I). apply orb_true_iff in O. destruct O as [O|O]; [apply B; now apply mem_in|]. apply negb_true_iff in O. apply mem_false in O. rewrite (A t O). destruct (in_dec string_dec t (map fst e)) as [I2|I2]; [rewrite <- (B t I2); symmetry; auto|]. now rewrite lookup_miss. }
  rewrite EI in Hv. cbn [eval]. rewrite Hv. rewrite (proj2 (Nat.eqb_eq _ _) Lv). rewrite forallb_forall in O1. apply nodupb_ok in O2.
  assert (EO : map r' (f_out n) = vs).
  { clear - P Lv O1. revert vs P Lv. assert (G : forall o, In o (f_out n) -> o <> "") by (intros o I; specialize (O1 o I); do 2 (apply andb_true_iff in O1; destruct O1 as [O1 ?O]); apply negb_true_iff in O0; now apply String.eqb_neq).
    induction (f_out n) as [|o l IHl]; intros [|v vs] P Lv; try discriminate; [reflexivity|]. cbn [map]. f_equal.
    - specialize (P 0 o eq_refl (G o (or_introl eq_refl))). cbn in P. congruence.
    - apply IHl; auto; [intros x I; apply O1; right; auto|intros x I; apply G; right; auto|intros k x Ek Ex; apply (P (S k) x Ek Ex)]. }
  destruct (IH (f_out n ++ map fst e) (combine (f_out n) vs ++ e)) as (e' & E' & G'); auto.
  - rewrite map_app, keys_combine by auto. reflexivity.
  - intros t I. rewrite lookup_app. destruct (in_dec string_dec t (f_out n)) as [I1|I1].
    + pose proof (lookup_combine (lookup e r) (f_out n) vs O2 (eq_sym Lv)) as L. rewrite <- EO in L at 2. clear - L I1. revert L. induction (f_out n) as [|x l IHl]; [destruct I1|]. 
      generalize (lookup (combine (x :: l) vs) (lookup e r)). intros f L. destruct (in_dec string_dec t (x :: l)) as [_|]; [|contradiction]. revert L I1. generalize (x :: l). clear. intros l L I. induction l as [|y l IH]; [destruct I|]. injection L as L1 L2. destruct I as [->|I]; auto.
    + rewrite lookup_miss by (rewrite keys_combine; auto). apply in_app_iff in I. destruct I as [I|I]; [contradiction|auto].
  - intros m I. apply H. right. auto.
  - exists e'. split; auto. intros t I. apply G'. unfold outputs_of in *. cbn [map concat] in I. rewrite !in_app_iff in *. tauto.
Qed.
(** the evaluation is an execution *)
Lemma eval_keys r : forall ns e e', eval r ns e = Some e' -> exists d, e' = d ++ e /\ forall t, In t (map fst d) <-> In t (outputs_of ns).
Proof.
  induction ns as [|n ns IH]; intros e e' E; cbn in E; [injection E as <-; exists []; split; [auto|split; intros []]|]. destruct (fop _ _ _) as [vs|]; [|discriminate]. destruct (Nat.eqb_spec (length vs) (length (f_out n))); [|discriminate].
  apply IH in E. destruct E as (d & -> & G). exists (d ++ combine (f_out n) vs). split; [now rewrite app_assoc|]. intro t. unfold outputs_of in *. cbn [map concat]. rewrite map_app, in_app_iff, keys_combine by auto. rewrite in_app_iff, G. tauto.
Qed.
Lemma ordered_all all o : forall ns before, ordered all before ns = true -> In o (outputs_of ns) -> In o all.
Proof.
  induction ns as [|n ns IH]; intros before O I; [destruct I|]. cbn [ordered] in O. do 3 (apply andb_true_iff in O; destruct O as [O ?O]). unfold outputs_of in I. cbn [map concat] in I. apply in_app_iff in I. destruct I as [I|I]; [|eapply IH; eauto].
  rewrite forallb_forall in O1. specialize (O1 o I). apply andb_true_iff in O1. now apply mem_in.
Qed.
Lemma eval_holds r all : forall ns before e e', Forall functional ns -> ordered all before ns = true -> map fst e = before -> eval r ns e = Some e' ->
  (forall t, In t before -> lookup e' r t = lookup e r t) /\ forall n, In n ns -> holds op_rel (lookup e' r) n.
Proof.
  induction ns as [|n ns IH]; intros before e e' F O K E; [injection E as <-; split; [auto|intros n []]|].
  inversion F as [|? ? [Fb Fn] F']; subst. cbn [ordered] in O. do 3 (apply andb_true_iff in O; destruct O as [O ?O]). rewrite forallb_forall in O, O1. apply nodupb_ok in O2. cbn [eval] in E.
  destruct (fop _ _ _) as [vs|] eqn:Hv; [|discriminate]. destruct (Nat.eqb_spec (length vs) (length (f_out n))) as [Lv|]; [|discriminate].
  pose proof (eval_keys _ _ _ _ E) as (d & Ed & Kd).
  destruct (IH (f_out n ++ map fst e) (combine (f_out n) vs ++ e) e' F' O0) as [A B]; auto; [rewrite map_app, keys_combine by auto; reflexivity|].
  assert (A' : forall t, In t (map fst e) -> lookup e' r t = lookup e r t).
  { intros t I. rewrite (A t) by (apply in_app_iff; auto). rewrite lookup_app, lookup_miss; auto. rewrite keys_combine by auto. intro J. specialize (O1 t J). do 2 (apply andb_true_iff in O1; destruct O1 as [O1 ?O]). apply negb_true_iff in O1. apply mem_false in O1. contradiction. }
  split; auto. intros m [<-|I]; [|auto]. apply holds_eq. exists vs. rewrite Fb. cbn [map]. split.
  - apply Fn. split; auto. rewrite <- Hv. f_equal. apply map_ext_in. intros t I. specialize (O t I). apply orb_true_iff in O. destruct O as [O|O]; [apply A'; now apply mem_in|]. apply negb_true_iff in O. apply mem_false in O.
    destruct (in_dec string_dec t (map fst e)) as [J|J]; auto. rewrite !lookup_miss; auto. rewrite Ed, !map_app, !in_app_iff, keys_combine by auto. intros [I2|[I2|I2]]; [|specialize (O1 t I2); apply andb_true_iff in O1; destruct O1 as [_ O1]; apply mem_in in O1; contradiction|contradiction].
    apply Kd in I2. apply O. eapply ordered_all; eauto.
  - intros k o Ek Eo.
    assert (L : map (lookup e' r) (f_out n) = vs).
    { etransitivity; [|apply (lookup_combine (lookup e r) (f_out n) vs O2 (eq_sym Lv))]. apply map_ext_in. intros t I. rewrite (A t) by (apply in_app_iff; auto). apply lookup_app. }
    rewrite <- L. rewrite nth_error_map, Ek. reflexivity.
Qed.

Lemma call_iff r g : Forall functional (f_nodes g) -> callable g = true -> forall args res, body_rel op_rel r g args res <-> call r g args = Some res.
Proof.
  intros F C args res. unfold callable in C. do 3 (apply andb_true_iff in C; destruct C as [C ?C]). apply nodupb_ok in C. rewrite forallb_forall in C0. rewrite body_rel_eq. unfold call. split.
  - intros (r' & A & B & H & <-). rewrite <- B, map_length, Nat.eqb_refl.
    destruct (eval_agrees r r' (defs g) (f_nodes g) (f_ins g) (combine (f_ins g) (map r' (f_ins g))) F C1) as (e' & E' & G); auto.
    + apply keys_combine. now rewrite map_length.
    + intros t I. pose proof (lookup_combine r (f_ins g) (map r' (f_ins g)) C (eq_sym (map_length _ _))) as L. clear - L I. revert L I. generalize (lookup (combine (f_ins g) (map r' (f_ins g))) r). generalize (f_ins g). intros l f L I. induction l as [|y l IH]; [destruct I|]. injection L as L1 L2. destruct I as [->|I]; auto.
    + rewrite E'. cbn [option_map]. f_equal. apply map_ext_in. intros t I. symmetry. apply G. specialize (C0 t I). apply mem_in in C0. unfold defs in C0. apply filter_In in C0. destruct C0 as [C0 _]. exact C0.
  - destruct (Nat.eqb_spec (length args) (length (f_ins g))) as [L|]; [|discriminate]. destruct (eval _ _ _) as [e'|] eqn:E; [|discriminate]. intro H. injection H as <-.
    destruct (eval_holds r (defs g) (f_nodes g) (f_ins g) (combine (f_ins g) args) e' F C1) as [A B]; auto; [now apply keys_combine|].
    exists (lookup e' r). split; [|split; [|split]]; auto.
    + intros t N. apply lookup_miss. destruct (eval_keys _ _ _ _ E) as (d & -> & Kd). rewrite map_app, in_app_iff, keys_combine by auto. intros [I|I].
      * apply N. apply Kd in I. eapply ordered_all; eauto.
      * apply N. unfold defs. apply filter_In. split; [apply in_app_iff; auto|]. apply negb_true_iff in C2. apply mem_false in C2. destruct (String.eqb_spec t ""); [subst; contradiction|reflexivity].
    + etransitivity; [|apply (lookup_combine r (f_ins g) args C (eq_sym L))]. apply map_ext_in. auto.
Qed.

(** loops *)
Context (as_truth : V -> option bool) (as_truth_ok : forall v b, as_truth v = Some b -> v = truth vo b) (truth_as : forall b, as_truth (truth vo b) = Some b).
Fixpoint run_while (fuel : nat) (cond body : list V -> option (list V)) (s : list V) : option (list V) :=
  match fuel, cond s with
  | S fuel', Some [v] => match as_truth v with
                         | Some true => match body s with Some s' => run_while fuel' cond body s' | None => None end
                         | Some false => Some s
                         | None => None
                         end
  | _, _ => None
  end.
Lemma run_while_iff (cond body : list V -> option (list V)) (C B : list V -> list V -> Prop) : (forall a s, C a s <-> cond a = Some s) -> (forall a s, B a s <-> body a = Some s) ->
  forall fuel s f, run_while fuel cond body s = Some f -> forall f', tf_while vo C B s f' <-> f' = f.
Proof.
  intros HC HB. induction fuel as [|fuel IH]; intros s f E; [discriminate|]. cbn in E. destruct (cond s) as [[|v [|]]|] eqn:Ec; try discriminate. destruct (as_truth v) as [[]|] eqn:Et; [| |discriminate]; apply as_truth_ok in Et; subst v.
  - destruct (body s) as [s'|] eqn:Eb; [|discriminate]. intro f'. rewrite <- (IH _ _ E f'). split; intro H.
    + inversion H as [? H1|? s1 ? H1 H2 H3]; subst; [apply HC in H1; rewrite Ec in H1; injection H1 as H1; apply truth_inj in H1; discriminate|]. apply HB in H2. congruence.
    + apply (tf_step vo C B s s'); auto; [now apply HC|now apply HB].
  - injection E as <-. intro f'. split; intro H.
    + inversion H as [? H1|? s1 ? H1 H2 H3]; subst; auto. apply HC in H1. rewrite Ec in H1. injection H1 as H1. apply truth_inj in H1. discriminate.
    + subst. apply tf_stop. now apply HC.
Qed.
Fixpoint run_loop (fuel : nat) (body : list V -> option (list V)) (limit : option Z) (k : nat) (c : bool) (vs : list V) : option (list V * list (list V)) :=
  if below limit k && c then
    match fuel, body (num vo (Z.of_nat k) :: truth vo c :: vs) with
    | S fuel', Some (v :: out) =>
        if Nat.leb (length vs) (length out) then
          match as_truth v with
          | Some c' => option_map (fun p => (fst p, skipn (length vs) out :: snd p)) (run_loop fuel' body limit (S k) c' (firstn (length vs) out))
          | None => None
          end
        else None
    | _, _ => None
    end
  else Some (vs, []).
Lemma run_loop_ok (body : list V -> option (list V)) (B : list V -> list V -> Prop) limit : (forall a s, B a s <-> body a = Some s) ->
  forall fuel k c vs fin rows, run_loop fuel body limit k c vs = Some (fin, rows) -> onnx_loop vo B limit k c vs fin rows.
Proof.
  intros HB. induction fuel as [|fuel IH]; intros k c vs fin rows E; cbn [run_loop] in E; (destruct (below limit k && c) eqn:Eb; [|injection E as <- <-; now apply loop_stop]); [discriminate|].
  destruct (body _) as [[|v out]|] eqn:Ey; try discriminate. destruct (Nat.leb_spec (length vs) (length out)) as [L|]; [|discriminate]. destruct (as_truth v) as [c'|] eqn:Et; [|discriminate]. apply as_truth_ok in Et. subst v.
  destruct (run_loop fuel body limit (S k) c' _) as [[fin' rows']|] eqn:Er; [|discriminate]. injection E as <- <-. cbn [fst snd].
  apply (loop_step vo B limit k c vs c' (firstn (length vs) out) (skipn (length vs) out)); auto.
  - apply HB. now rewrite firstn_skipn.
  - rewrite firstn_length. lia.
Qed.
End Eval.
