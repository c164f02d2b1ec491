(** C37: inlining functions into their parent graph. *)
From Coq Require Import String List Bool ZArith Lia.
From Verif Require Import FGraph FGraphProofs FGraphSpec IdentityProofs InlineModel InlineSpec InlineProofs InlineProofs3 InlineProofs4.
Import ListNotations.
Local Open Scope string_scope.
Local Open Scope list_scope.

(** Binding the parameters: the parameters that are state variables get theirs, the others get the inputs in order, and
    there are as many inputs as such parameters. *)
Theorem C37_parameter_binding :
  forall g inputs (state_vars : list (string * string)), NoDup (f_ins g) ->
    let is_state := fun k => existsb (fun p => String.eqb (fst p) k) state_vars in
    let free := filter (fun k => negb (is_state k)) (f_ins g) in
    (parameter_binding g inputs state_vars = None <-> length inputs <> length free) /\
    forall binding, parameter_binding g inputs state_vars = Some binding ->
      (forall k i, nth_error free k = Some i -> dict_get binding i = nth_error inputs k) /\
      (forall i v, In i (f_ins g) -> dict_get state_vars i = Some v -> dict_get binding i = Some v) /\
      (forall i, ~ In i (f_ins g) -> dict_get binding i = None).
Proof.
  intros [ns gi go] inputs sv ND is_state free. cbn [f_ins] in *. unfold parameter_binding. cbn [f_ins].
  assert (SV : forall k, is_state k = match dict_get sv k with Some _ => true | None => false end).
  { intro k. unfold is_state, dict_get. clear. induction sv as [|[a b] l IH]; [reflexivity|]. cbn [existsb find fst]. destruct (String.eqb a k); [reflexivity|]. exact IH. }
  assert (DS : forall d k v i, dict_get (dict_set d k v) i = if String.eqb k i then Some v else dict_get d i).
  { intros. unfold dict_get, dict_set. cbn [find fst]. destruct (String.eqb k i); reflexivity. }
  assert (G : forall inputs acc, let free := filter (fun k => negb (is_state k)) gi in
    (bind_loop gi inputs sv acc = None <-> length inputs <> length free) /\
    forall binding, bind_loop gi inputs sv acc = Some binding ->
      (forall k i, nth_error free k = Some i -> dict_get binding i = nth_error inputs k) /\
      (forall i v, In i gi -> dict_get sv i = Some v -> dict_get binding i = Some v) /\ (forall i, ~ In i gi -> dict_get binding i = dict_get acc i)).
  { clear inputs free. induction gi as [|x l IH]; intros inputs acc; cbn [bind_loop filter].
    - destruct inputs; cbn [length]; (split; [split; [discriminate || (intros _; lia)|intro; reflexivity || lia]|]); intros b E; [injection E as <-|discriminate].
      split; [intros [|k] i H; discriminate|]. split; [intros i v []|auto].
    - inversion ND as [|? ? Nx ND']; subst. specialize (IH ND'). rewrite SV. destruct (dict_get sv x) as [v|] eqn:Ex; cbn [negb].
      + destruct (IH inputs (dict_set acc x v)) as [H1 H2]. split; [exact H1|]. intros b E. destruct (H2 b E) as (A & B & C). split; [exact A|]. split.
        * intros i w [->|Ii] Ei; [|auto]. rewrite C, DS, String.eqb_refl by auto. congruence.
        * intros i Ni. rewrite C, DS by (intro; apply Ni; right; auto). destruct (String.eqb_spec x i) as [->|]; [exfalso; apply Ni; left; auto|reflexivity].
      + destruct inputs as [|y inputs].
        * split; [split; [cbn; lia|reflexivity]|discriminate].
        * destruct (IH inputs (dict_set acc x y)) as [H1 H2]. split; [rewrite H1; cbn [length]; lia|]. intros b E. destruct (H2 b E) as (A & B & C). split; [|split].
          -- intros [|k] i Ek; cbn [nth_error] in *; [|auto]. injection Ek as <-. rewrite C, DS, String.eqb_refl by auto. reflexivity.
          -- intros i w [->|Ii] Ei; [congruence|auto].
          -- intros i Ni. rewrite C, DS by (intro; apply Ni; right; auto). destruct (String.eqb_spec x i) as [->|]; [exfalso; apply Ni; left; auto|reflexivity]. }
  exact (G inputs []).
Qed.
Print Assumptions C37_parameter_binding.

(** Inlining a function: the parent keeps its nodes, inputs and outputs, and gets nodes with new names; in every execution
    of the new graph the returned tensors are results of the function at the bound tensors; every execution of the parent
    graph and every call of the function extend to an execution of the new graph with the values of the parent unchanged.
    Missing for the full claim: the conditions [inlinable] and [fresh_in], which the code does not check (refutations below). *)
Theorem C37_inline_partial :
  forall V op_rel parent g scope binding parent' outs,
    op_ext op_rel -> identity_meaning op_rel ->
    inline_subgraph parent g scope binding = Some (parent', outs) ->
    inlinable scope binding g -> fresh_in scope parent ->
    (f_ins parent' = f_ins parent /\ f_outs parent' = f_outs parent /\
     exists news, f_nodes parent' = f_nodes parent ++ news /\ NoDup (outputs_of news) /\ NoDup (map f_name news) /\
       forall t, In t (outputs_of news) -> in_scope scope t /\ ~ In t (outputs_of (f_nodes parent))) /\
    (forall (r : string -> V) args, all_hold op_rel r (f_nodes parent') -> arguments r binding (f_ins g) args ->
       body_rel op_rel r (equations g) args (map r outs)) /\
    (forall (r : string -> V) args res, all_hold op_rel r (f_nodes parent) -> arguments r binding (f_ins g) args -> body_rel op_rel r (equations g) args res ->
       exists r' : string -> V, (forall t, ~ in_scope scope t -> r' t = r t) /\ all_hold op_rel r' (f_nodes parent') /\ map r' outs = res).
Proof.
  intros V op_rel parent g scope binding parent' outs Ext Id E I F. unfold inline_subgraph in E. destruct (prefix_graph _ _ _) as [[news o]|] eqn:Ep; [|discriminate]. injection E as <- <-.
  cbn [f_nodes f_ins f_outs]. split; [|split].
  - split; auto. split; auto. exists news. split; auto. split; [exact (new_ssa scope binding g I news o Ep)|]. split; [exact (new_node_names scope binding g I news o Ep)|]. intros t It.
    pose proof (new_names scope binding g I news o Ep t It) as S. split; auto. intro K. apply in_outputs_of in K. destruct K as (n & In_n & On). exact (F n t In_n (or_intror On) S).
  - intros r args H A. apply (sound V op_rel Ext Id scope binding g I news o Ep); auto. intros n In_n. apply H. rewrite in_app_iff. auto.
  - intros r args res H A B. destruct (complete V op_rel Ext Id scope binding g I news o Ep r args res A B) as (r2 & R1 & R2 & R3). exists r2.
    assert (R1' : forall t, ~ in_scope scope t -> r2 t = r t) by (intros t Nt; apply R1; intro K; apply Nt; exact (new_names scope binding g I news o Ep t K)).
    split; auto. split; auto. intros n In_n. apply in_app_iff in In_n. destruct In_n as [In_n|In_n]; auto. eapply (holds_agree V op_rel Ext); [| |exact (H n In_n)].
    + intros t It. symmetry. apply R1'. exact (F n t In_n (or_introl It)).
    + intros t It _. symmetry. apply R1'. exact (F n t In_n (or_intror It)).
Qed.
Print Assumptions C37_inline_partial.

(** Wiring a function as a branch of If: the branch has no inputs and computes the function at the bound tensors of the
    enclosing graph.  Missing: as above. *)
Theorem C37_wire_if_branch_partial :
  forall V op_rel g inputs scope binding g',
    op_ext op_rel -> identity_meaning op_rel ->
    parameter_binding g inputs [] = Some binding -> wire_if_branch g inputs scope = Some g' -> inlinable scope binding g ->
    f_ins g' = [] /\
    forall (r : string -> V) args res, arguments r binding (f_ins g) args ->
      (body_rel op_rel r g' [] res <-> body_rel op_rel r (equations g) args res).
Proof.
  intros V op_rel g inputs scope binding g' Ext Id Eb E I. unfold wire_if_branch in E. rewrite Eb in E. destruct (prefix_graph _ _ _) as [[news o]|] eqn:Ep; [|discriminate]. injection E as <-.
  split; auto. intros r args res A.
  assert (D : forall t, In t (defs (FGraph news [] o)) -> In t (outputs_of news)) by (intros t H; apply in_defs in H; cbn [f_ins f_nodes] in H; apply in_outputs_of; destruct H as [_ [[]|H]]; exact H).
  split.
  - intro H. apply body_rel_eq in H. cbn [f_ins f_nodes f_outs] in H. destruct H as (r' & H1 & _ & H3 & H4).
    assert (R : forall t, ~ in_scope scope t -> r' t = r t) by (intros t Nt; apply H1; intro K; apply Nt; apply (new_names scope binding g I news o Ep); auto).
    assert (A' : arguments r' binding (f_ins g) args).
    { unfold arguments in *. induction A as [|i a l l' H _ IH]; constructor; auto. intros p Bp. rewrite R; auto. exact (i_fresh_target _ _ _ I i p Bp). }
    pose proof (sound V op_rel Ext Id scope binding g I news o Ep r' args H3 A') as B. rewrite H4 in B.
    revert B. apply (body_agree V op_rel Ext). intros t It. symmetry. apply R. apply in_fv_graph in It. destruct It as [Nd It]. cbn [f_ins f_outs equations] in It.
    destruct It as [It|[It|(n & In_n & It)]].
    + exfalso. apply Nd. apply (defs_equations scope binding g I). auto.
    + exfalso. apply Nd. apply (defs_equations scope binding g I). destruct (i_result _ _ _ I t It) as [O _]. apply in_outputs_of in O. destruct O as (n & In_n & On).
      destruct (node_cases scope binding g I n In_n) as [(P & _ & i & Eo & Ii)|NP]; [left; rewrite Eo in On; destruct On as [<-|[]]; auto|right; eauto].
    + apply in_equations in In_n. destruct In_n as [In_n _]. exact (i_fresh_read _ _ _ I n t In_n It).
  - intro B. destruct (complete V op_rel Ext Id scope binding g I news o Ep r args res A B) as (r2 & R1 & R2 & R3). apply body_rel_eq. cbn [f_ins f_nodes f_outs]. exists r2.
    split; [|split; auto]. intros t Nt. apply R1. intro K. apply Nt. apply in_defs. cbn [f_ins f_nodes]. split.
    + apply (in_scope_nonempty scope); [exact (i_scope _ _ _ I)|]. exact (new_names scope binding g I news o Ep t K).
    + right. now apply in_outputs_of in K.
Qed.
Print Assumptions C37_wire_if_branch_partial.

(** ** Examples.  Operators on integers; "Neg" of the domain "custom" is another operator; a missing optional input reads
    the value of the name "". *)
Definition ref_rel (op dom : string) (at_ : list (string * attr)) (k : nat) (ins : list Z) (bodies : list (list Z -> list Z -> Prop)) (vs : list Z) : Prop :=
  match op, ins with
  | "Identity", [v] => vs = [v]
  | "Neg", [v] => vs = [if String.eqb dom "custom" then v + 1 else - v]%Z
  | "Five", [] => vs = [5]%Z
  | "Add", [a; b] => vs = [a + b]%Z
  | "Twice", [v] => vs = [v; v + 1]%Z
  | _, _ => False
  end.
Lemma ref_ext : op_ext ref_rel. Proof. intros op dom at_ k ins bs bs' vs _ H. exact H. Qed.
Lemma ref_identity : identity_meaning ref_rel. Proof. intros dom at_ v vs. cbn. tauto. Qed.
Definition node (op nm : string) (ins outs : list string) : fnode := FNode nm op "" [] ins outs [].
Definition parameter (nm t : string) : fnode := node "Placeholder" nm [] [t].
Definition value (l : list (string * Z)) (t : string) : Z := match find (fun p => String.eqb (fst p) t) l with Some (_, v) => v | None => 0%Z end.
(** a function of two parameters, called with the parent's tensors of the same names, swapped *)
Definition f1 : fgraph :=
  FGraph [parameter "a" "a:0"; parameter "b" "b:0"; node "Neg" "n" ["a:0"] ["n:0"]; node "Add" "s" ["n:0"; "b:0"] ["s:0"]] ["a:0"; "b:0"] ["s:0"; "a:0"].
Definition p1 : fgraph := FGraph [node "Five" "b" [] ["b:0"]; node "Neg" "a" ["b:0"] ["a:0"]] [] ["a:0"].
Definition b1 : list (string * string) := [("b:0", "a:0"); ("a:0", "b:0")].
Example C37_witness :
  parameter_binding f1 ["b:0"; "a:0"] [] = Some b1 /\
  (exists parent', inline_subgraph p1 f1 "cond" b1 = Some (parent', ["cond_s:0"; "cond_a:0"])) /\ ~ inlinable "cond" b1 f1 /\
  inlinable "cond" [("a:0", "b:0"); ("b:0", "x:0")] f1 /\ fresh_in "cond" p1.
Proof.
  assert (S : forall t, String.prefix "cond_" t = false -> ~ in_scope "cond" t).
  { intros t P (s & ->). cbn in P. destruct s; cbn in P; discriminate. }
  split; [reflexivity|]. split; [eexists; vm_compute; reflexivity|]. split; [|split].
  - intro I. apply (i_target _ _ _ I [parameter "a" "a:0"] (parameter "b" "b:0") [node "Neg" "n" ["a:0"] ["n:0"]; node "Add" "s" ["n:0"; "b:0"] ["s:0"]] "b:0" "a:0"); try reflexivity; [cbn; auto|constructor; discriminate|cbn; auto].
  - constructor.
    + intros n [<-|[<-|[<-|[<-|[]]]]] P; try (cbn in P; intuition discriminate); (split; [reflexivity|]; eexists; split; [reflexivity|cbn; auto]).
    + intros i [<-|[<-|[]]]; [exists (parameter "a" "a:0")|exists (parameter "b" "b:0")]; cbn; auto.
    + cbn. repeat constructor; cbn; intuition discriminate.
    + cbn. repeat constructor; cbn; intuition discriminate.
    + cbn. intuition discriminate.
    + intros [|? [|? [|? [|? [|? ?]]]]] n l2 t E; cbn in E; try discriminate; injection E; intros; subst; cbn in *; intuition (subst; try discriminate; auto).
    + intros [|? [|? [|? [|? [|? ?]]]]] n l2 i p E Eo Ii B; cbn in E; try discriminate; injection E; intros; subst; cbn in Eo; try discriminate; injection Eo as <-;
        repeat match goal with H : binds _ _ _ |- _ => inversion H; clear H; subst end; cbn; intuition discriminate.
    + intros n [<-|[<-|[<-|[<-|[]]]]] _; reflexivity.
    + cbn. repeat constructor; cbn; intuition discriminate.
    + intros o [<-|[<-|[]]]; cbn; (split; [tauto|]); intro H; [intuition discriminate|]. exists "b:0". constructor; discriminate.
    + intros i n [<-|[<-|[]]] H; [exfalso; apply (H "b:0"); constructor; discriminate|]. exfalso. apply (H "x:0"). constructor; [discriminate|]. constructor; discriminate.
    + intros n b [<-|[<-|[<-|[<-|[]]]]] [].
    + discriminate.
    + intros n t [<-|[<-|[<-|[<-|[]]]]] H; cbn in H; apply S; intuition (subst; reflexivity).
    + intros n b t [<-|[<-|[<-|[<-|[]]]]] [].
    + intros i p H. apply S. repeat match goal with H : binds _ _ _ |- _ => inversion H; clear H; subst end; reflexivity.
  - intros n t [<-|[<-|[]]] H; cbn in H; apply S; intuition (subst; reflexivity).
Qed.

(** the theorem applies to this call: what the inlined copy computes *)
Example C37_witness_run :
  exists parent' outs, inline_subgraph p1 f1 "cond" [("a:0", "b:0"); ("b:0", "x:0")] = Some (parent', outs) /\
    forall x, exists r, all_hold ref_rel r (f_nodes parent') /\ r "x:0" = x /\ map r outs = [x - 5; 5]%Z /\ r "a:0" = (-5)%Z.
Proof.
  eexists _, _. split; [vm_compute; reflexivity|]. intro x.
  exists (value [("x:0", x); ("b:0", 5%Z); ("a:0", (-5)%Z); ("cond_a:0", 5%Z); ("cond_b:0", x); ("cond_n:0", (-5)%Z); ("cond_s:0", (x - 5)%Z)]).
  split; [|split; [reflexivity|split; reflexivity]]. intros n I. cbn [f_nodes In] in I.
  repeat (destruct I as [<-|I]; [cbn; eexists; split; [reflexivity|]; intros [|[|k]] o Eo No; cbn in *; try discriminate; injection Eo as <-; cbn; f_equal; lia|]). destruct I as [<-|[]].
  exists [(-5 + x)%Z]. split; [reflexivity|]. intros [|[|k]] o Eo No; try discriminate. injection Eo as <-. change (Some (-5 + x)%Z = Some (x - 5)%Z). f_equal. lia.
Qed.

(** ** The conditions are needed.  [wrong]: in some execution of the new graph the returned tensors are no results of the
    function at the bound tensors. *)
Definition wrong (parent g : fgraph) (scope : string) (binding : list (string * string)) : Prop :=
  exists parent' outs (r : string -> Z) args, inline_subgraph parent g scope binding = Some (parent', outs) /\
    all_hold ref_rel r (f_nodes parent') /\ arguments r binding (f_ins g) args /\ ~ body_rel ref_rel r (equations g) args (map r outs).
Ltac run := let n := fresh "n" in let I := fresh "I" in intros n I; cbn [f_nodes In] in I;
  repeat (destruct I as [<-|I]; [cbn; eexists; split; [reflexivity|]; let k := fresh "k" in intros [|[|k]] ? Eo No; cbn in *; try discriminate; try (destruct k; discriminate); injection Eo as <-; cbn; reflexivity|]); destruct I.
Ltac refute := let B := fresh "B" in intro B; apply body_rel_eq in B; cbn [f_ins f_nodes f_outs equations filter mem existsb] in B; cbn in B;
  let r' := fresh "r'" in destruct B as (r' & B1 & B2 & B3 & B4).

(** A bound tensor with the name of a tensor of the function that is listed before the parameter: the Identity made for
    the parameter reads the tensor of the function. *)
Theorem C37_captured_target_refuted :
  exists parent g binding, NoDup (outputs_of (f_nodes g)) /\ fresh_in "cond" parent /\ wrong parent g "cond" binding.
Proof.
  exists (FGraph [node "Neg" "t" ["y:0"] ["t:0"]] [] []), (FGraph [node "Five" "t" [] ["t:0"]; parameter "x" "x:0"; node "Add" "s" ["x:0"; "t:0"] ["s:0"]] ["x:0"] ["s:0"]), [("x:0", "t:0")].
  split; [cbn; repeat constructor; cbn; intuition discriminate|]. split.
  { intros n t [<-|[]] H (s & E). cbn in H. destruct H as [[<-|[]]|[<-|[]]]; discriminate. }
  eexists _, _, (value [("y:0", 1%Z); ("t:0", (-1)%Z); ("cond_t:0", 5%Z); ("cond_x:0", 5%Z); ("cond_s:0", 10%Z)]), [(-1)%Z]. split; [vm_compute; reflexivity|]. split; [|split].
  - run.
  - constructor; [|constructor]. intros p B. inversion B; subst; [reflexivity|congruence].
  - refute. injection B2 as B2. injection B4 as B4.
    destruct (B3 (node "Five" "t" [] ["t:0"])) as (v1 & H1 & P1); [cbn; auto|]. destruct (B3 (node "Add" "s" ["x:0"; "t:0"] ["s:0"])) as (v2 & H2 & P2); [cbn; auto|].
    cbn in H1, H2. subst v1 v2. specialize (P1 0 "t:0" eq_refl ltac:(discriminate)). specialize (P2 0 "s:0" eq_refl ltac:(discriminate)). cbn in P1, P2. injection P1 as P1. injection P2 as P2.
    rewrite B2, <- P1, B4 in P2. discriminate.
Qed.
Print Assumptions C37_captured_target_refuted.

(** The domain of the nodes is lost. *)
Theorem C37_domain_refuted :
  exists parent g binding, NoDup (outputs_of (f_nodes g)) /\ fresh_in "cond" parent /\ wrong parent g "cond" binding.
Proof.
  exists (FGraph [] [] []), (FGraph [parameter "x" "x:0"; FNode "n" "Neg" "custom" [] ["x:0"] ["n:0"] []] ["x:0"] ["n:0"]), [("x:0", "t:0")].
  split; [cbn; repeat constructor; cbn; intuition discriminate|]. split; [intros n t []|].
  eexists _, _, (value [("t:0", 3%Z); ("cond_x:0", 3%Z); ("cond_n:0", (-3)%Z)]), [3%Z]. split; [vm_compute; reflexivity|]. split; [|split].
  - run.
  - constructor; [|constructor]. intros p B. inversion B; subst; [reflexivity|congruence].
  - refute. injection B2 as B2. injection B4 as B4.
    destruct (B3 (FNode "n" "Neg" "custom" [] ["x:0"] ["n:0"] [])) as (v1 & H1 & P1); [cbn; auto|]. cbn in H1. subst v1.
    specialize (P1 0 "n:0" eq_refl ltac:(discriminate)). cbn in P1. injection P1 as P1. rewrite B2, B4 in P1. discriminate.
Qed.
Print Assumptions C37_domain_refuted.

(** A result returned twice: the second name is not renamed and names no tensor of the new graph. *)
Theorem C37_duplicate_result_refuted :
  exists parent g binding parent' outs, NoDup (outputs_of (f_nodes g)) /\ fresh_in "cond" parent /\ wrong parent g "cond" binding /\
    inline_subgraph parent g "cond" binding = Some (parent', outs) /\ exists o, In o outs /\ ~ In o (outputs_of (f_nodes parent')).
Proof.
  eexists (FGraph [] [] []), (FGraph [parameter "x" "x:0"; node "Neg" "n" ["x:0"] ["n:0"]] ["x:0"] ["n:0"; "n:0"]), [("x:0", "t:0")], _, _.
  split; [cbn; repeat constructor; cbn; intuition discriminate|]. split; [intros n t []|]. split; [|split; [vm_compute; reflexivity|]].
  - eexists _, _, (value [("t:0", 3%Z); ("cond_x:0", 3%Z); ("cond_n:0", (-3)%Z)]), [3%Z]. split; [vm_compute; reflexivity|]. split; [|split].
    + run.
    + constructor; [|constructor]. intros p B. inversion B; subst; [reflexivity|congruence].
    + refute. injection B4 as B4 B5. rewrite B4 in B5. discriminate.
  - exists "n:0". cbn. split; [auto|]. intuition discriminate.
Qed.
Print Assumptions C37_duplicate_result_refuted.

(** A node with an omitted output: every omitted input listed later is wired to it. *)
Theorem C37_omitted_output_refuted :
  exists parent g binding, NoDup (outputs_of (f_nodes g)) /\ fresh_in "cond" parent /\ wrong parent g "cond" binding.
Proof.
  exists (FGraph [] [] []), (FGraph [parameter "x" "x:0"; node "Twice" "d" ["x:0"] ["d:0"; ""]; node "Add" "s" ["d:0"; ""] ["s:0"]] ["x:0"] ["s:0"]), [("x:0", "t:0")].
  split; [cbn; repeat constructor; cbn; intuition discriminate|]. split; [intros n t []|].
  eexists _, _, (value [("t:0", 3%Z); ("cond_x:0", 3%Z); ("cond_d:0", 3%Z); ("cond_d:1", 4%Z); ("cond_s:0", 7%Z)]), [3%Z]. split; [vm_compute; reflexivity|]. split; [|split].
  - run.
  - constructor; [|constructor]. intros p B. inversion B; subst; [reflexivity|congruence].
  - refute. injection B2 as B2. injection B4 as B4.
    destruct (B3 (node "Twice" "d" ["x:0"] ["d:0"; ""])) as (v1 & H1 & P1); [cbn; auto|]. destruct (B3 (node "Add" "s" ["d:0"; ""] ["s:0"])) as (v2 & H2 & P2); [cbn; auto|].
    cbn in H1, H2. subst v1 v2. specialize (P1 0 "d:0" eq_refl ltac:(discriminate)). specialize (P2 0 "s:0" eq_refl ltac:(discriminate)). cbn in P1, P2. injection P1 as P1. injection P2 as P2.
    rewrite B2 in P1. rewrite <- P1, B4 in P2. assert (B0 : r' "" = 0%Z) by (rewrite (B1 ""); [reflexivity|]; clear; intro H; vm_compute in H; repeat (destruct H as [H|H]; [discriminate|]); destruct H). rewrite B0 in P2. discriminate.
Qed.
Print Assumptions C37_omitted_output_refuted.

(** Inlining a function twice under the same scope, as for two loops with the same condition, defines its tensors twice. *)
Theorem C37_same_scope_twice_refuted :
  forall parent g scope binding1 binding2 parent1 parent2 outs1 outs2,
    inline_subgraph parent g scope binding1 = Some (parent1, outs1) -> inline_subgraph parent1 g scope binding2 = Some (parent2, outs2) ->
    inlinable scope binding1 g -> inlinable scope binding2 g ->
    (exists n, In n (f_nodes g) /\ ~ placeholder n /\ f_out n <> []) ->
    ~ NoDup (outputs_of (f_nodes parent2)).
Proof.
  intros parent g scope bd1 bd2 parent1 parent2 outs1 outs2 E1 E2 I1 I2 (n & In_n & NP & Ne) ND. unfold inline_subgraph in *.
  destruct (prefix_graph scope (bind_inputs bd1 g) (f_outs g)) as [[news1 o1]|] eqn:P1; [|discriminate]. injection E1 as <- <-.
  destruct (prefix_graph scope (bind_inputs bd2 g) (f_outs g)) as [[news2 o2]|] eqn:P2; [|discriminate]. injection E2 as <- <-.
  cbn [f_nodes] in ND. rewrite <- app_assoc, outputs_of_app in ND. apply NoDup_app_inv in ND. destruct ND as (_ & ND & _). rewrite outputs_of_app in ND. apply NoDup_app_inv in ND.
  destruct ND as (_ & _ & D).
  assert (G : forall binding news o, inlinable scope binding g -> prefix_graph scope (bind_inputs binding g) (f_outs g) = Some (news, o) -> forall t, In t (new_outs scope n) -> In t (outputs_of news)).
  { intros binding news o I P t It. apply in_outputs_of. eexists. split; [exact (copy_regular scope binding g I news o P n In_n NP)|]. cbn [f_out].
    destruct (in_split _ _ In_n) as (l1 & l2 & El). rewrite (apps_outs scope binding g I news o P); auto. rewrite (op_regular scope binding g I l1 n l2 El NP), in_app_iff. right. left. auto. }
  destruct (new_outs scope n) as [|t ts] eqn:En; [pose proof (new_outs_length scope n) as L; rewrite En in L; destruct (f_out n); [congruence|discriminate]|].
  apply (D t); [apply (G _ _ _ I1 P1)|apply (G _ _ _ I2 P2)]; left; auto.
Qed.
Print Assumptions C37_same_scope_twice_refuted.
