(** C12, C13: dead node removal; evaluation order. *)
From Coq Require Import String List Bool Arith Lia.
From Coq Require Import Permutation.
From Verif Require Import FGraph FGraphProofs FGraphSpec ExecSpec IdentityProofs ApplyOptProofs ExecProofs DeadModel DeadSpec DeadProofs.
Import ListNotations.
Local Open Scope string_scope.
Local Open Scope list_scope.

(** C12 (results).  Removing unused nodes, at every depth, gives a valid model with the same inputs and
    outputs that computes the same thing, for every meaning of the operators in which the operators used always
    deliver values (a dead node that fails at run time is of course no longer executed). *)
Theorem C12_delete_unused_preserves :
  forall V (op_rel : string -> string -> list (string * attr) -> nat -> list V ->
                     list (list V -> list V -> Prop) -> list V -> Prop) g,
    op_ext op_rel -> all_deliver op_rel g -> valid g ->
    valid (delete_unused g) /\ f_ins (delete_unused g) = f_ins g /\ f_outs (delete_unused g) = f_outs g /\
    forall r args res, body_rel op_rel r g args res <-> body_rel op_rel r (delete_unused g) args res.
Proof.
  intros V op_rel g ext tot [rk L]. split; [exists rk; now apply valid_delete|].
  destruct g as [ns gi go] eqn:Eg. rewrite <- Eg in *.
  split; [subst; destruct go; reflexivity|]. split; [subst; destruct go; reflexivity|].
  exact (proj2 (delete_equiv V op_rel ext rk) g L tot).
Qed.
Print Assumptions C12_delete_unused_preserves.

(** C12 (results, partial operators).  Without bodies nothing is assumed about the operators: whatever the
    model computed it still computes. *)
Theorem C12_flat_results_kept :
  forall V (op_rel : string -> string -> list (string * attr) -> nat -> list V ->
                     list (list V -> list V -> Prop) -> list V -> Prop) g,
    op_ext op_rel -> valid g -> flat g ->
    forall r args res, body_rel op_rel r g args res -> body_rel op_rel r (delete_unused g) args res.
Proof.
  intros V op_rel g ext [rk L] F r args res B.
  destruct (list_eq_dec string_dec (f_outs g) []) as [E|E]; [now rewrite delete_nil|].
  rewrite delete_eq by auto. rewrite body_clean_flat by auto. destruct g as [ns gi go]. cbn [f_nodes f_ins f_outs] in *.
  assert (Hd : forall t, In t (outs_of (dropped (kept (FGraph ns gi go)) ns)) ->
    t <> "" /\ exists m, In m ns /\ kept (FGraph ns gi go) m = false /\ In t (f_out m)).
  { intros t H. apply in_outs_of in H. destruct H as (Ne & m & Hm & Ht). split; auto. apply filter_In in Hm.
    exists m. rewrite negb_true_iff in Hm. tauto. }
  apply (drop_forward V op_rel ext); auto.
  - intros n t Hn K Ht H. destruct (Hd t H) as (Ne & m & Hm & Km & Hmt).
    rewrite (kept_closed rk _ L n t m Hn K Ht Ne Hm Hmt) in Km. discriminate.
  - intros o Ho H. destruct (Hd o H) as (Ne & m & Hm & Km & Hmt).
    rewrite (kept_outs rk _ L o m Ho Ne Hm Hmt) in Km. discriminate.
  - apply (defs_NoDup _ rk). apply L. constructor.
Qed.
Print Assumptions C12_flat_results_kept.

(** C12 (exactness).  A node stays exactly when an output needs it: some chain of reads, by nodes or by the
    bodies of nodes, leads from an output to it. *)
Theorem C12_keeps_exactly_the_needed_nodes :
  forall g n, valid g -> named_outputs g -> f_outs g <> [] -> In n (f_nodes g) ->
    (In (f_name n) (map f_name (f_nodes (delete_unused g))) <-> needed g n).
Proof.
  intros g n [rk L] NO E Hn. rewrite delete_eq by auto. cbn [f_nodes].
  rewrite <- (kept_needed rk g L n Hn) by (intros m Hm; exact (NO g m (within_refl g) Hm)).
  rewrite in_map_iff. split.
  - intros (m' & Em & Hm'). apply in_deleted in Hm'. destruct Hm' as (m & Hm & K & ->). rewrite clean_name in Em.
    rewrite <- (nm_inj g m n); auto. apply (g_names rk). apply L. constructor.
  - intro K. exists (clean_node n). split; [apply clean_name|]. apply in_deleted. eauto.
Qed.
Print Assumptions C12_keeps_exactly_the_needed_nodes.

(** C12 (idempotence) holds for models without body graphs ... *)
Theorem C12_idempotent_partial :
  forall g, valid g -> named_outputs g -> flat g -> delete_unused (delete_unused g) = delete_unused g.
Proof. intros g [rk L] NO F. eapply delete_idem_flat; eauto. Qed.
Print Assumptions C12_idempotent_partial.

(** ... and fails with them: what a dead node of a body reads is kept, and removed by the next call only. *)
Definition dead_body : fgraph :=
  FGraph [FNode "d" "Add" "" [] ["bx"; "c"] ["dd"] []; FNode "n" "Neg" "" [] ["bx"] ["by"] []] ["bx"] ["by"].
Definition dead_graph : fgraph :=
  FGraph [FNode "p" "Abs" "" [] ["x"] ["c"] []; FNode "l" "Loop" "" [] ["x"] ["l"] [dead_body];
          FNode "u" "Exp" "" [] ["x"] ["uu"] []] ["x"] ["l"].
Definition dead_rank (t : string) : nat :=
  match find (fun p => String.eqb (fst p) t) [("x", 1); ("c", 2); ("bx", 3); ("dd", 4); ("by", 5); ("l", 6); ("uu", 2)] with
  | Some (_, k) => k | None => 0 end.
Ltac nodup := repeat (constructor; [cbn; intuition discriminate|]); constructor.
Lemma dead_within h : within dead_graph h -> h = dead_graph \/ h = dead_body.
Proof.
  intro H. inversion H as [|n b h0 Hn Hb H']; subst; auto. cbn in Hn.
  repeat (destruct Hn as [<-|Hn]; [cbn in Hb; try contradiction|]); try contradiction.
  destruct Hb as [<-|[]]. inversion H' as [|n b h0 Hn Hb H'']; subst; auto. cbn in Hn.
  repeat (destruct Hn as [<-|Hn]; [cbn in Hb; try contradiction|]); contradiction.
Qed.
Lemma dead_valid : valid dead_graph /\ named_outputs dead_graph.
Proof.
  split.
  - exists dead_rank. intros h H. apply dead_within in H. destruct H as [->| ->]; constructor.
    + intros o Ho. cbn in Ho |- *. intuition (subst; auto 20).
    + vm_compute. nodup.
    + intros t Ht. vm_compute in Ht. contradiction.
    + cbn. nodup.
    + intros n t o Hn Ht Ho No. cbn in Hn.
      repeat (destruct Hn as [<-|Hn]; [vm_compute in Ht; cbn in Ho; repeat (destruct Ht as [<-|Ht]; [repeat (destruct Ho as [<-|Ho]; [vm_compute; lia|]); contradiction|]); contradiction|]); contradiction.
    + cbn. intuition discriminate.
    + intros o Ho. cbn in Ho |- *. intuition (subst; auto 20).
    + vm_compute. nodup.
    + intros t Ht K. vm_compute in Ht. destruct Ht as [<-|[]]. vm_compute in K. intuition discriminate.
    + cbn. nodup.
    + intros n t o Hn Ht Ho No. cbn in Hn.
      repeat (destruct Hn as [<-|Hn]; [vm_compute in Ht; cbn in Ho; repeat (destruct Ht as [<-|Ht]; [repeat (destruct Ho as [<-|Ho]; [vm_compute; lia|]); contradiction|]); contradiction|]); contradiction.
    + cbn. intuition discriminate.
  - intros h n H Hn. apply dead_within in H. destruct H as [->| ->]; cbn in Hn;
      repeat (destruct Hn as [<-|Hn]; [cbn; intuition discriminate|]); contradiction.
Qed.
Theorem C12_idempotent_refuted :
  exists g, valid g /\ named_outputs g /\
    map f_name (f_nodes (delete_unused g)) = ["p"; "l"] /\
    map f_name (f_nodes (delete_unused (delete_unused g))) = ["l"].
Proof.
  exists dead_graph. destruct dead_valid as [A B]. split; [exact A|]. split; [exact B|]. split; vm_compute; reflexivity.
Qed.
Print Assumptions C12_idempotent_refuted.

(** C13 (order).  Two arrangements of the nodes of the same model, at every depth, that are both valid
    execution orders give the same results, and these are the results the model's equations describe. *)
Theorem C13_order_does_not_matter :
  forall V (op_rel : string -> string -> list (string * attr) -> nat -> list V ->
                     list (list V -> list V -> Prop) -> list V -> Prop) g g',
    op_ext op_rel -> valid g -> reordered g g' -> ordered g -> ordered g' ->
    forall r args res,
      (exec_body op_rel r g args res <-> exec_body op_rel r g' args res) /\
      (exec_body op_rel r g args res <-> body_rel op_rel r g args res).
Proof.
  intros V op_rel g g' ext [rk L] R O O' r args res.
  assert (A : exec_body op_rel r g args res <-> body_rel op_rel r g args res).
  { apply exec_is_body_rel; auto. intros h Hh. split; [eapply defs_NoDup; eauto|now apply O]. }
  assert (B : exec_body op_rel r g' args res <-> body_rel op_rel r g' args res).
  { apply exec_is_body_rel; auto. intros h' Hh'. split; [|now apply O'].
    destruct (reordered_within _ _ Hh' g R) as (h & Hh & Rh).
    eapply Permutation_NoDup; [apply reordered_defs; exact Rh|]. eapply defs_NoDup; eauto. }
  split; [|exact A]. rewrite A, B. now apply reordered_equiv.
Qed.
Print Assumptions C13_order_does_not_matter.

(** C13 (progress and uniqueness).  A model in execution order runs to the end when its operators deliver
    values, and there is only one result when they are functions. *)
Theorem C13_execution_defined_and_unique :
  forall V (op_rel : string -> string -> list (string * attr) -> nat -> list V ->
                     list (list V -> list V -> Prop) -> list V -> Prop) g,
    op_ext op_rel -> valid g ->
    (all_deliver op_rel g -> forall r args, length args = length (f_ins g) -> exists res, exec_body op_rel r g args res) /\
    (op_det op_rel -> forall r args res res', exec_body op_rel r g args res -> exec_body op_rel r g args res' -> res = res').
Proof.
  intros V op_rel g ext [rk L]. split.
  - intros T r args E. assert (G : good rk g) by (apply L; constructor).
    assert (ND := defs_NoDup _ _ G). unfold defs in ND. rewrite nonempty_app in ND. apply NoDup_app_inv in ND. destruct ND as (N1 & N2 & _).
    assert (NE : nonempty (f_ins g) = f_ins g).
    { unfold nonempty. apply filter_all. intros x Hx. apply negb_true_iff. apply String.eqb_neq. intros ->. exact (g_noself _ _ G Hx). }
    destruct (steps_total V op_rel (f_nodes g) (fun n => T g n (within_refl g)) N2 (bind V (f_ins g) args r)) as (r1 & S).
    exists (map r1 (f_outs g)). apply exec_body_eq. exists (bind V (f_ins g) args r), r1.
    split; [intros t Ht; now apply bind_frame|]. split; [|auto].
    assert (P := bind_produces V (f_ins g) args r N1 ltac:(lia)).
    apply nth_error_ext_eq; [now rewrite map_length|]. intros k v Hk. rewrite nth_error_map in Hk.
    destruct (nth_error (f_ins g) k) as [o|] eqn:Eo; [|discriminate]. injection Hk as <-. apply P; auto.
    intros ->. apply (g_noself _ _ G). eapply nth_error_In; eauto.
  - intros D r args res res' H H'. eapply (proj2 (exec_det V op_rel ext D)); eauto.
Qed.
Print Assumptions C13_execution_defined_and_unique.

(** ** witnesses *)
Definition dead_graph' : fgraph :=
  FGraph [FNode "u" "Exp" "" [] ["x"] ["uu"] []; FNode "p" "Abs" "" [] ["x"] ["c"] [];
          FNode "l" "Loop" "" [] ["x"] ["l"]
            [FGraph [FNode "n" "Neg" "" [] ["bx"] ["by"] []; FNode "d" "Add" "" [] ["bx"; "c"] ["dd"] []] ["bx"] ["by"]]] ["x"] ["l"].
Ltac order := repeat (apply in_order_cons; [intros t Ht K; vm_compute in Ht, K; intuition congruence|]); apply in_order_nil.
Lemma dead_within' h : within dead_graph' h -> h = dead_graph' \/
  h = FGraph [FNode "n" "Neg" "" [] ["bx"] ["by"] []; FNode "d" "Add" "" [] ["bx"; "c"] ["dd"] []] ["bx"] ["by"].
Proof.
  intro H. inversion H as [|n b h0 Hn Hb H']; subst; auto. cbn in Hn.
  repeat (destruct Hn as [<-|Hn]; [cbn in Hb; try contradiction|]); try contradiction.
  destruct Hb as [<-|[]]. inversion H' as [|n b h0 Hn Hb H'']; subst; auto. cbn in Hn.
  repeat (destruct Hn as [<-|Hn]; [cbn in Hb; try contradiction|]); contradiction.
Qed.
(** the hypotheses of C13: a model with a body and a genuine rearrangement of it at both levels *)
Example C13_order_witness : valid dead_graph /\ reordered dead_graph dead_graph' /\ ordered dead_graph /\ ordered dead_graph'.
Proof.
  split; [apply dead_valid|]. split; [|split].
  - eapply RG.
    + constructor; [constructor; constructor|]. constructor.
      * constructor. constructor; [|constructor]. eapply RG.
        -- constructor; [constructor; constructor|]. constructor; [constructor; constructor|constructor].
        -- apply perm_swap.
      * constructor; [constructor; constructor|constructor].
    + eapply perm_trans; [apply perm_skip, perm_swap|]. apply perm_swap.
  - intros h H. apply dead_within in H. destruct H as [->| ->]; cbn [f_nodes]; order.
  - intros h H. apply dead_within' in H. destruct H as [->| ->]; cbn [f_nodes]; order.
Qed.
(** operators that are functions and deliver what the example model asks for *)
Example C12_C13_ops_witness : exists op_rel : string -> string -> list (string * attr) -> nat -> list nat ->
                     list (list nat -> list nat -> Prop) -> list nat -> Prop,
  op_ext op_rel /\ op_det op_rel /\ all_deliver op_rel dead_graph /\ op_rel "Add" "" [] 1 [2; 3] [] [5].
Proof.
  exists (fun op _ _ _ ins _ vs => vs = [fold_right Nat.add 0 ins]).
  split; [|split; [|split]].
  - intros o d a k i bs bs' vs _ H; exact H.
  - intros o d a k i bs vs vs' -> ->. reflexivity.
  - intros h n H Hn i bs. exists [fold_right Nat.add 0 i]. split; auto.
    apply dead_within in H. destruct H as [->| ->]; cbn in Hn; repeat (destruct Hn as [<-|Hn]; [cbn; lia|]); contradiction.
  - reflexivity.
Qed.
Example C12_witness : map f_name (f_nodes (delete_unused dead_graph)) = ["p"; "l"] /\
  exists n, In n (f_nodes dead_graph) /\ needed dead_graph n /\ f_name n = "p".
Proof.
  split; [vm_compute; reflexivity|]. exists (FNode "p" "Abs" "" [] ["x"] ["c"] []). split; [left; reflexivity|]. split; [|reflexivity].
  eapply needed_in with (m := FNode "l" "Loop" "" [] ["x"] ["l"] [dead_body]) (t := "c").
  - left; reflexivity.
  - eapply needed_out with (o := "l"); cbn; auto.
  - vm_compute. auto.
  - left; reflexivity.
Qed.
