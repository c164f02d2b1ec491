(** Proofs about inlining: meaning of the renamed copy. *)
From Coq Require Import String List Bool NArith Lia FinFun.
From Verif Require Import FGraph FGraphProofs FGraphSpec IdentityProofs InlineModel InlineSpec InlineProofs.
From Verif Require NamesModel NamesProofs.
Import ListNotations.
Local Open Scope string_scope.
Local Open Scope list_scope.

(** ** names *)
Lemma new_in_scope scope n o : scope <> "" -> In o (new_outs scope n) -> in_scope scope o.
Proof.
  intros N I. unfold new_outs, output_names in I. apply in_map_iff in I. destruct I as (i & <- & _). unfold new_name, scoped.
  destruct (String.eqb_spec scope ""); [contradiction|]. unfold NamesModel.port_name. eexists. rewrite !NamesProofs.append_assoc'. reflexivity.
Qed.
Lemma new_outs_nodup scope n : NoDup (new_outs scope n).
Proof.
  unfold new_outs, output_names. apply Injective_map_NoDup; [|apply seq_NoDup]. intros i j E. unfold NamesModel.port_name in E.
  apply NamesProofs.app_inv_head_str in E. apply NamesProofs.app_inv_head_str with (a := ":") in E. apply NamesProofs.str_of_N_inj in E. lia.
Qed.
Lemma NoDup_snoc_concat {A B} (f : A -> list B) : forall ns, (forall n, NoDup (f n)) ->
  (forall l1 n l2, ns = l1 ++ n :: l2 -> forall o, In o (f n) -> ~ In o (concat (map f l1))) -> NoDup (concat (map f ns)).
Proof.
  intros ns N1. induction ns as [|n ns IH] using rev_ind; intro H; [constructor|]. rewrite map_app, concat_app. cbn [map concat]. rewrite app_nil_r.
  apply NoDup_app_intro; auto.
  - apply IH. intros l1 m l2 -> o I. apply (H l1 m (l2 ++ [n])); auto. now rewrite <- app_assoc.
  - intros x I K. exact (H ns n [] eq_refl x K I).
Qed.

(** ** the outputs of the graph *)
Lemma replace_first_map a b l : NoDup l -> replace_first a b l = map (sub a b) l.
Proof.
  induction l as [|x l IH]; intro ND; [reflexivity|]. inversion ND as [|? ? Nx ND']; subst. cbn [replace_first map]. unfold sub at 1. destruct (String.eqb_spec x a) as [->|E].
  - f_equal. symmetry. now apply map_sub_id.
  - f_equal. auto.
Qed.
Lemma replace_all_map s : forall l, NoDup l -> NoDup (map snd s) -> (forall v, In v (map snd s) -> ~ In v l) ->
  fold_left (fun l p => replace_first (fst p) (snd p) l) s l = map (apps s) l.
Proof.
  induction s as [|[a b] s IH]; intros l NL NS D.
  - cbn. symmetry. apply map_id.
  - cbn [fold_left fst snd map] in *. inversion NS as [|? ? Nb NS']; subst. rewrite replace_first_map by auto. rewrite IH.
    + rewrite map_map. reflexivity.
    + apply NoDup_map_sub; auto. apply D. left. reflexivity.
    + auto.
    + intros v I K. apply in_map_iff in K. destruct K as (x & E & Ix). unfold sub in E. destruct (String.eqb x a); subst; [contradiction|]. apply (D v); auto. now right.
Qed.

Section S.
Variable V : Type.
Variable op_rel : string -> string -> list (string * attr) -> nat -> list V -> list (list V -> list V -> Prop) -> list V -> Prop.
Hypothesis ext : op_ext op_rel.
Notation holds := (holds op_rel). Notation body_rel := (body_rel op_rel). Notation all_hold := (all_hold op_rel).
Notation env := (env V).

Lemma body_sub a b g (r : env) : closed_graph g -> a <> b -> a <> "" -> ~ In a (alldefs g) -> ~ In b (alldefs g) ->
  forall s t, body_rel r (subst_graph a b g) s t <-> body_rel (fun x => r (sub a b x)) g s t.
Proof.
  intros C N N0 Ha Hb s t. set (r1 := fun x => r (sub a b x)).
  assert (E1 : r1 a = r1 b) by (unfold r1, sub; rewrite String.eqb_refl; destruct (String.eqb_spec b a); congruence).
  rewrite <- (body_subst V op_rel ext a b g r1 Ha Hb E1 s t).
  assert (A : forall x, In x (fv_graph (subst_graph a b g)) -> r x = r1 x).
  { intros x I. unfold r1, sub. destruct (String.eqb_spec x a) as [->|]; auto. destruct (proj2 (fv_subst_ind a b N N0) g C a I). congruence. }
  split; apply (body_agree V op_rel ext); auto. intros x I. symmetry. auto.
Qed.
Lemma body_substs s : forall g (r : env), closed_graph g -> (forall a b, In (a, b) s -> a <> b /\ a <> "" /\ ~ In a (alldefs g) /\ ~ In b (alldefs g)) ->
  forall x y, body_rel r (substs s g) x y <-> body_rel (fun t => r (apps s t)) g x y.
Proof.
  induction s as [|[a b] s IH]; intros g r C H x y; [reflexivity|]. change (substs ((a, b) :: s) g) with (substs s (subst_graph a b g)).
  destruct (H a b) as (N & N0 & Ha & Hb); [left; auto|]. rewrite IH; [|apply closed_subst; auto|].
  - rewrite (body_sub a b g (fun t => r (apps s t)) C N N0 Ha Hb x y). reflexivity.
  - intros a' b' I. rewrite (proj2 (alldefs_subst a b) g). apply H. now right.
Qed.
(** the meaning of a node with all its names replaced *)
Lemma holds_copy s (r : env) nm nm' op at_ ins outs outs' bodies :
  (forall b, In b bodies -> closed_graph b /\ forall x y, In (x, y) s -> x <> y /\ x <> "" /\ ~ In x (alldefs b) /\ ~ In y (alldefs b)) ->
  (forall o, In o outs -> o <> "") -> (forall o, In o outs' -> o <> "") -> outs' = map (apps s) outs ->
  holds r (FNode nm' op "" at_ (map (apps s) ins) outs' (map (substs s) bodies)) <-> holds (fun t => r (apps s t)) (FNode nm op "" at_ ins outs bodies).
Proof.
  intros HB HO HO' EO. rewrite !holds_eq. cbn [f_op f_dom f_attrs f_in f_out f_bodies]. rewrite map_map.
  assert (L : length outs' = length outs) by (rewrite EO; apply map_length).
  assert (P : forall vs, produces r outs' vs <-> produces (fun t => r (apps s t)) outs vs).
  { intro vs. split; intros H k o E N.
    - apply (H k (apps s o)); [rewrite EO; apply map_nth_error; exact E|]. apply HO'. rewrite EO. apply in_map. eapply nth_error_In; eauto.
    - rewrite EO in E. apply nth_error_In in E as I. destruct (nth_error outs k) as [o0|] eqn:E0.
      + rewrite (map_nth_error _ _ _ E0) in E. injection E as <-. apply (H k o0 E0). apply HO. eapply nth_error_In; eauto.
      + apply nth_error_None in E0. assert (nth_error (map (apps s) outs) k = None) by (apply nth_error_None; rewrite map_length; auto). congruence. }
  assert (K : same_beh V (map (body_rel r) (map (substs s) bodies)) (map (body_rel (fun t => r (apps s t))) bodies)).
  { apply same_beh_sym. apply same_beh_map2. intros b I x y. destruct (HB b I) as [C HB']. symmetry. now apply body_substs. }
  rewrite L. split; intros (vs & A & B); exists vs; (split; [|apply P; exact B]).
  - eapply ext; [exact K|exact A].
  - eapply ext; [apply same_beh_sym; exact K|exact A].
Qed.
End S.
