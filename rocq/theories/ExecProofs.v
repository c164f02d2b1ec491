(** Execution in a valid order computes the order-free meaning. *)
From Coq Require Import String List Bool Arith Lia.
From Coq Require Import Permutation.
From Verif Require Import FGraph FGraphProofs FGraphSpec ExecSpec IdentityProofs ApplyOptProofs.
Import ListNotations.
Local Open Scope string_scope.
Local Open Scope list_scope.

Definition outs_of (ns : list fnode) : list string := nonempty (concat (map f_out ns)).
Lemma outs_of_cons n ns : outs_of (n :: ns) = nonempty (f_out n) ++ outs_of ns.
Proof. unfold outs_of. cbn [map concat]. apply nonempty_app. Qed.
Lemma in_outs_of x ns : In x (outs_of ns) <-> x <> "" /\ exists n, In n ns /\ In x (f_out n).
Proof. unfold outs_of. rewrite in_nonempty, in_concat_map. tauto. Qed.

Lemma in_order_tail n ns : in_order (n :: ns) -> in_order ns.
Proof. intros H l1 m l2 t E. apply (H (n :: l1) m l2 t). cbn. now rewrite E. Qed.
Lemma in_order_head n ns t : in_order (n :: ns) -> In t (fv_node n) -> ~ In t (outs_of (n :: ns)).
Proof. intros H. apply (H [] n ns t). reflexivity. Qed.

Section E.
Variable V : Type.
Variable op_rel : string -> string -> list (string * attr) -> nat -> list V ->
                  list (list V -> list V -> Prop) -> list V -> Prop.
Hypothesis ext : op_ext op_rel.
Notation env := (env V).
Notation holds := (holds op_rel).
Notation body_rel := (body_rel op_rel).
Notation exec_node := (exec_node op_rel).
Notation exec_body := (exec_body op_rel).
Notation steps := (steps op_rel).
Notation all_hold := (all_hold op_rel).

Lemma exec_body_eq r g args res : exec_body r g args res <->
  exists r0 r1, (forall t, ~ In t (nonempty (f_ins g)) -> r0 t = r t) /\ map r0 (f_ins g) = args /\
    steps r0 (f_nodes g) r1 /\ map r1 (f_outs g) = res.
Proof.
  destruct g as [ns gi go]. cbn [ExecSpec.exec_body f_ins f_nodes f_outs].
  assert (K : forall l r0 r1, (fix steps (r : env) (ns : list fnode) (r' : env) : Prop :=
           match ns with
           | [] => forall t, r' t = r t
           | n :: ns' => exists rm, exec_node r n rm /\ steps rm ns' r'
           end) r0 l r1 <-> steps r0 l r1).
  { induction l as [|n l IH]; intros r0 r1; [reflexivity|]. cbn [ExecSpec.steps].
    split; intros (rm & A & B); exists rm; (split; [exact A|apply IH; exact B]). }
  split; intros (r0 & r1 & A & B & C & D); exists r0, r1; (split; [exact A|split; [exact B|split; [apply K; exact C|exact D]]]).
Qed.
Lemma exec_node_eq r n r' : exec_node r n r' <->
  exists vs, op_rel (f_op n) (f_dom n) (f_attrs n) (length (f_out n)) (map r (f_in n)) (map (exec_body r) (f_bodies n)) vs /\
    produces r' (f_out n) vs /\ forall t, ~ In t (nonempty (f_out n)) -> r' t = r t.
Proof. destruct n. reflexivity. Qed.

Definition agree_bodies (n : fnode) : Prop :=
  forall b, In b (f_bodies n) -> forall r args res, exec_body r b args res <-> body_rel r b args res.

Lemma fv_in n t : In t (f_in n) -> In t (fv_node n).
Proof. intro H. rewrite fv_node_eq. apply in_app_iff. auto. Qed.
Lemma fv_body n b t : In b (f_bodies n) -> In t (fv_graph b) -> In t (fv_node n).
Proof. intros Hb H. rewrite fv_node_eq. apply in_app_iff. right. apply in_concat_map. eauto. Qed.

Lemma steps_hold ns : forall r r', steps r ns r' -> in_order ns -> NoDup (outs_of ns) ->
  (forall n, In n ns -> agree_bodies n) ->
  (forall t, ~ In t (outs_of ns) -> r' t = r t) /\ all_hold r' ns.
Proof.
  induction ns as [|n ns IH]; intros r r' H O ND AB.
  - cbn in H. split; [auto|]. intros n [].
  - destruct H as (rm & Hn & Hs). rewrite outs_of_cons in ND. apply NoDup_app_inv in ND. destruct ND as (ND1 & ND2 & ND3).
    destruct (IH rm r' Hs (in_order_tail _ _ O) ND2) as [F A]; [intros; apply AB; right; auto|].
    apply exec_node_eq in Hn. destruct Hn as (vs & Op & Pr & Fr).
    assert (Fall : forall t, ~ In t (outs_of (n :: ns)) -> r' t = r t).
    { intros t Ht. rewrite outs_of_cons, in_app_iff in Ht. rewrite F by tauto. apply Fr. tauto. }
    split; [exact Fall|]. intros m [<-|Hm]; [|apply A; auto].
    apply holds_eq. exists vs. split.
    + assert (E : map r' (f_in n) = map r (f_in n)).
      { apply map_ext_in. intros t Ht. apply Fall. apply in_order_head; auto. now apply fv_in. }
      rewrite E. eapply ext; [|exact Op]. apply same_beh_map. intros b Hb a s.
      rewrite (AB n (or_introl eq_refl) b Hb). apply body_agree; auto. intros t Ht. symmetry. apply Fall.
      apply in_order_head; auto. eapply fv_body; eauto.
    + eapply produces_agree; [|exact Pr]. intros o Ho No. symmetry. apply F. apply ND3. apply in_nonempty. auto.
Qed.

Lemma hold_steps ns : forall (r r' : env), all_hold r' ns -> in_order ns ->
  (forall t, ~ In t (outs_of ns) -> r t = r' t) -> (forall n, In n ns -> agree_bodies n) -> steps r ns r'.
Proof.
  induction ns as [|n ns IH]; intros r r' A O F AB.
  - cbn. intro t. symmetry. apply F. cbn. tauto.
  - cbn [ExecSpec.steps]. exists (fun t => if mem t (nonempty (f_out n)) then r' t else r t). split.
    + apply exec_node_eq. assert (H := A n (or_introl eq_refl)). apply holds_eq in H. destruct H as (vs & Op & Pr).
      exists vs. split; [|split].
      * assert (E : map r (f_in n) = map r' (f_in n)).
        { apply map_ext_in. intros t Ht. apply F. apply in_order_head; auto. now apply fv_in. }
        rewrite E. eapply ext; [|exact Op]. apply same_beh_map. intros b Hb a s.
        rewrite (AB n (or_introl eq_refl) b Hb). apply body_agree; auto. intros t Ht. symmetry. apply F.
        apply in_order_head; auto. eapply fv_body; eauto.
      * eapply produces_agree; [|exact Pr]. intros o Ho No. cbn.
        replace (mem o (nonempty (f_out n))) with true; auto. symmetry. apply mem_in. apply in_nonempty. auto.
      * intros t Ht. apply mem_false in Ht. now rewrite Ht.
    + apply IH.
      * intros m Hm. apply A. right; auto.
      * eapply in_order_tail; eauto.
      * intros t Ht. destruct (mem t (nonempty (f_out n))) eqn:E; auto. apply F.
        rewrite outs_of_cons, in_app_iff. apply mem_false in E. tauto.
      * intros m Hm. apply AB. right; auto.
Qed.

Definition lvl (h : fgraph) : Prop := NoDup (defs h) /\ in_order (f_nodes h).
Lemma exec_is_body_rel g : (forall h, within g h -> lvl h) ->
  forall r args res, exec_body r g args res <-> body_rel r g args res.
Proof.
  revert g.
  enough (K : (forall n, (forall b h, In b (f_bodies n) -> within b h -> lvl h) -> agree_bodies n) /\
              (forall g, (forall h, within g h -> lvl h) -> forall r args res, exec_body r g args res <-> body_rel r g args res))
    by apply K.
  apply fnode_fgraph_ind.
  - intros nm op dom at_ ins outs bodies IH L b Hb. cbn [f_bodies] in *. apply IH; auto. intros h Hh. eapply L; eauto.
  - intros ns gi go IH L r args res.
    assert (AB : forall n, In n ns -> agree_bodies n).
    { intros n Hn. apply IH; auto. intros b h Hb Hh. apply L. eapply within_body; eauto. }
    destruct (L _ (within_refl _)) as [ND O]. cbn [f_nodes] in O. unfold defs in ND. cbn [f_ins f_nodes] in ND.
    rewrite nonempty_app in ND. apply NoDup_app_inv in ND. destruct ND as (ND1 & ND2 & ND3).
    rewrite exec_body_eq, body_rel_eq. cbn [f_ins f_outs f_nodes]. split.
    + intros (r0 & r1 & A & B & C & D). exists r1.
      destruct (steps_hold ns r0 r1 C O ND2 AB) as [F H].
      split; [|split; [|split; [exact H|exact D]]].
      * intros t Ht. unfold defs in Ht. cbn [f_ins f_nodes] in Ht. rewrite nonempty_app, in_app_iff in Ht.
        rewrite F by tauto. apply A. tauto.
      * rewrite <- B. apply map_ext_in. intros t Ht. destruct (string_dec t "") as [->|Ne].
        -- apply F. rewrite in_outs_of. tauto.
        -- apply F. apply ND3. apply in_nonempty. auto.
    + intros (r' & A & B & C & D). unfold defs in A. cbn [f_ins f_nodes] in A.
      exists (fun t => if mem t (nonempty gi) then r' t else r t), r'. split; [|split; [|split; [|exact D]]].
      * intros t Ht. apply mem_false in Ht. now rewrite Ht.
      * rewrite <- B. apply map_ext_in. intros t Ht. destruct (mem t (nonempty gi)) eqn:E; auto.
        apply mem_false in E. rewrite in_nonempty in E. symmetry. apply A. rewrite nonempty_app, in_app_iff. intros [K|K].
        -- apply in_nonempty in K. tauto.
        -- apply in_nonempty in K. tauto.
      * apply hold_steps; auto. intros t Ht. destruct (mem t (nonempty gi)) eqn:E; auto.
        apply mem_false in E. symmetry. apply A. rewrite nonempty_app, in_app_iff. intros [K|K]; auto.
Qed.

(** ** reordering *)
Lemma reordered_out n n' : reordered_node n n' -> f_out n' = f_out n /\ f_in n' = f_in n.
Proof. intro H. destruct H. split; reflexivity. Qed.
Lemma Forall2_outs ns ns' : Forall2 reordered_node ns ns' -> map f_out ns' = map f_out ns.
Proof. intro H. apply Forall2_map_eq. eapply Forall2_imp; [|exact H]. intros x y _ _ K. apply (reordered_out _ _ K). Qed.
Lemma nonempty_perm l l' : Permutation l l' -> Permutation (nonempty l) (nonempty l').
Proof.
  unfold nonempty. intro H. induction H; cbn.
  - constructor.
  - destruct (negb _); auto.
  - destruct (negb (_ =? _)); destruct (negb (_ =? _)); auto. constructor.
  - eapply perm_trans; eauto.
Qed.
Lemma concat_perm {A B} (f : A -> list B) l l' : Permutation l l' -> Permutation (concat (map f l)) (concat (map f l')).
Proof. intro H. rewrite <- !flat_map_concat_map. now apply Permutation_flat_map. Qed.
Lemma reordered_defs g g' : reordered g g' -> Permutation (defs g) (defs g').
Proof.
  intro H. destruct H as [ns ns1 ns' gi go F P]. unfold defs. cbn [f_ins f_nodes]. apply nonempty_perm.
  apply Permutation_app_head. rewrite <- (Forall2_outs _ _ F). now apply concat_perm.
Qed.
Lemma reordered_equiv g : forall g', reordered g g' -> forall r args res, body_rel r g args res <-> body_rel r g' args res.
Proof.
  revert g.
  enough (K : (forall n n', reordered_node n n' -> forall r, holds r n <-> holds r n') /\
              (forall g g', reordered g g' -> forall r args res, body_rel r g args res <-> body_rel r g' args res))
    by apply K.
  apply fnode_fgraph_ind.
  - intros nm op dom at_ ins outs bodies IH n' H r. inversion H as [? ? ? ? ? ? ? bs' F]; subst. rewrite !holds_eq.
    cbn [f_op f_dom f_attrs f_in f_bodies f_out].
    assert (K : same_beh V (map (body_rel r) bodies) (map (body_rel r) bs')).
    { clear H. induction F as [|b b' l l' Hb F IHF]; cbn; constructor.
      - intros a s. apply IH; [left; auto|auto].
      - apply IHF. intros c Hc. apply IH. right; auto. }
    split; intros (vs & Op & Pr); exists vs; (split; [eapply ext; [|exact Op]|exact Pr]); auto. now apply same_beh_sym.
  - intros ns gi go IH g' H r args res. assert (Pd := reordered_defs _ _ H). inversion H as [? ns1 ns' ? ? F P]; subst.
    assert (K : forall r', all_hold r' ns <-> all_hold r' ns').
    { intro r'. transitivity (all_hold r' ns1).
      - clear - IH F. induction F as [|n n' l l' Hn F IHF]; [firstorder|].
        assert (A := IH n (or_introl eq_refl) n' Hn r').
        assert (B : all_hold r' l <-> all_hold r' l') by (apply IHF; intros; apply IH; auto; now right).
        split; intros C m [<-|Hm].
        + apply (proj1 A). apply C. left; auto.
        + refine (proj1 B _ m Hm). intros k Hk. apply C. right; auto.
        + apply (proj2 A). apply C. left; auto.
        + refine (proj2 B _ m Hm). intros k Hk. apply C. right; auto.
      - split; intros C m Hm; apply C.
        + exact (Permutation_in _ (Permutation_sym P) Hm).
        + exact (Permutation_in _ P Hm). }
    rewrite !body_rel_eq. cbn [f_ins f_nodes f_outs].
    split; intros (r' & A & B & C & D); exists r'; (split; [|split; [exact B|split; [apply K; exact C|exact D]]]);
      intros t Ht; apply A; intro Q; apply Ht.
    + exact (Permutation_in _ Pd Q).
    + exact (Permutation_in _ (Permutation_sym Pd) Q).
Qed.
Lemma reordered_within g' h' : within g' h' -> forall g, reordered g g' -> exists h, within g h /\ reordered h h'.
Proof.
  induction 1 as [g0|g0 n b h Hn Hb H IH]; intros g R.
  - exists g. split; [constructor|auto].
  - destruct R as [ns ns1 ns' gi go F P]. cbn [f_nodes] in Hn.
    apply (Permutation_in _ (Permutation_sym P)) in Hn. destruct (Forall2_in_r _ _ _ _ F Hn) as (m & Hm & Rm).
    destruct Rm as [nm op dom at_ ins outs bs bs' Fb]. cbn [f_bodies] in Hb.
    destruct (Forall2_in_r _ _ _ _ Fb Hb) as (c & Hc & Rc). destruct (IH c Rc) as (k & Hk & Rk).
    exists k. split; auto. eapply within_body; [exact Hm|exact Hc|exact Hk].
Qed.
(** ** progress and determinism *)
Fixpoint bind (outs : list string) (vs : list V) (r : env) : env :=
  match outs, vs with
  | o :: os, v :: vs' => if String.eqb o "" then bind os vs' r else upd V (bind os vs' r) o v
  | _, _ => r
  end.
Lemma bind_frame outs : forall vs r t, ~ In t (nonempty outs) -> bind outs vs r t = r t.
Proof.
  induction outs as [|o os IH]; intros [|v vs] r t Ht; cbn; auto.
  unfold nonempty in Ht. cbn in Ht. destruct (String.eqb_spec o "") as [E|E]; cbn in Ht.
  - apply IH. exact Ht.
  - rewrite upd_other by (intro; subst; tauto). apply IH. tauto.
Qed.
Lemma bind_produces outs : forall vs r, NoDup (nonempty outs) -> length outs <= length vs ->
  produces (bind outs vs r) outs vs.
Proof.
  induction outs as [|o os IH]; intros [|v vs] r ND L k x E Ne; cbn in L; try lia.
  - destruct k; discriminate.
  - destruct k; discriminate.
  - unfold nonempty in ND. cbn [filter] in ND. cbn [bind]. destruct (String.eqb_spec o "") as [Eo|Eo]; cbn [negb] in ND.
    + destruct k as [|k]; cbn in E |- *; [injection E as E; congruence|]. apply (IH vs r ND ltac:(lia) k x E Ne).
    + inversion ND as [|? ? Hni ND']; subst. destruct k as [|k]; cbn in E |- *.
      * injection E as E; subst. now rewrite upd_same.
      * assert (x <> o). { intro; subst. apply Hni. apply in_nonempty. split; auto. eapply nth_error_In; eauto. }
        rewrite upd_other by auto. apply (IH vs r ND' ltac:(lia) k x E Ne).
Qed.
Lemma steps_total : forall ns, (forall n, In n ns -> delivers op_rel n) -> NoDup (outs_of ns) -> forall r, exists r', steps r ns r'.
Proof.
  intros ns. induction ns as [|n ns IH]; intros T ND r.
  - exists r. cbn. auto.
  - rewrite outs_of_cons in ND. apply NoDup_app_inv in ND. destruct ND as (N1 & N2 & _).
    destruct (T n (or_introl eq_refl) (map r (f_in n)) (map (exec_body r) (f_bodies n))) as (vs & Op & L).
    destruct (IH (fun m Hm => T m (or_intror Hm)) N2 (bind (f_out n) vs r)) as (r' & S). exists r'. exists (bind (f_out n) vs r). split; [|exact S].
    apply exec_node_eq. exists vs. split; [exact Op|]. split; [apply bind_produces; auto|]. intros t Ht. now apply bind_frame.
Qed.
Lemma exec_ext_ind :
  (forall n (r1 r2 r' : env), (forall t, r1 t = r2 t) -> exec_node r1 n r' -> exec_node r2 n r') /\ (forall g (r1 r2 : env), (forall t, r1 t = r2 t) -> forall a s, exec_body r1 g a s -> exec_body r2 g a s).
Proof.
  apply fnode_fgraph_ind.
  - intros nm op dom at_ ins outs bodies IH r1 r2 r' E H. apply exec_node_eq in H. apply exec_node_eq.
    cbn [f_op f_dom f_attrs f_in f_bodies f_out] in *. destruct H as (vs & Op & Pr & Fr). exists vs.
    split; [|split; [exact Pr|]].
    + replace (map r2 ins) with (map r1 ins) by (apply map_ext; auto). eapply ext; [|exact Op].
      apply same_beh_map. intros b Hb a s. split; apply IH; auto.
    + intros t Ht. rewrite Fr; auto.
  - intros ns gi go _ r1 r2 E a s H. apply exec_body_eq in H. apply exec_body_eq. cbn [f_ins f_nodes f_outs] in *.
    destruct H as (r0 & r' & A & B & C & D). exists r0, r'. split; [|auto]. intros t Ht. rewrite A; auto.
Qed.
Lemma exec_det : op_det op_rel ->
  (forall n (r1 r2 r1' r2' : env), (forall t, r1 t = r2 t) -> exec_node r1 n r1' -> exec_node r2 n r2' -> forall t, r1' t = r2' t) /\ (forall g (r1 r2 : env), (forall t, r1 t = r2 t) -> forall a s s', exec_body r1 g a s -> exec_body r2 g a s' -> s = s').
Proof.
  intro Dt. apply fnode_fgraph_ind.
  - intros nm op dom at_ ins outs bodies IH r1 r2 r1' r2' E H1 H2 t.
    apply (proj1 exec_ext_ind _ r1 r2 r1' E) in H1. apply exec_node_eq in H1, H2. cbn [f_op f_dom f_attrs f_in f_bodies f_out] in *.
    destruct H1 as (vs & Op & Pr & Fr), H2 as (vs' & Op' & Pr' & Fr').
    rewrite (Dt _ _ _ _ _ _ _ _ Op Op') in Pr. destruct (in_dec string_dec t (nonempty outs)) as [I|I].
    + apply in_nonempty in I. destruct I as [I Ne]. apply In_nth_error in I. destruct I as (k & I).
      assert (A := Pr k t I Ne). assert (B := Pr' k t I Ne). congruence.
    + rewrite Fr, Fr'; auto.
  - intros ns gi go IH r1 r2 E a s s' H1 H2. apply exec_body_eq in H1, H2. cbn [f_ins f_nodes f_outs] in *.
    destruct H1 as (r0 & r' & A & B & C & D), H2 as (q0 & q' & A' & B' & C' & D').
    assert (E0 : forall t, r0 t = q0 t).
    { intro t. destruct (in_dec string_dec t (nonempty gi)) as [I|I].
      - apply in_nonempty in I. destruct I as [I _]. rewrite <- B' in B. exact (proj1 (@map_ext_in_iff _ _ r0 q0 gi) B t I).
      - rewrite A, A'; auto. }
    assert (K : forall t, r' t = q' t).
    { clear - IH E0 C C'. revert r0 q0 E0 C C'. induction ns as [|n ns IHn]; intros r0 q0 E0 C C' t; cbn in C, C'.
      - rewrite C, C'. auto.
      - destruct C as (rm & X & Y), C' as (qm & X' & Y'). eapply (IHn (fun m Hm => IH m (or_intror Hm)) rm qm); eauto.
        eapply IH; [left; reflexivity| |exact X|exact X']. exact E0. }
    rewrite <- D, <- D'. apply map_ext. exact K.
Qed.
End E.

Lemma defs_NoDup h rk : good rk h -> NoDup (defs h).
Proof.
  intros [_ ND _ _ _ _]. destruct h as [ns gi go]. cbn [alldefs] in ND. unfold defs. cbn [f_ins f_nodes].
  rewrite nonempty_app. apply NoDup_app_inv in ND. destruct ND as (N1 & N2 & N3). apply NoDup_app_intro; auto.
  - clear - N2. induction ns as [|n ns IH]; [constructor|]. cbn [map concat] in *. rewrite nonempty_app.
    apply NoDup_app_inv in N2. destruct N2 as (A & B & C). apply NoDup_app_intro; auto.
    + destruct n as [n1 n2 n3 n4 n5 n6 n7]. cbn [alldefs_node f_out] in *. apply NoDup_app_inv in A. tauto.
    + intros x Hx Hx'. apply in_nonempty in Hx'. destruct Hx' as [Hx' Ne]. apply in_concat_map in Hx'.
      destruct Hx' as (m & Hm & Hx'). apply (C x).
      * apply alldefs_in_node. left. apply in_nonempty in Hx. tauto.
      * apply in_concat_map. exists m. split; auto. apply alldefs_in_node. left. tauto.
  - intros x Hx Hx'. apply (N3 x Hx). apply in_nonempty in Hx'. destruct Hx' as [Hx' Ne]. apply in_concat_map in Hx'.
    destruct Hx' as (m & Hm & Hx'). apply in_concat_map. exists m. split; auto. apply alldefs_in_node. left. tauto.
Qed.
Lemma nth_error_ext_eq {A} (l : list A) : forall l', length l = length l' ->
  (forall k v, nth_error l k = Some v -> nth_error l' k = Some v) -> l = l'.
Proof.
  induction l as [|x l IH]; intros [|y l'] E H; cbn in E; try lia; auto.
  assert (X := H 0 x eq_refl). cbn in X. injection X as ->. f_equal. apply IH; [lia|]. intros k v. apply (H (S k) v).
Qed.
Lemma in_order_cons n ns : (forall t, In t (fv_node n) -> ~ In t (outs_of (n :: ns))) -> in_order ns -> in_order (n :: ns).
Proof.
  intros H O l1 m l2 t E Ht. destruct l1 as [|k l1]; injection E as <- E.
  - subst. apply H. exact Ht.
  - subst. apply (O l1 m l2 t eq_refl Ht).
Qed.
Lemma in_order_nil : in_order [].
Proof. intros [|k l1] m l2 t E; discriminate. Qed.
