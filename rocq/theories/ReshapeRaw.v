(** Arrays that are no object arrays hold integers only, and only object arrays give object arrays. *)
From Coq Require Import String List Arith ZArith Bool Lia.
From Verif Require Import Tensor FGraph FoldModel TensorProofs FoldProofs ReshapeModel ReshapeProofs ReshapeProofs2.
Import ListNotations.
Local Open Scope string_scope.
Local Open Scope list_scope.

Definition israw (e : elt) : Prop := exists z, e = Raw z.
Definition raw (a : arr) : Prop := is_object a = false -> forall e, In e (data (vals a)) -> israw e.
Lemma build_in {A} sh (f : list nat -> option A) z e : build sh f = Some z -> In e (data z) -> exists ix, f ix = Some e.
Proof.
  unfold build. destruct (sequence _) as [d|] eqn:E; [|discriminate]. intro H. injection H as <-. cbn [data]. intro I. apply sequence_spec in E.
  apply (in_map Some) in I. rewrite <- E in I. apply in_map_iff in I. destruct I as (k & H & _). eauto.
Qed.
Lemma get_in {A} (t : tensor A) ix e : get t ix = Some e -> In e (data t).
Proof. apply nth_error_In. Qed.
Lemma reshape_in {A} (t z : tensor A) l : np_reshape t l = Some z -> data z = data t.
Proof.
  unfold np_reshape. destruct (filter _ l) as [|? [|? ?]]; [| |discriminate].
  - destruct (_ =? _)%Z; [|discriminate]. intro H. now injection H as <-.
  - destruct (_ =? 0)%Z; [discriminate|]. destruct (_ =? 0)%Z; [|discriminate]. intro H. now injection H as <-.
Qed.
Lemma mul_raw a b : israw a -> israw b -> israw (elt_mul a b).
Proof. intros [x ->] [y ->]. eexists. reflexivity. Qed.
Lemma prod_raw l : (forall e, In e l -> israw e) -> israw (prod_of l).
Proof.
  destruct l as [|e l]; intro H; [eexists; reflexivity|]. cbn [prod_of]. assert (He := H e (or_introl eq_refl)). assert (Hl : forall x, In x l -> israw x) by (intros; apply H; cbn; auto).
  clear H. revert e He. induction l as [|x l IH]; intros e He; [exact He|]. cbn [fold_left]. apply IH; [intros; apply Hl; cbn; auto|]. apply mul_raw; auto. apply Hl. cbn. auto.
Qed.
Lemma prod_in_raw t axes k z e : np_prod t axes k = Some z -> (forall x, In x (data t) -> israw x) -> In e (data z) -> israw e.
Proof.
  unfold np_prod. destruct (sequence _) as [ax|]; [|discriminate]. destruct (distinct ax); [|discriminate]. destruct (build _ _) as [w|] eqn:B; [|discriminate]. intros H R I.
  assert (I' : In e (data w)) by (injection H as <-; destruct k; exact I). destruct (build_in _ _ _ _ B I') as (ix & Hx). apply option_map_inv in Hx. destruct Hx as (l & Hl & ->).
  apply prod_raw. intros x Ix. apply sequence_spec in Hl. apply (in_map Some) in Ix. rewrite <- Hl in Ix. apply in_map_iff in Ix. destruct Ix as (q & Q & _). apply R. eapply get_in; eauto.
Qed.
Lemma slice_in {A} (t z : tensor A) s e : np_slice t s = Some z -> In e (data z) -> In e (data t).
Proof. unfold np_slice. destruct (sequence _); [|discriminate]. intros B I. destruct (build_in _ _ _ _ B I) as (ix & H). eapply get_in; eauto. Qed.
Lemma take_in {A} (t z : tensor A) i a e : np_take t i a = Some z -> In e (data z) -> In e (data t).
Proof.
  unfold np_take. destruct (py_index _ _); [|discriminate]. intros B I. destruct (build_in _ _ _ _ B I) as (ix & H). cbv beta in H. destruct (get i _); [|discriminate].
  destruct (py_index _ _); [|discriminate]. eapply get_in; eauto.
Qed.
Lemma locate_in {A} ax : forall (ts : list (tensor A)) c u k, locate ax c ts = Some (u, k) -> In u ts.
Proof.
  induction ts as [|t ts IH]; intros c u k E; cbn [locate] in E; [discriminate|]. destruct (Nat.ltb _ _); [injection E as <- _; cbn; auto|]. right. eauto.
Qed.
Lemma concat_in {A} (ts : list (tensor A)) axis z e : np_concatenate ts axis = Some z -> In e (data z) -> exists t, In t ts /\ In e (data t).
Proof.
  unfold np_concatenate. destruct ts as [|t ts]; [discriminate|]. destruct (py_index _ _); [|discriminate]. destruct (forallb _ _); [|discriminate].
  intros B I. destruct (build_in _ _ _ _ B I) as (ix & H). cbv beta in H. destruct (locate _ _ _) as [[u k]|] eqn:L; [|discriminate]. exists u. split; [eapply locate_in; eauto|eapply get_in; eauto].
Qed.
Lemma binary_in {A} f (t u z : tensor A) e : np_binary f t u = Some z -> In e (data z) -> exists a b, In a (data t) /\ In b (data u) /\ e = f a b.
Proof.
  unfold np_binary. destruct (bcast_dims _ _); [|discriminate]. intros B I. destruct (build_in _ _ _ _ B I) as (ix & H). cbv beta in H.
  destruct (get t _) as [a|] eqn:Ea; [|discriminate]. destruct (get u _) as [b|] eqn:Eb; [|discriminate]. injection H as <-. exists a, b. split; [eapply get_in; eauto|]. split; [eapply get_in; eauto|auto].
Qed.
Lemma scalar_raw a : raw a -> raw (np_scalar a).
Proof.
  unfold np_scalar. intro R. destruct a as [o [sh d]]. cbn [vals]. destruct sh; [|exact R]. destruct d as [|[z|s] [|? ?]]; try exact R. intros _ e [<-|[]]. eexists. reflexivity.
Qed.
Lemma scalar_object a : is_object (np_scalar a) = true -> is_object a = true.
Proof. unfold np_scalar. destruct a as [o [sh d]]. cbn [vals]. destruct sh; auto. destruct d as [|[z|s] [|? ?]]; auto. cbn. discriminate. Qed.

Section Node.
Variable opset : nat.
Variable cval : list (string * attr) -> option (tensor Z).
Variable cast : Z -> Z -> Z.
Lemma bind_some {X Y} (o : option X) (f : X -> option Y) y : bind o f = Some y -> exists x, o = Some x /\ f x = Some y.
Proof. destruct o; intro H; [eauto|discriminate]. Qed.
Ltac step E x Hx := apply bind_some in E; destruct E as (x & Hx & E).
Ltac cases E := repeat match type of E with context [if ?b then _ else _] => let C := fresh "C" in destruct b eqn:C; [|] end.
Lemma compute_node_raw n res a : compute_node opset cval cast n res = Some a -> (forall k i, input n res k = Some i -> raw i) ->
  raw a /\ (is_object a = true -> exists k i, input n res k = Some i /\ is_object i = true).
Proof.
  intros E R. unfold compute_node in E.
  destruct (String.eqb (f_op n) "Unsqueeze" || String.eqb (f_op n) "Squeeze").
  { step E i Hi. step E ax Ha. unfold compute_squeeze_unsqueeze in E. destruct (if String.eqb _ _ then _ else _) as [ns|]; [|discriminate]. apply option_map_inv in E. destruct E as (z & Ez & ->).
    apply reshape_in in Ez. split; [intros Ob e I; cbn in *; rewrite Ez in I; exact (R _ _ Hi Ob e I)|]. intro O. eauto. }
  destruct (String.eqb (f_op n) "Gather").
  { step E i Hi. step E j Hj. unfold compute_gather in E. destruct (is_object j); [discriminate|]. destruct (sequence _); [|discriminate]. apply option_map_inv in E. destruct E as (z & Ez & ->).
    split; [apply scalar_raw; intros Ob e I; cbn in *; apply (R _ _ Hi Ob e); eapply take_in; eauto|]. intro O. apply scalar_object in O. eauto. }
  destruct (String.eqb (f_op n) "Mul").
  { step E i Hi. step E j Hj. unfold compute_mul in E. apply option_map_inv in E. destruct E as (z & Ez & ->). split.
    - apply scalar_raw. intros Ob e I. cbn in *. apply orb_false_iff in Ob. destruct (binary_in _ _ _ _ _ Ez I) as (x & y & Ix & Iy & ->). apply mul_raw; [apply (R _ _ Hi)|apply (R _ _ Hj)]; tauto.
    - intro O. apply scalar_object in O. cbn in O. apply orb_true_iff in O. destruct O; eauto. }
  destruct (String.eqb (f_op n) "ReduceProd").
  { step E i Hi. step E ax Ha. unfold compute_reduceprod in E. apply option_map_inv in E. destruct E as (z & Ez & ->). split.
    - apply scalar_raw. intros Ob e I. cbn in *. eapply prod_in_raw; eauto. exact (R _ _ Hi Ob).
    - intro O. apply scalar_object in O. eauto. }
  assert (Sl : forall i s e ax st, input n res 0 = Some i -> compute_slice s e ax st i = Some a -> raw a /\ (is_object a = true -> exists k i, input n res k = Some i /\ is_object i = true)).
  { intros i s e ax st Hi Es. unfold compute_slice in Es. destruct (set_slices _ _); [|discriminate]. apply option_map_inv in Es. destruct Es as (z & Ez & ->).
    split; [apply scalar_raw; intros Ob x I; cbn in *; apply (R _ _ Hi Ob x); eapply slice_in; eauto|]. intro O. apply scalar_object in O. eauto. }
  destruct (String.eqb (f_op n) "Slice").
  { step E i Hi. destruct (opset_below opset 10).
    - step E s Hs. step E e He. eauto.
    - step E s Hs. step E e He. step E ax Hax. step E st Hst. eauto. }
  destruct (String.eqb (f_op n) "Cast").
  { step E i Hi. unfold compute_cast in E. destruct (is_object i) eqn:Oi.
    - injection E as <-. split; [exact (R _ _ Hi)|eauto].
    - destruct (get_int _ _) as [to|]; [|discriminate]. injection E as <-. split; [|discriminate]. intros _ e I. cbn in I. apply in_map_iff in I. destruct I as (x & <- & I).
      destruct (R _ _ Hi Oi x I) as [z ->]. eexists. reflexivity. }
  destruct (String.eqb (f_op n) "Concat").
  { step E ax Ha. step E l Hl. unfold compute_concat in E. apply option_map_inv in E. destruct E as (z & Ez & ->). apply sequence_spec in Hl.
    assert (Q : forall i, In i l -> exists k, input n res k = Some i).
    { intros i I. apply (in_map Some) in I. rewrite <- Hl in I. apply in_map_iff in I. destruct I as (k & H & _). eauto. }
    split.
    - intros Ob e I. cbn in *. destruct (concat_in _ _ _ _ Ez I) as (t & It & Ie). apply in_map_iff in It. destruct It as (i & <- & Ii). destruct (Q i Ii) as [k Hk].
      apply (R _ _ Hk); auto. destruct (is_object i) eqn:Oi; auto. assert (X : existsb is_object l = true) by (apply existsb_exists; eauto). congruence.
    - cbn. intro O. apply existsb_exists in O. destruct O as (i & Ii & Oi). destruct (Q i Ii) as [k Hk]. eauto. }
  destruct (String.eqb (f_op n) "Const"); [|discriminate]. apply option_map_inv in E. destruct E as (t & _ & ->). split; [|discriminate].
  intros _ e I. cbn in I. apply in_map_iff in I. destruct I as (z & <- & _). eexists. reflexivity.
Qed.
End Node.
