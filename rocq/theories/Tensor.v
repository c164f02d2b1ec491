(** Tensors as a shape and row-major data, and how to read one element.  Used both by the models of the
    numpy calls in the code and by the specifications of ONNX operators. *)
From Coq Require Import List Arith Lia Bool.
Import ListNotations.
Local Open Scope list_scope.

Definition size (sh : list nat) : nat := fold_right Nat.mul 1 sh.
(** [ix] is a valid index into shape [sh] *)
Fixpoint inb (ix sh : list nat) : Prop :=
  match ix, sh with
  | [], [] => True
  | i :: ix', d :: sh' => i < d /\ inb ix' sh'
  | _, _ => False
  end.
(** position of an element in row-major order *)
Fixpoint ravel (sh ix : list nat) : nat :=
  match sh, ix with
  | _ :: sh', i :: ix' => i * size sh' + ravel sh' ix'
  | _, _ => 0
  end.
Fixpoint unravel (sh : list nat) (k : nat) : list nat :=
  match sh with
  | [] => []
  | _ :: sh' => k / size sh' :: unravel sh' (k mod size sh')
  end.

Record tensor (A : Type) := Tensor { shape : list nat; data : list A }.
Arguments Tensor {A}. Arguments shape {A}. Arguments data {A}.
Definition wf {A} (t : tensor A) : Prop := length (data t) = size (shape t).
(** the element at an index; [None] outside *)
Definition get {A} (t : tensor A) (ix : list nat) : option A :=
  nth_error (data t) (ravel (shape t) ix).

Definition from_fun {A} (sh : list nat) (f : list nat -> A) : tensor A :=
  Tensor sh (map (fun k => f (unravel sh k)) (seq 0 (size sh))).

(** ** facts *)
Lemma inb_length ix sh : inb ix sh -> length ix = length sh.
Proof. revert sh. induction ix as [|i ix IH]; intros [|d sh]; cbn; try tauto. intros [_ H]. f_equal. auto. Qed.
Lemma inb_size ix sh : inb ix sh -> 0 < size sh.
Proof.
  revert sh. induction ix as [|i ix IH]; intros [|d sh]; cbn; try tauto; [lia|]. intros [H K]. apply IH in K.
  unfold size in *. destruct d; lia.
Qed.
Lemma ravel_lt ix sh : inb ix sh -> ravel sh ix < size sh.
Proof.
  revert sh. induction ix as [|i ix IH]; intros [|d sh]; cbn [inb ravel]; try tauto; [cbn; lia|]. intros [H K]. apply IH in K.
  unfold size in *. cbn. nia.
Qed.
Lemma unravel_ravel ix sh : inb ix sh -> unravel sh (ravel sh ix) = ix.
Proof.
  revert sh. induction ix as [|i ix IH]; intros [|d sh]; cbn [inb ravel unravel]; try tauto. intros [H K].
  assert (L := ravel_lt ix sh K). assert (S := inb_size ix sh K). f_equal.
  - rewrite Nat.add_comm, Nat.div_add, Nat.div_small; lia.
  - rewrite Nat.add_comm, Nat.mod_add, Nat.mod_small by lia. auto.
Qed.
Lemma size_cons d sh : size (d :: sh) = d * size sh.
Proof. reflexivity. Qed.
Lemma unravel_inb sh : forall k, k < size sh -> inb (unravel sh k) sh.
Proof.
  induction sh as [|d sh IH]; intros k H; cbn [unravel inb]; auto. rewrite size_cons in H. assert (size sh <> 0) by nia. split.
  - apply Nat.div_lt_upper_bound; nia.
  - apply IH. apply Nat.mod_upper_bound. auto.
Qed.
Lemma ravel_unravel sh : forall k, k < size sh -> ravel sh (unravel sh k) = k.
Proof.
  induction sh as [|d sh IH]; intros k H; cbn [unravel ravel]; [cbn in H; lia|]. rewrite size_cons in H. assert (size sh <> 0) by nia.
  rewrite IH by (apply Nat.mod_upper_bound; auto). rewrite (Nat.div_mod k (size sh)) at 3 by auto. lia.
Qed.
Lemma ravel_inj sh ix jx : inb ix sh -> inb jx sh -> ravel sh ix = ravel sh jx -> ix = jx.
Proof. intros A B E. rewrite <- (unravel_ravel ix sh A), <- (unravel_ravel jx sh B), E. reflexivity. Qed.

Lemma from_fun_wf {A} sh (f : list nat -> A) : wf (from_fun sh f).
Proof. unfold wf, from_fun. cbn. now rewrite map_length, seq_length. Qed.
Lemma nth_error_map_seq {A} (f : nat -> A) n k : k < n -> nth_error (map f (seq 0 n)) k = Some (f k).
Proof.
  intro H. rewrite nth_error_map. assert (E : nth_error (seq 0 n) k = Some k); [|now rewrite E].
  rewrite (nth_error_nth' _ 0) by (now rewrite seq_length). rewrite seq_nth by auto. reflexivity.
Qed.
Lemma get_from_fun {A} sh (f : list nat -> A) ix : inb ix sh -> get (from_fun sh f) ix = Some (f ix).
Proof.
  intro H. unfold get, from_fun. cbn [shape data]. rewrite nth_error_map_seq by (now apply ravel_lt).
  now rewrite unravel_ravel.
Qed.
Lemma get_wf {A} (t : tensor A) ix : wf t -> inb ix (shape t) -> exists v, get t ix = Some v.
Proof.
  intros W H. unfold get. destruct (nth_error (data t) (ravel (shape t) ix)) as [v|] eqn:E; [eauto|].
  apply nth_error_None in E. unfold wf in W. assert (L := ravel_lt _ _ H). lia.
Qed.
Lemma nth_error_ext {A} (l l' : list A) : (forall k, nth_error l k = nth_error l' k) -> l = l'.
Proof.
  revert l'. induction l as [|x l IH]; intros [|y l'] H; auto; try (specialize (H 0); discriminate).
  assert (H0 := H 0). injection H0 as ->. f_equal. apply IH. intro k. exact (H (S k)).
Qed.
(** two tensors are equal when they have the same shape and the same elements *)
Lemma tensor_ext {A} (t u : tensor A) : wf t -> wf u -> shape t = shape u ->
  (forall ix, inb ix (shape t) -> get t ix = get u ix) -> t = u.
Proof.
  destruct t as [sh d], u as [sh' d']. unfold wf. cbn [shape data]. intros W W' <- H. f_equal.
  apply nth_error_ext. intro k. destruct (Nat.lt_ge_cases k (size sh)) as [L|L].
  - specialize (H (unravel sh k) (unravel_inb sh k L)). unfold get in H. cbn [shape data] in H. rewrite ravel_unravel in H; auto.
  - assert (N : nth_error d k = None) by (apply nth_error_None; lia). assert (N' : nth_error d' k = None) by (apply nth_error_None; lia). congruence.
Qed.
Lemma inb_nth ix sh : inb ix sh <-> length ix = length sh /\ forall k, k < length sh -> nth k ix 0 < nth k sh 0.
Proof.
  revert sh. induction ix as [|i ix IH]; intros [|d sh]; cbn [inb length].
  - split; auto. intros _. split; auto. intros k H. inversion H.
  - split; [tauto|intros [A _]; discriminate].
  - split; [tauto|intros [A _]; discriminate].
  - rewrite IH. split.
    + intros (A & B & C). split; [lia|]. intros [|k] H; cbn; auto. apply C. lia.
    + intros (A & B). split; [apply (B 0); lia|]. split; [lia|]. intros k H. apply (B (S k)). lia.
Qed.
Lemma inb_app ix jx sh th : length ix = length sh -> inb (ix ++ jx) (sh ++ th) <-> inb ix sh /\ inb jx th.
Proof.
  revert sh. induction ix as [|i ix IH]; intros [|d sh] L; cbn in *; try discriminate; [tauto|].
  rewrite IH by lia. tauto.
Qed.
Lemma size_app sh th : size (sh ++ th) = size sh * size th.
Proof. induction sh as [|d sh IH]; [cbn [app]; change (size []) with 1; lia|]. cbn [app]. rewrite !size_cons, IH. lia. Qed.
Lemma size_pos sh : 0 < size sh <-> Forall (fun d => 0 < d) sh.
Proof.
  induction sh as [|d sh IH]; cbn; [split; [constructor|lia]|]. change (fold_right Nat.mul 1 sh) with (size sh).
  split; intro H.
  - constructor; [nia|]. apply IH. nia.
  - inversion H; subst. apply IH in H3. nia.
Qed.
