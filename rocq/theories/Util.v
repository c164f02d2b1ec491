(** General list lemmas (no model content). *)
From Coq Require Import List Lia.
Import ListNotations.

Lemma Forall2_length {A B} (R : A -> B -> Prop) l1 l2 : Forall2 R l1 l2 -> length l1 = length l2.
Proof. induction 1; simpl; congruence. Qed.
Arguments Forall2_length {A B R l1 l2}.

Lemma nth_error_firstn {A} (l : list A) i a : (i < a)%nat -> nth_error (firstn a l) i = nth_error l i.
Proof.
  revert i a. induction l as [|x l IH]; intros [|i] [|a] H; simpl; auto; try lia.
  apply IH. lia.
Qed.
Lemma nth_error_skipn {A} (l : list A) i a : nth_error (skipn a l) i = nth_error l (a + i).
Proof.
  revert l. induction a as [|a IH]; intro l; simpl; auto.
  destruct l; simpl; auto. destruct i; auto.
Qed.

