(** Lemmas about permutations of axes, dropped axes and uniqueness of the operator specifications. *)
From Coq Require Import List Arith ZArith Lia Bool Permutation.
From Verif Require Import Tensor OnnxSpec FoldModel.
Import ListNotations.
Local Open Scope list_scope.

Lemma list_nth_ext (l l' : list nat) : length l = length l' -> (forall k, k < length l -> nth k l 0 = nth k l' 0) -> l = l'.
Proof. intros L H. apply (nth_ext l l' 0 0); auto. Qed.
Lemma pick_length p l : length (pick p l) = length p.
Proof. apply map_length. Qed.
Lemma pick_nth p l k : k < length p -> nth k (pick p l) 0 = nth (nth k p 0) l 0.
Proof. intro H. unfold pick. rewrite (nth_indep _ 0 (nth 0 l 0)) by (now rewrite map_length). exact (map_nth (fun i => nth i l 0) p 0 k). Qed.
Lemma is_perm_length p r : is_perm p r -> length p = r.
Proof. intro H. rewrite (Permutation_length H). apply seq_length. Qed.
Lemma is_perm_in p r : is_perm p r -> forall k, In k p <-> k < r.
Proof.
  intros H k. split; intro K.
  - apply (Permutation_in _ H) in K. apply in_seq in K. lia.
  - apply (Permutation_in _ (Permutation_sym H)). apply in_seq. lia.
Qed.
Lemma is_perm_nth p r k : is_perm p r -> k < r -> nth k p 0 < r.
Proof. intros H K. apply (is_perm_in p r H). apply nth_In. now rewrite (is_perm_length p r H). Qed.
Lemma is_perm_NoDup p r : is_perm p r -> NoDup p.
Proof. intro H. eapply Permutation_NoDup; [apply Permutation_sym; exact H|apply seq_NoDup]. Qed.
Lemma index_of_nth p k : In k p -> nth (index_of k p) p 0 = k /\ index_of k p < length p.
Proof.
  induction p as [|q p IH]; [intros []|]. cbn [index_of]. destruct (Nat.eqb_spec q k) as [->|N].
  - intros _. cbn. split; auto. lia.
  - intros [E|H]; [congruence|]. destruct (IH H) as [A B]. cbn. split; auto. lia.
Qed.
Lemma index_of_at p k : NoDup p -> k < length p -> index_of (nth k p 0) p = k.
Proof.
  intros N H. destruct (index_of_nth p (nth k p 0)) as [A B]; [now apply nth_In|].
  rewrite NoDup_nth in N. apply (N (index_of (nth k p 0) p) k); eauto.
Qed.
(** the inverse permutation *)
Definition inv_perm (p : list nat) : list nat := map (fun k => index_of k p) (seq 0 (length p)).
Lemma inv_perm_length p : length (inv_perm p) = length p.
Proof. unfold inv_perm. now rewrite map_length, seq_length. Qed.
Lemma inv_perm_nth p k : k < length p -> nth k (inv_perm p) 0 = index_of k p.
Proof.
  intro H. unfold inv_perm. rewrite (nth_indep _ 0 (index_of 0 p)) by (now rewrite map_length, seq_length).
  rewrite (map_nth (fun k => index_of k p) (seq 0 (length p)) 0 k). now rewrite seq_nth.
Qed.
Lemma pick_seq l : pick (seq 0 (length l)) l = l.
Proof.
  apply list_nth_ext; [rewrite pick_length, seq_length; auto|]. intros k H. rewrite pick_length, seq_length in H.
  rewrite pick_nth by (now rewrite seq_length). now rewrite seq_nth.
Qed.
Lemma pick_pick p q l : (forall k, In k p -> k < length q) -> pick p (pick q l) = pick (pick p q) l.
Proof.
  intro H. apply list_nth_ext; [now rewrite !pick_length|]. intros k K. rewrite pick_length in K.
  rewrite pick_nth by auto. rewrite pick_nth by (apply H; now apply nth_In).
  rewrite pick_nth by (now rewrite pick_length). now rewrite pick_nth.
Qed.
Lemma pick_inv p r l : is_perm p r -> length l = r -> pick (inv_perm p) (pick p l) = l.
Proof.
  intros H L. assert (Lp := is_perm_length _ _ H). apply list_nth_ext; [now rewrite pick_length, inv_perm_length, Lp|].
  intros k K. rewrite pick_length, inv_perm_length in K. rewrite pick_nth by (now rewrite inv_perm_length).
  rewrite inv_perm_nth by auto. destruct (index_of_nth p k) as [A B]; [apply (is_perm_in p r H); lia|].
  rewrite pick_nth by auto. now rewrite A.
Qed.
Lemma pick_inv' p r l : is_perm p r -> length l = r -> pick p (pick (inv_perm p) l) = l.
Proof.
  intros H L. assert (Lp := is_perm_length _ _ H). apply list_nth_ext; [rewrite pick_length; lia|].
  intros k K. rewrite pick_length in K. rewrite pick_nth by auto.
  assert (nth k p 0 < r) by (apply (is_perm_nth p r k H); lia).
  rewrite pick_nth by (rewrite inv_perm_length; lia). rewrite inv_perm_nth by lia. rewrite index_of_at; auto. eapply is_perm_NoDup; eauto.
Qed.
Lemma incl_perm p r : length p = r -> (forall k, k < r -> In k p) -> is_perm p r.
Proof.
  intros L H. unfold is_perm. apply Permutation_sym. apply NoDup_Permutation_bis; [apply seq_NoDup|rewrite seq_length; lia|].
  intros k K. apply in_seq in K. apply H. lia.
Qed.
Lemma inv_perm_perm p r : is_perm p r -> is_perm (inv_perm p) r.
Proof.
  intro H. assert (L := is_perm_length _ _ H). apply incl_perm; [now rewrite inv_perm_length|].
  intros k K. unfold inv_perm. apply in_map_iff. exists (nth k p 0). split.
  - apply index_of_at; [eapply is_perm_NoDup; eauto|lia].
  - apply in_seq. assert (Q := is_perm_nth p r k H K). lia.
Qed.
Lemma pick_perm p q r : is_perm p r -> is_perm q r -> is_perm (pick p q) r.
Proof.
  intros Hp Hq. apply incl_perm; [rewrite pick_length; now apply is_perm_length|]. intros k K.
  unfold pick. apply in_map_iff. exists (index_of k q). destruct (index_of_nth q k) as [A B]; [now apply (is_perm_in q r Hq)|].
  split; auto. apply (is_perm_in p r Hp). now rewrite <- (is_perm_length q r Hq).
Qed.
Lemma pick_inb p r ix sh : is_perm p r -> length sh = r -> inb ix sh -> inb (pick p ix) (pick p sh).
Proof.
  intros H L I. apply inb_nth. rewrite !pick_length. split; auto. intros k K. rewrite !pick_nth by auto.
  apply inb_nth in I. apply I. rewrite L. apply (is_perm_nth p r k H). now rewrite <- (is_perm_length p r H).
Qed.
Lemma pick_inb_inv p r jx sh : is_perm p r -> length sh = r -> inb jx (pick p sh) -> inb (pick (inv_perm p) jx) sh.
Proof.
  intros H L I. rewrite <- (pick_inv p r sh H L). apply (pick_inb (inv_perm p) r); [now apply inv_perm_perm|rewrite pick_length; now apply is_perm_length|exact I].
Qed.

(** the transposed tensor is determined *)
Lemma transpose_fun {A} p (x y z : tensor A) : transpose_rel p x y -> transpose_rel p x z -> y = z.
Proof.
  intros (P & Wx & Wy & Sy & Gy) (_ & _ & Wz & Sz & Gz). apply tensor_ext; auto; [congruence|].
  intros jx I. rewrite Sy in I. assert (I' := pick_inb_inv p _ jx (shape x) P eq_refl I).
  assert (L := inb_length _ _ I). rewrite pick_length, (is_perm_length _ _ P) in L.
  assert (E := pick_inv' p _ jx P L). rewrite <- E. rewrite Gy, Gz; auto.
Qed.
Lemma transpose_comp {A} p q (x y z : tensor A) : transpose_rel p x y -> transpose_rel q y z -> transpose_rel (pick q p) x z.
Proof.
  intros (P & Wx & Wy & Sy & Gy) (Q & _ & Wz & Sz & Gz).
  assert (Lp := is_perm_length _ _ P). assert (Lx : length (shape y) = length (shape x)) by (now rewrite Sy, pick_length).
  rewrite Lx in Q. assert (B : forall k, In k q -> k < length p).
  { intros k Hk. apply (is_perm_in q _ Q) in Hk. lia. }
  split; [now apply pick_perm|]. split; auto. split; auto. split; [now rewrite Sz, Sy, pick_pick|].
  intros ix I. rewrite <- pick_pick by auto. rewrite Gz.
  - now apply Gy.
  - rewrite Sy. eapply pick_inb; eauto.
Qed.
Lemma transpose_id {A} (x y : tensor A) : transpose_rel (seq 0 (length (shape x))) x y -> y = x.
Proof.
  intros (P & Wx & Wy & Sy & Gy). rewrite pick_seq in Sy. apply tensor_ext; auto. rewrite Sy. intros ix I.
  rewrite <- (Gy ix I). f_equal. assert (L := inb_length _ _ I). rewrite <- L. symmetry. apply pick_seq.
Qed.

(** ** built tensors *)
Lemma sequence_spec {A} (l : list (option A)) l' : sequence l = Some l' -> l = map Some l'.
Proof.
  revert l'. induction l as [|o l IH]; cbn [sequence]; intros l' H; [injection H as <-; reflexivity|].
  destruct o as [x|]; [|discriminate]. destruct (sequence l) as [xs|]; [|discriminate]. injection H as <-. cbn. f_equal. auto.
Qed.
Lemma build_spec {A} sh (f : list nat -> option A) t : build sh f = Some t ->
  shape t = sh /\ wf t /\ forall ix, inb ix sh -> get t ix = f ix.
Proof.
  unfold build. destruct (sequence _) as [d|] eqn:E; [|discriminate]. intro H. injection H as <-. apply sequence_spec in E.
  assert (L : length d = size sh) by (apply (f_equal (@length _)) in E; rewrite !map_length, seq_length in E; auto).
  split; auto. split; [exact L|]. intros ix I. unfold get. cbn [shape data]. assert (R := ravel_lt _ _ I).
  assert (Q : nth_error (map Some d) (ravel sh ix) = Some (f ix)).
  { rewrite <- E, nth_error_map_seq by auto. now rewrite unravel_ravel. }
  rewrite nth_error_map in Q. destruct (nth_error d (ravel sh ix)); [injection Q as <-; auto|discriminate].
Qed.
Lemma sequence_total {A} (l : list (option A)) : (forall o, In o l -> o <> None) -> exists l', sequence l = Some l'.
Proof.
  induction l as [|o l IH]; intro H; [now exists []|]. destruct IH as [l' E]; [intros; apply H; cbn; auto|].
  cbn [sequence]. rewrite E. destruct o as [x|]; [eauto|]. exfalso. apply (H None); cbn; auto.
Qed.
Lemma build_total {A} sh (f : list nat -> option A) : (forall ix, inb ix sh -> f ix <> None) -> exists t, build sh f = Some t.
Proof.
  intro H. unfold build. destruct (sequence_total (map (fun k => f (unravel sh k)) (seq 0 (size sh)))) as [l ->]; [|eauto].
  intros o Ho. apply in_map_iff in Ho. destruct Ho as (k & <- & Hk). apply in_seq in Hk. apply H. apply unravel_inb. lia.
Qed.
