(** Proofs about ReverseSequence in DepthModel. *)
From Coq Require Import List Arith ZArith Bool Lia.
From Verif Require Import Tensor FoldModel OnnxSpec TensorProofs TOps TOpsProofs TOpsProofs2 SpaceProofs2 DepthModel DepthSpec.
Import ListNotations.
Local Open Scope list_scope.

Lemma set_dim_put : forall l k v, k < length l -> set_dim k v l = put k v l.
Proof.
  induction l as [|d l IH]; intros [|k] v Hk; cbn [length] in *; try lia; [reflexivity|]. cbn [set_dim]. rewrite IH by lia. reflexivity.
Qed.
Lemma direct_ok {A} s b lens (x y : tensor A) : s < 2 -> b < 2 -> tf_reverse_sequence s b lens x = Some y -> f_reverse_sequence s b lens x = Some y.
Proof.
  intros Hs Hb H. unfold tf_reverse_sequence in H. cbv zeta in H.
  destruct (_ && _) eqn:C in H; [|discriminate]. rewrite !andb_true_iff in C. destruct C as [[[[C1 C2] C3] C4] C5]. apply Nat.ltb_lt in C1, C2. assert (Ne := C3). apply negb_true_iff, Nat.eqb_neq in Ne.
  unfold f_reverse_sequence. cbv zeta. rewrite (proj2 (Nat.leb_le 2 (length (shape x)))) by lia. rewrite (proj2 (Nat.ltb_lt s 2)), (proj2 (Nat.ltb_lt b 2)) by auto.
  rewrite C3, C4. cbn [andb]. rewrite C5. destruct (build_spec _ _ _ H) as (Sy & Wy & Gy). apply build_is; auto. intros ix Hi. rewrite Gy by auto. f_equal.
  destruct (Nat.ltb _ _); auto. apply set_dim_put. now rewrite (inb_length _ _ Hi).
Qed.
(** the swap of the first two axes *)
Lemma swap_perm n : is_perm ([1; 0] ++ seq 2 n) (S (S n)).
Proof.
  apply incl_perm; [cbn [app length]; now rewrite seq_length|]. intros [|[|k]] Hk; [right; left; auto|left; auto|]. right. right. apply in_seq. lia.
Qed.
Lemma pick_swap a b (l : list nat) : pick ([1; 0] ++ seq 2 (length l)) (a :: b :: l) = b :: a :: l.
Proof.
  unfold pick. cbn [app map nth]. do 2 f_equal. transitivity (map (fun k => nth k l 0) (seq 0 (length l))).
  - rewrite <- (seq_shift _ 1), <- seq_shift, !map_map. apply map_ext. reflexivity.
  - apply (pick_seq l).
Qed.
Lemma swap_spec {T} (x : tensor T) a b rest : wf x -> shape x = a :: b :: rest ->
  exists u, f_transpose (Some ([1; 0] ++ seq 2 (length rest))) x = Some u /\ shape u = b :: a :: rest /\ wf u /\
    forall i j ix, inb (i :: j :: ix) (a :: b :: rest) -> get u (j :: i :: ix) = get x (i :: j :: ix).
Proof.
  intros W S1. destruct (transpose_spec ([1; 0] ++ seq 2 (length rest)) x W) as (u & E & Su & Wu & Gu); [rewrite S1; apply swap_perm|].
  exists u. split; auto. rewrite S1 in *. rewrite pick_swap in Su. split; auto. split; auto. intros i j ix Hi. rewrite <- (Gu _ Hi).
  assert (L := inb_length _ _ Hi). cbn [length] in L. replace (length rest) with (length ix) by lia. now rewrite pick_swap.
Qed.

(** what the graph of opset 8 computes *)
Definition by_scan {A} (perm : option (list nat)) (lens : list Z) (x z : tensor A) : Prop :=
  match perm with
  | None => scan8_reversed lens x z
  | Some p => exists u v, f_transpose (Some p) x = Some u /\ scan8_reversed lens u v /\ f_transpose (Some p) v = Some z
  end.
Section Scan.
Context {A : Type} (lens : list Z) (x y : tensor A).
Hypothesis (W : wf x).
(** the entries inside the sequences *)
Definition agree_inside (s b : nat) (z : tensor A) : Prop :=
  shape z = shape y /\ wf z /\ forall ix, inb ix (shape y) -> nth s ix 0 < Z.to_nat (nth (nth b ix 0) lens 0%Z) -> get z ix = get y ix.
Lemma scan_batch_major z : tf_reverse_sequence 1 0 lens x = Some y -> scan8_reversed lens x z -> agree_inside 1 0 z.
Proof.
  intros H (L & Sz & Wz & Gz). unfold tf_reverse_sequence in H. cbv zeta in H. destruct (_ && _) eqn:C in H; [|discriminate]. destruct (build_spec _ _ _ H) as (Sy & Wy & Gy).
  split; [congruence|]. split; auto. rewrite Sy. intros ix Hi Hn. rewrite Gy by auto. destruct ix as [|b [|i rest]]; cbn [nth] in *.
  - rewrite (proj2 (Nat.ltb_lt _ _) Hn). exfalso. destruct (shape x); [|destruct Hi]. rewrite !andb_true_iff in C. destruct C as [[[[C _] _] _] _]. discriminate.
  - exfalso. destruct (shape x) as [|? [|]]; cbn [inb] in Hi; try tauto. rewrite !andb_true_iff in C. destruct C as [[[[C _] _] _] _]. discriminate.
  - rewrite (proj2 (Nat.ltb_lt _ _) Hn). apply Gz; auto.
Qed.
Lemma scan_time_major z : tf_reverse_sequence 0 1 lens x = Some y -> by_scan (Some ([1; 0] ++ seq 2 (length (shape x) - 2))) lens x z -> agree_inside 0 1 z.
Proof.
  intros H (u & v & Eu & (L & Sv & Wv & Gv) & Ez). unfold tf_reverse_sequence in H. cbv zeta in H. destruct (_ && _) eqn:C in H; [|discriminate].
  rewrite !andb_true_iff in C. destruct C as [[[[C1 C2] C3] C4] C5]. apply Nat.ltb_lt in C1, C2. destruct (build_spec _ _ _ H) as (Sy & Wy & Gy).
  destruct (shape x) as [|t [|b rest]] eqn:Sx; cbn [length] in C1, C2; try lia. cbn [length] in *. replace (S (S (length rest)) - 2) with (length rest) in * by lia.
  destruct (swap_spec x t b rest W Sx) as (u' & Eu' & Su & Wu & Gu). assert (u' = u) by congruence. subst u'. rewrite Su in Sv.
  destruct (swap_spec v b t rest Wv Sv) as (z' & Ez' & Sz & Wz & Gz). assert (z' = z) by congruence. subst z'. split; [congruence|]. split; auto. rewrite Sy. intros ix Hi Hn. rewrite Gy by auto.
  destruct ix as [|i [|k ix]]; cbn [inb] in Hi; try tauto. cbn [nth] in *. rewrite (proj2 (Nat.ltb_lt _ _) Hn). destruct Hi as (H1 & H2 & H3).
  rewrite Gz by (cbn [inb]; auto). rewrite Su in Gv. rewrite Gv; [|cbn [inb]; auto|auto].
  assert (Z.to_nat (nth k lens 0%Z) <= t).
  { rewrite forallb_forall in C5. assert (In (nth k lens 0%Z) lens) by (apply nth_In; apply Nat.eqb_eq in C4; cbn [nth] in C4; lia). specialize (C5 _ H0). apply andb_true_iff in C5. destruct C5 as [D1 D2]. apply Z.leb_le in D1, D2. cbn [nth] in D2. lia. }
  rewrite Gu by (cbn [inb]; repeat split; auto; lia). reflexivity.
Qed.
Lemma inside_all s b z : agree_inside s b z -> wf y -> b < length (shape y) -> s < length (shape y) -> length lens = nth b (shape y) 0 -> (forall l, In l lens -> Z.to_nat l = nth s (shape y) 0) -> z = y.
Proof.
  intros (S1 & W1 & G1) Wy Hb Hs L Hl. apply tensor_ext; auto. intros ix Hi. rewrite S1 in Hi. apply G1; auto.
  assert (Q : forall sh ix k, inb ix sh -> k < length sh -> nth k ix 0 < nth k sh 0).
  { induction sh as [|d sh IH]; intros [|i jx] [|k] Hj Hk; cbn [inb length nth] in *; try lia; try tauto. apply IH; [tauto|lia]. }
  rewrite Hl; [now apply Q|]. apply nth_In. rewrite L. now apply Q.
Qed.
End Scan.
