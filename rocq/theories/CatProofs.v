(** Proofs about ConcatV2. *)
From Coq Require Import List Arith ZArith Lia Bool.
From Verif Require Import Tensor TensorProofs FoldModel OnnxSpec TOps TOpsProofs TOpsProofs2 CatSpec CatModel.
Import ListNotations.
Local Open Scope list_scope.

Section Cat.
Context {A : Type} (pre post : list nat).
Definition fits (i : input A) (d : nat) : Prop := wf (value i) /\ shape (value i) = pre ++ d :: post.
Definition dropped (i : input A) : bool := is_const i && Nat.eqb (size (shape (value i))) 0.
Lemma kept_dims (l : list (input A)) ds : Forall2 fits l ds -> Forall2 (fun i d => dropped i = true -> d = 0) l ds ->
  exists ks, Forall2 (fun (t : tensor A) d => wf t /\ shape t = pre ++ d :: post) (map value (filter (fun i => negb (dropped i)) l)) ks /\ total ks = sum ds /\
    forall c, part_of c (map value (filter (fun i => negb (dropped i)) l)) ks = part_of c (map value l) ds.
Proof.
  induction 1 as [|i d l ds F _ IH]; intro H; [exists []; repeat split; constructor|]. inversion H as [|? ? ? ? H1 H2]; subst. destruct (IH H2) as (ks & K & T & P).
  cbn [filter map]. destruct (dropped i) eqn:E; cbn [negb].
  - rewrite (H1 eq_refl). exists ks. split; [exact K|]. split; [exact T|]. intro c. cbn [part_of]. rewrite Nat.sub_0_r. apply P.
  - exists (d :: ks). cbn [map]. split; [constructor; [exact F|exact K]|]. split; [unfold total, sum in *; cbn [fold_right]; now rewrite T|]. intro c. cbn [part_of]. now rewrite P.
Qed.
Lemma part_at (ts : list (tensor A)) : forall ds k t c, nth_error ts k = Some t -> c < nth k ds 0 -> part_of (sum (firstn k ds) + c) ts ds = Some (t, c).
Proof.
  induction ts as [|t0 ts IH]; intros ds [|k] t c E H; cbn in E; try discriminate; destruct ds as [|d ds]; cbn [nth] in H; try lia.
  - injection E as ->. cbn [firstn part_of]. change (sum [] + c) with c. now rewrite (proj2 (Nat.ltb_lt c d)).
  - cbn [firstn part_of]. change (sum (d :: firstn k ds)) with (d + sum (firstn k ds)). rewrite (proj2 (Nat.ltb_ge _ d)) by lia. replace (d + sum (firstn k ds) + c - d) with (sum (firstn k ds) + c) by lia. now apply IH.
Qed.
Lemma sum_at : forall ds k c, c < nth k ds 0 -> sum (firstn k ds) + c < sum ds.
Proof.
  induction ds as [|d ds IH]; intros [|k] c H; cbn [nth] in H; try lia; cbn [firstn].
  - change (sum [] + c) with c. change (sum (d :: ds)) with (d + sum ds). lia.
  - change (sum (d :: firstn k ds)) with (d + sum (firstn k ds)). change (sum (d :: ds)) with (d + sum ds). specialize (IH k c H). lia.
Qed.
Lemma nth_fits (ts : list (tensor A)) ds k t : Forall2 (fun t d => wf t /\ shape t = pre ++ d :: post) ts ds -> nth_error ts k = Some t -> wf t /\ shape t = pre ++ nth k ds 0 :: post.
Proof. intro F. revert k. induction F as [|t0 d ts ds H _ IH]; intros [|k] E; cbn in E; try discriminate; [injection E as <-; exact H|now apply IH]. Qed.
Lemma first_rank_ok (l : list (input A)) r : (forall i n, In i l -> known_rank i = Some n -> n = r) -> first_rank l = None \/ first_rank l = Some r.
Proof.
  induction l as [|i l IH]; intro H; [now left|]. cbn [first_rank]. destruct (known_rank i) as [n|] eqn:E; [right; f_equal; apply (H i n); [now left|exact E]|]. apply IH. intros j n I. apply H. now right.
Qed.
End Cat.
