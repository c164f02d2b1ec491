(** Sum *)
From Coq Require Import List Arith ZArith Bool Lia.
From Verif Require Import Util Tensor TensorProofs OnnxSpec FoldModel FoldProofs NNSpec NNModel PushSpec PushModel PushProofs PushProofs2 PushProofs3.
Import ListNotations.
Local Open Scope list_scope.
(** what the inputs of the Sum are before *)
Definition sum_before {A} (store : nat -> tensor A) (i : sum_input A) (t : tensor A) : Prop :=
  match i with FromTranspose q x => transpose_rel q x t | FromConst c => t = store c | FromOther v => t = v end.
Definition const_ids {A} (l : list (sum_input A)) : list nat := flat_map (fun i => match i with FromConst c => [c] | _ => [] end) l.
Lemma sum_store_other {A} p : forall l (st st' : nat -> tensor A) c, sum_store p st l = Some st' -> ~ In c (const_ids l) -> st' c = st c.
Proof.
  induction l as [|i l IH]; cbn [sum_store const_ids flat_map]; intros st st' c H N; [now inversion H|]. rewrite in_app_iff in N. destruct i as [q x|d|v]; [apply (IH st st' c H); tauto| |apply (IH st st' c H); tauto].
  destruct (np_transpose (st d) _) as [v|]; [|discriminate]. rewrite (IH _ _ _ H) by tauto. destruct (Nat.eqb_spec c d); auto. subst. exfalso. apply N. left. now left.
Qed.
Lemma sum_store_const {A} p : forall l (st st' : nat -> tensor A), sum_store p st l = Some st' -> NoDup (const_ids l) ->
  forall c, In c (const_ids l) -> np_transpose (st c) (Some (untrans_idx p)) = Some (st' c).
Proof.
  induction l as [|i l IH]; cbn [sum_store const_ids flat_map]; intros st st' H N c Hc; [inversion Hc|]. destruct i as [q x|d|v]; [apply (IH st st' H); auto| |apply (IH st st' H); auto].
  destruct (np_transpose (st d) _) as [v|] eqn:E; [|discriminate]. cbn [app] in N, Hc. inversion N as [|? ? N1 N2]; subst. destruct Hc as [->|Hc].
  - rewrite (sum_store_other _ _ _ _ _ H N1). now rewrite Nat.eqb_refl.
  - rewrite <- (IH _ _ H N2 c Hc). destruct (Nat.eqb_spec c d); auto. subst. contradiction.
Qed.
Lemma sum_moves {A} (f : list A -> A) p n (st st' : nat -> tensor A) inputs ts x0 : is_perm p n -> (forall c, wf (st c)) ->
  sum_movable p st inputs = true -> NoDup (const_ids inputs) -> In (FromTranspose p x0) inputs ->
  Forall2 (sum_before st) inputs ts -> sum_store p st inputs = Some st' ->
  forall y, nary_rel f ts y <-> exists u, nary_rel f (sum_inputs st' inputs) u /\ transpose_rel p u y.
Proof.
  intros P Wf Mv ND Hx B S. assert (Cst := sum_store_const p inputs st st' S ND).
  assert (K : Forall2 (carried p n) ts (sum_inputs st' inputs)).
  { unfold sum_movable in Mv. rewrite forallb_forall in Mv.
    assert (Cst' : forall c, In (FromConst c) inputs -> np_transpose (st c) (Some (untrans_idx p)) = Some (st' c)).
    { intros c Hc. apply Cst. apply in_flat_map. exists (FromConst c). split; auto. now left. }
    clear Cst Hx ND S. unfold sum_inputs. induction B as [|i t l ts' Hi B IH]; cbn [map]; constructor.
    - assert (M := Mv i (or_introl eq_refl)). destruct i as [q x|c|v]; cbn [sum_before] in Hi; [| |discriminate].
      + apply list_eqb_spec in M. subst q. now apply carried_transpose.
      + subst t. apply Nat.eqb_eq in M. rewrite (pn p n P) in M. apply (carried_pair p n (st c) (st c)); auto.
        * apply expands_same; auto.
        * rewrite (invert_perm_spec p n P). assert (E := Cst' c (or_introl eq_refl)). apply np_transpose_spec in E; auto.
    - apply IH; intros; [apply Mv; now right|apply Cst'; now right]. }
  assert (Hx' : exists t, In t ts /\ sum_before st (FromTranspose p x0) t).
  { clear - B Hx. induction B as [|i t l ts' Hi B IH]; [inversion Hx|]. destruct Hx as [->|Hx]; [exists t; split; auto; now left|]. destruct (IH Hx) as (t' & H1 & H2). exists t'. split; auto. now right. }
  destruct Hx' as (t1 & Ht1 & Hb). cbn in Hb. destruct (tr_facts p n P x0 t1 Hb) as (Lx & Lt & _).
  apply nary_moves with (n := n); auto.
  - exists t1. auto.
  - exists x0. split; auto. unfold sum_inputs. apply (in_map (fun i => match i with FromTranspose _ x => x | FromConst c => st' c | FromOther v => v end) inputs (FromTranspose p x0) Hx).
Qed.
