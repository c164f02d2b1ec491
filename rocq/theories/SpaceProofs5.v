(** The paths through DepthToSpace and SpaceToDepth. *)
From Coq Require Import List Arith ZArith Bool Lia Permutation.
From Verif Require Import Tensor FoldModel OnnxSpec TensorProofs TOps TOpsProofs SpaceModel SpaceSpec SpaceProofs SpaceProofs2 SpaceProofs3 SpaceProofs4.
Import ListNotations.
Local Open Scope list_scope.

Ltac small_perm := apply incl_perm; [reflexivity|]; intros k Hk; do 4 (destruct k as [|k]; [cbn; tauto|]); lia.

Section Square.
Context {A : Type} (zero : A) (opset : nat) (x : tensor A) (b1 b2 : value A).
Hypothesis Wx : wf x.
Notation env := [D x; b1; b2].
Notation ev := (eval zero opset env).
Context (n h w : nat) (dp : list nat).
Hypothesis Sx : shape x = n :: [h; w] ++ dp.
Hypothesis Ldp : length dp = 0 \/ length dp = 1.
Let c := hd 1 dp.
Let xlen := 3 + length dp.
(** the indices into the remaining axes *)
Let rem_ix (k : nat) : list nat := if Nat.eqb (length dp) 0 then [] else [k].

Lemma dp_cases : (dp = [] /\ c = 1) \/ dp = [c].
Proof. unfold c. destruct dp as [|d [|d' l]]; cbn in *; auto. lia. Qed.

Lemma trans1_ok : exists t, ev (trans1 opset xlen) = Some (D t) /\ wf t /\ shape t = [c; n; h; w] /\
  forall k i u v, inb [k; i; u; v] [c; n; h; w] -> get t [k; i; u; v] = get x (i :: [u; v] ++ rem_ix k).
Proof.
  assert (E0 : ev (@input0 A) = Some (D x)) by reflexivity. unfold trans1, xlen, rem_ix.
  destruct dp_cases as [[D0 C0]|D0]; rewrite D0 in *; cbn [length Nat.add Nat.eqb]; cbn [app] in Sx.
  - rewrite C0 in *. set (u1 := Tensor [n; h; w; 1] (data x)).
    assert (Eu : ev (make_unsqueeze opset [3%Z] input0) = Some (D u1)). { rewrite (ev_unsqueeze _ _ _ _ _ _ E0). cbn [lift]. unfold f_unsqueeze. rewrite Sx. reflexivity. }
    assert (Wu : wf u1). { unfold wf, u1. cbn [shape data]. rewrite Wx, Sx, !size_cons. change (size []) with 1. lia. }
    destruct (transpose_spec [3; 0; 1; 2] u1 Wu) as (t & T1 & S1 & W1 & G1); [cbn; small_perm|].
    exists t. split; [rewrite (ev1 _ _ _ _ _ _ Eu); cbn [apply lift]; now rewrite T1|]. split; auto. split; [exact S1|].
    intros k i u v (Hk & Hi & Hu & Hv & _). change [k; i; u; v] with (pick [3; 0; 1; 2] [i; u; v; k]). rewrite G1 by (cbn; tauto).
    replace k with 0 by lia. unfold u1. apply reindex. rewrite Sx. cbn [ravel app]. rewrite !size_cons. change (size []) with 1. lia.
  - destruct (transpose_spec [0; 3; 1; 2] x Wx) as (t0 & T0 & S0 & W0 & G0); [rewrite Sx; cbn; small_perm|]. rewrite Sx in S0. cbn in S0.
    destruct (transpose_spec [1; 0; 2; 3] t0 W0) as (t & T1 & S1 & W1 & G1); [rewrite S0; cbn; small_perm|].
    exists t. split.
    + assert (Et : ev (Op (Transpose (Some [0; 3; 1; 2])) [input0]) = Some (D t0)) by (rewrite (ev1 _ _ _ _ _ _ E0); cbn [apply lift]; now rewrite T0).
      rewrite (ev1 _ _ _ _ _ _ Et). cbn [apply lift]. now rewrite T1.
    + split; auto. split; [rewrite S1, S0; reflexivity|]. intros k i u v (Hk & Hi & Hu & Hv & _).
      change [k; i; u; v] with (pick [1; 0; 2; 3] [i; k; u; v]). rewrite G1 by (rewrite S0; cbn; tauto).
      change [i; k; u; v] with (pick [0; 3; 1; 2] [i; u; v; k]). rewrite G0 by (rewrite Sx; cbn; tauto). reflexivity.
Qed.

Lemma trans_back_ok e z n' h' w' : ev e = Some (D z) -> wf z -> shape z = [c; n'; h'; w'] ->
  exists t, ev (trans_back opset xlen e) = Some (D t) /\ wf t /\ shape t = n' :: [h'; w'] ++ dp /\
  forall i u v q, inb (i :: [u; v] ++ q) (n' :: [h'; w'] ++ dp) -> get t (i :: [u; v] ++ q) = get z [hd 0 q; i; u; v] /\ hd 0 q < c /\ q = rem_ix (hd 0 q).
Proof.
  intros E Wz Sz. unfold trans_back, xlen, rem_ix. destruct dp_cases as [[D0 C0]|D0]; rewrite D0 in *; cbn [length Nat.add Nat.eqb].
  - rewrite C0 in *. destruct (transpose_spec [1; 2; 3; 0] z Wz) as (t & T1 & S1 & W1 & G1); [rewrite Sz; cbn; small_perm|]. rewrite Sz in S1. cbn in S1.
    exists (Tensor [n'; h'; w'] (data t)). split.
    + assert (Et : ev (Op (Transpose (Some [1; 2; 3; 0])) [e]) = Some (D t)) by (rewrite (ev1 _ _ _ _ _ _ E); cbn [apply lift]; now rewrite T1).
      rewrite (ev_squeeze _ _ _ _ _ _ Et). cbn [lift]. unfold f_squeeze. rewrite S1. reflexivity.
    + split; [unfold wf; cbn [shape data]; rewrite W1, S1, !size_cons; change (size []) with 1; lia|]. split; auto.
      intros i u v [|q0 q] Ix; cbn in Ix; [|tauto]. split; [|split; [cbn; lia|reflexivity]]. cbn [hd app].
      rewrite (reindex t _ _ (pick [1; 2; 3; 0] [0; i; u; v])). 2:{ rewrite S1. cbn [pick map nth ravel]. rewrite !size_cons. change (size []) with 1. lia. }
      apply G1. rewrite Sz. cbn. lia.
  - destruct (transpose_spec [1; 0; 2; 3] z Wz) as (t0 & T0 & S0 & W0 & G0); [rewrite Sz; cbn; small_perm|]. rewrite Sz in S0. cbn in S0.
    destruct (transpose_spec [0; 2; 3; 1] t0 W0) as (t & T1 & S1 & W1 & G1); [rewrite S0; cbn; small_perm|]. rewrite S0 in S1. cbn in S1.
    exists t. split.
    + assert (Et : ev (Op (Transpose (Some [1; 0; 2; 3])) [e]) = Some (D t0)) by (rewrite (ev1 _ _ _ _ _ _ E); cbn [apply lift]; now rewrite T0).
      rewrite (ev1 _ _ _ _ _ _ Et). cbn [apply lift]. now rewrite T1.
    + split; auto. split; auto. intros i u v [|q0 [|q1 q]] Ix; cbn in Ix; try tauto. destruct Ix as (Hi & Hu & Hv & Hq & _). cbn [hd app]. split; [|auto].
      change [i; u; v; q0] with (pick [0; 2; 3; 1] [i; q0; u; v]). rewrite G1 by (rewrite S0; cbn; tauto).
      change [i; q0; u; v] with (pick [1; 0; 2; 3] [q0; i; u; v]). rewrite G0 by (rewrite Sz; cbn; tauto). reflexivity.
Qed.
End Square.
