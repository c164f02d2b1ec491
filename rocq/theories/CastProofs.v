From Coq Require Import ZArith QArith Lia Bool.
From Verif Require Import B2BModel CastSpec.
Local Open Scope Q_scope.

(** a table of lossless pairs *)
Definition bits (t : dtype) : option (bool * Z) :=  (* signed?, width *)
  match t with
  | TInt8 => Some (true, 7) | TInt16 => Some (true, 15) | TInt32 => Some (true, 31) | TInt64 => Some (true, 63)
  | TUint8 => Some (false, 8) | TUint16 => Some (false, 16) | TUint32 => Some (false, 32) | TUint64 => Some (false, 64)
  | TBool => Some (false, 1) | _ => None
  end%Z.
Definition prec (t : dtype) : option (Z * Z * Z) :=
  match t with
  | TFloat16 => Some (11, -24, 5) | TBFloat16 => Some (8, -133, 120) | TFloat => Some (24, -149, 104)
  | TDouble => Some (53, -1074, 971) | _ => None
  end%Z.
Definition lossless_pair (s t : dtype) : bool :=
  match bits s, prec s, bits t, prec t with
  | Some (sg, w), _, Some (sg', w'), _ => (w <=? w')%Z && (negb sg || sg')
  | Some (sg, w), _, _, Some (p, lo, hi) => (w + (if sg then 1 else 0) <=? p)%Z
  | _, Some (p, lo, hi), _, Some (p', lo', hi') => (p <=? p')%Z && (lo' <=? lo)%Z && (hi <=? hi')%Z
  | _, _, _, _ => false
  end.
Lemma bits_rep t sg w : bits t = Some (sg, w) -> forall v, rep t v <-> in_range (if sg then - 2 ^ w else 0) (2 ^ w) v.
Proof. destruct t; cbn; intro E; try discriminate; injection E as <- <-; intro v; cbn; tauto. Qed.
Lemma prec_rep t p lo hi : prec t = Some (p, lo, hi) -> forall v, rep t v <-> binary p lo hi v.
Proof. destruct t; cbn; intro E; try discriminate; injection E as <- <- <-; intro v; cbn; tauto. Qed.
Lemma lossless_pair_sound s t : lossless_pair s t = true -> lossless s t.
Proof.
  unfold lossless_pair, lossless. intros H v. destruct (bits s) as [[sg w]|] eqn:Bs.
  - rewrite (bits_rep _ _ _ Bs). assert (W : (0 <= w)%Z) by (destruct s; cbn in Bs; try discriminate; injection Bs as _ <-; lia).
    destruct (bits t) as [[sg' w']|] eqn:Bt.
    + rewrite (bits_rep _ _ _ Bt). assert (H0 : ((w <=? w')%Z && (negb sg || sg')) = true) by (destruct (prec s) as [[[? ?] ?]|]; exact H). clear H. rename H0 into H. apply andb_true_iff in H. destruct H as [H1 H2]. apply Z.leb_le in H1.
      intros (z & Ez & Lz). exists z. split; auto. assert (P := Z.pow_le_mono_r 2 w w' ltac:(lia) H1). destruct sg, sg'; cbn in H2; try discriminate; lia.
    + destruct (prec t) as [[[p lo] hi]|] eqn:Pt; [|destruct (prec s) as [[[? ?] ?]|]; discriminate]. rewrite (prec_rep _ _ _ _ Pt). assert (H0 : (w + (if sg then 1 else 0) <=? p)%Z = true) by (destruct (prec s) as [[[? ?] ?]|]; exact H). clear H. rename H0 into H. apply Z.leb_le in H.
      intros (z & Ez & Lz).
      assert (Lo : (lo <= 0 <= hi)%Z) by (destruct t; cbn in Pt; try discriminate; injection Pt as _ <- <-; lia).
      exists z, 0%Z. split; [rewrite Ez; unfold pow2; cbn; ring|]. split; [|exact Lo].
      assert (P : (2 ^ w <= 2 ^ p)%Z) by (apply Z.pow_le_mono_r; [lia|destruct sg; lia]).
      destruct sg; [|lia]. assert (P' : (2 ^ (w + 1) <= 2 ^ p)%Z) by (apply Z.pow_le_mono_r; lia). rewrite Z.pow_add_r in P' by lia. change (2 ^ 1)%Z with 2%Z in P'. assert (0 < 2 ^ w)%Z by (apply Z.pow_pos_nonneg; lia). lia.
  - destruct (prec s) as [[[p lo] hi]|] eqn:Ps; [|discriminate]. rewrite (prec_rep _ _ _ _ Ps).
    assert (H' : exists p' lo' hi', prec t = Some (p', lo', hi') /\ ((p <=? p') && (lo' <=? lo) && (hi <=? hi'))%Z = true).
    { destruct (bits t) as [[? ?]|], (prec t) as [[[p' lo'] hi']|]; try discriminate; eauto. }
    clear H. destruct H' as (p' & lo' & hi' & Pt & H). rewrite (prec_rep _ _ _ _ Pt). rewrite !andb_true_iff, !Z.leb_le in H.
    intros (m & e & Ev & Lm & Le). exists m, e. split; auto. assert (0 <= p)%Z by (destruct s; cbn in Ps; try discriminate; injection Ps as <- _ _; lia).
    assert (P := Z.pow_le_mono_r 2 p p' ltac:(lia) ltac:(lia)). split; lia.
Qed.
