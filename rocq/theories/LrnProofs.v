(** What the graph of LrnModel computes. *)
From Coq Require Import Reals List Arith ZArith Bool Lia Lra.
From Verif Require Import Tensor FoldModel OnnxSpec FoldProofs TensorProofs TOps TOpsProofs RewValues BnSpec BnModel BnProofs LrnSpec LrnModel.
Import ListNotations.
Local Open Scope R_scope.
Local Open Scope list_scope.

Lemma filter_none {X} (f : X -> bool) l : (forall x, In x l -> f x = false) -> filter f l = [].
Proof. induction l as [|x l IH]; intro H; [reflexivity|]. cbn [filter]. rewrite (H x (or_introl eq_refl)). apply IH. intros y Y. apply H. now right. Qed.
Lemma filter_every {X} (f : X -> bool) l : (forall x, In x l -> f x = true) -> filter f l = l.
Proof. induction l as [|x l IH]; intro H; [reflexivity|]. cbn [filter]. rewrite (H x (or_introl eq_refl)). f_equal. apply IH. intros y Y. apply H. now right. Qed.
(** the window of the operator is that of TensorFlow *)
Lemma window C r c : (c < C)%nat -> seq (c - (r * 2 + 1 - 1) / 2) (S (Nat.min (C - 1) (c + (r * 2 + 1) / 2)) - (c - (r * 2 + 1 - 1) / 2)) = near C r c.
Proof.
  intro H. replace ((r * 2 + 1 - 1) / 2)%nat with r by (rewrite Nat.add_sub, Nat.div_mul; lia). replace ((r * 2 + 1) / 2)%nat with r.
  2:{ replace (r * 2 + 1)%nat with (1 + r * 2)%nat by lia. rewrite Nat.div_add by lia. reflexivity. }
  set (lo := (c - r)%nat). set (hi := Nat.min (C - 1) (c + r)). unfold near.
  replace (seq 0 C) with (seq 0 lo ++ seq lo (S hi - lo) ++ seq (S hi) (C - S hi)).
  2:{ replace (S hi) with (lo + (S hi - lo))%nat at 2 by lia. rewrite <- seq_app. change (seq lo) with (seq (0 + lo)). rewrite <- seq_app. f_equal. unfold lo, hi. lia. }
  rewrite !filter_app. rewrite (filter_none _ (seq 0 lo)), (filter_every _ (seq lo _)), (filter_none _ (seq (S hi) _)); [cbn [app]; now rewrite app_nil_r|..]; intros k K; apply in_seq in K; unfold lo, hi in K.
  - apply andb_false_iff. right. apply Nat.leb_gt. lia.
  - apply andb_true_iff. split; apply Nat.leb_le; lia.
  - apply andb_false_iff. left. apply Nat.leb_gt. lia.
Qed.
Lemma lrn_ok dr bi al be x n h w c : forall be0, shape x = [n; h; w; c] -> wf x -> default (3 / 4) be0 = be ->
  exists y, lrn (LrnAttrs dr bi (Some al) be0) x = Some y /\ tf_lrn (default 5%nat dr) (default 1 bi) al be x y.
Proof.
  intros be0 Sh W Eb. set (r := default 5%nat dr). destruct (holds_of true n c [h; w] x W Sh) as [X H].
  destruct (to_first n c [h; w] x X H) as (xt & E1 & (Wt & St & Gt)).
  set (F := fun b k i j => X b k [i; j] / Rpower (default 1 bi + al * squares (map (fun k => X b k [i; j]) (near c r k))) be).
  assert (Y : exists y, f_lrn (r * 2 + 1) (default 1 bi) (INR (r * 2 + 1) * al) be xt = Some y /\ Holds false n c [h; w] y (fun b k s => F b k (nth 0 s 0%nat) (nth 1 s 0%nat))).
  { unfold f_lrn. rewrite St. cbn [place].
    match goal with |- context [build ?sh ?f] => set (G := f) end.
    assert (A : forall b k s, (b < n)%nat -> (k < c)%nat -> inb s [h; w] -> G (b :: k :: s) = Some (F b k (nth 0 s 0%nat) (nth 1 s 0%nat))).
    { intros b k s Hb Hk Hs. unfold G. cbv zeta. rewrite window by exact Hk. assert (Gk := Gt b k s Hb Hk Hs). cbn [place] in Gk. rewrite Gk.
      assert (M : map (fun k0 => get xt (b :: k0 :: s)) (near c r k) = map Some (map (fun k0 => X b k0 s) (near c r k))).
      { rewrite map_map. apply map_ext_in. intros k0 K. unfold near in K. apply filter_In in K. destruct K as [K _]. apply in_seq in K. apply (Gt b k0 s); auto. lia. }
      rewrite M, sequence_map_some. assert (Es : s = [nth 0 s 0%nat; nth 1 s 0%nat]) by (destruct s as [|i [|j [|]]]; cbn in Hs; try tauto; reflexivity).
      unfold F. rewrite <- Es. do 4 f_equal. assert (INR (r * 2 + 1) <> 0) by (apply not_0_INR; lia). field. exact H0. }
    destruct (build_ex (n :: c :: [h; w]) G) as (y & E & Sy & Wy & Gy).
    { intros [|b [|k s]]; cbn [inb]; try tauto. intros (Hb & Hk & Hs). rewrite A by auto. discriminate. }
    exists y. split; [exact E|]. split; [exact Wy|]. split; [exact Sy|]. intros b k s Hb Hk Hs. cbn [place]. rewrite Gy by (cbn [inb]; auto). now apply A. }
  destruct Y as (y0 & E2 & H2). destruct (to_last n c [h; w] y0 _ H2) as (y & E3 & (Wy & Sy & Gy)).
  exists y. split.
  - unfold lrn, lrn_alpha, lrn_size. cbn [alpha bias beta depth_radius option_map obind]. fold r. change (channels_first 2) with (channels_first (length [h; w])). rewrite E1. cbn [obind]. rewrite Eb, E2. cbn [obind]. exact E3.
  - exists n, h, w, c. split; [exact Sh|]. split; [exact W|]. split; [exact Wy|]. split; [rewrite Sh; exact Sy|]. rewrite Sh. intros b i j k I. cbn in I. destruct I as (Hb & Hi & Hj & Hk & _).
    destruct H as (_ & _ & Gx). exists (X b k [i; j]), (map (fun k => X b k [i; j]) (near c r k)). split; [apply (Gx b k [i; j]); auto; cbn; auto|]. split.
    + assert (A : forall k0, In k0 (near c r k) -> get x [b; i; j; k0] = Some (X b k0 [i; j])).
      { intros k0 K. unfold near in K. apply filter_In in K. destruct K as [K _]. apply in_seq in K. apply (Gx b k0 [i; j]); auto; [lia|cbn; auto]. }
      induction (near c r k) as [|k0 l IH]; [constructor|]. cbn [map]. constructor; [apply A; now left|]. apply IH. intros; apply A; now right.
    + apply (Gy b k [i; j]); auto. cbn; auto.
Qed.
