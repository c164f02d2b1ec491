(** Proofs about the transpose optimizer, continued: constant multipliers, Concat, PRelu, inserted reshapes. *)
From Coq Require Import List Arith ZArith Bool Lia Permutation.
From Verif Require Import Util Tensor TensorProofs OnnxSpec FoldModel FoldProofs FoldFunProofs B2BProofs NNSpec NNModel PushSpec PushModel PushProofs PushProofs2 PushProofs3.
Import ListNotations.
Local Open Scope list_scope.
Local Open Scope nat_scope.

Lemma last_nth (l : list nat) : last l 0 = nth (length l - 1) l 0.
Proof. induction l as [|a [|b l] IH]; auto. change (last (a :: b :: l) 0) with (last (b :: l) 0). rewrite IH. cbn [length]. replace (S (S (length l)) - 1) with (S (length l)) by lia. cbn [nth]. now replace (S (length l) - 1) with (length l) by lia. Qed.
Lemma mul_shape_nth p n N k : is_perm p n -> k < n -> nth k (mul_new_shape p N) 0 = if Nat.eqb k (last p 0) then N else 1.
Proof.
  intros P K. unfold mul_new_shape. rewrite upd_nth, repeat_length, (pn p n P), nth_ones by auto. destruct (Nat.eqb_spec k (last p 0)); auto. subst. destruct (Nat.ltb_spec (last p 0) n); auto; lia.
Qed.
Lemma mul_shape_len p n N : is_perm p n -> length (mul_new_shape p N) = n.
Proof. intro P. unfold mul_new_shape. rewrite upd_len, repeat_length. apply (pn p n P). Qed.
Lemma mul_shape_pick p n N : is_perm p n -> 0 < n -> pick p (mul_new_shape p N) = repeat 1 (n - 1) ++ [N].
Proof.
  intros P H. apply list_nth_ext; [rewrite pick_length, app_length, repeat_length, (pn p n P); cbn; lia|]. intros k K. rewrite pick_length, (pn p n P) in K.
  rewrite (pick_at p n P) by auto. rewrite (mul_shape_nth p n) by (auto; now apply (p_lt p n)). rewrite last_nth, (pn p n P).
  destruct (Nat.eqb_spec (nth k p 0) (nth (n - 1) p 0)) as [E|E].
  - assert (k = n - 1). { apply (proj1 (NoDup_nth p 0) (is_perm_NoDup p n P)); auto; rewrite (pn p n P); lia. } subst. rewrite app_nth2, repeat_length, Nat.sub_diag by (rewrite repeat_length; lia). reflexivity.
  - assert (k <> n - 1) by congruence. rewrite app_nth1 by (rewrite repeat_length; lia). rewrite nth_ones by lia. reflexivity.
Qed.
Lemma filter_one (a : nat) l : NoDup l -> In a l -> filter (fun k => Nat.eqb k a) l = [a].
Proof.
  induction 1 as [|b l Hb N IH]; intros []; cbn.
  - subst. rewrite Nat.eqb_refl. f_equal. clear IH N. induction l as [|c l IH]; cbn; auto. destruct (Nat.eqb_spec c a); [subst; exfalso; apply Hb; cbn; auto|]. apply IH. intro. apply Hb. cbn; auto.
  - destruct (Nat.eqb_spec b a); [subst; contradiction|]. auto.
Qed.
Lemma carried_multiplier {A} p n (c : tensor A) m N : is_perm p n -> wf c -> shape c = repeat 1 m ++ [N] -> S m <= n -> carried p n c (Tensor (mul_new_shape p N) (data c)).
Proof.
  intros P W S L. assert (Lc : length (shape c) = m + 1) by (rewrite S, app_length, repeat_length; reflexivity).
  set (e := Tensor (repeat 1 (n - length (shape c)) ++ shape c) (data c)). set (c' := Tensor (mul_new_shape p N) (data c)).
  assert (E : expands n c e) by (split; auto; split; [lia|reflexivity]). assert (Se : shape e = pick p (mul_new_shape p N)).
  { cbn. rewrite (mul_shape_pick p n) by (auto; lia). rewrite S, app_assoc, <- repeat_app. f_equal. f_equal. rewrite app_length, repeat_length. cbn. lia. }
  assert (Lm := mul_shape_len p n N P). assert (Wc : wf c').
  { unfold wf, c'. cbn [shape data]. rewrite <- (reorder_size p n _ P Lm), <- Se. destruct (expands_facts n c e E) as (_ & We & _). unfold wf in We. rewrite <- We. reflexivity. }
  exists e, c'. split; auto. split; [now apply expands_same|]. apply (reorder_transpose p n c' e P Lm Wc).
  - assert (F : forall l, (forall k, In k l -> k < n) -> NoDup l -> In (last p 0) l -> filter (fun k => negb (Nat.eqb (nth k (shape c') 0) 1)) l = if Nat.eqb N 1 then [] else [last p 0]).
    { intros l B ND I. destruct (Nat.eqb_spec N 1) as [->|Ne].
      - rewrite (filter_ext_in _ (fun _ => false)). + clear. induction l; auto. + intros k K. cbn. rewrite (mul_shape_nth p n) by auto. now destruct (Nat.eqb k (last p 0)).
      - rewrite <- (filter_one (last p 0) l ND I). apply filter_ext_in. intros k K. cbn. rewrite (mul_shape_nth p n) by auto. destruct (Nat.eqb_spec k (last p 0)); [|reflexivity]. now destruct (Nat.eqb_spec N 1). }
    assert (Il : last p 0 < n) by (rewrite last_nth, (pn p n P); apply (p_lt p n P); lia).
    rewrite !F; auto; try (intros k K; try apply in_seq in K; try apply (is_perm_in p n P) in K; lia).
    + apply seq_NoDup. + apply in_seq. lia. + eapply is_perm_NoDup; eauto. + now apply (is_perm_in p n P).
  - unfold e, c' in *. cbn [shape data] in *. now rewrite Se.
Qed.
(** np.prod(shape) == shape[-1] *)
Lemma prod_last sh N : size (sh ++ [N]) = N -> 0 < N -> sh = repeat 1 (length sh).
Proof.
  rewrite size_app. change (size [N]) with (N * 1). intros E H. assert (S : size sh = 1) by nia. clear E H. induction sh as [|d sh IH]; auto. rewrite size_cons in S. cbn. assert (d = 1) by (apply Nat.eq_mul_1 in S; tauto). subst. f_equal. apply IH. lia.
Qed.

(** ** reshape in front of an input of smaller rank *)
Lemma expand_static {A} n s (x e : tensor A) : describes s (shape x) -> length s <= n -> ~ In 0%Z s -> length (filter (Z.eqb (-1)) s) <= 1 ->
  (reshape_rel false (expand_shape 1%Z n s) x e <-> expands n x e).
Proof.
  intros D L Z0 C. assert (Ls : length s = length (shape x)) by (exact (F2_len _ _ _ D)). unfold expand_shape. rewrite Ls.
  rewrite (reshape_known _ (repeat 1 (n - length (shape x)) ++ shape x) x e).
  - unfold expands. rewrite <- Ls. tauto.
  - unfold describes. apply Forall2_app; auto. clear. induction (n - length (shape x)); cbn; constructor; auto.
  - intro K. apply in_app_iff in K. destruct K as [K|K]; auto. apply repeat_spec in K. discriminate.
  - rewrite filter_app, app_length. assert (F : filter (Z.eqb (-1)) (repeat 1%Z (n - length (shape x))) = []) by (clear; induction (n - length (shape x)); cbn; auto). rewrite F. exact C.
  - rewrite size_app, size_ones. lia.
Qed.
(** the shape computed while the model runs: ones, then Shape *)
Lemma expand_dynamic {A} n (x e : tensor A) : length (shape x) <= n -> ~ In 0 (shape x) ->
  (reshape_rel false (repeat 1%Z (n - length (shape x)) ++ map Z.of_nat (shape x)) x e <-> expands n x e).
Proof.
  intros L Z0. assert (E := expand_static n (map Z.of_nat (shape x)) x e). unfold expand_shape in E. rewrite map_length in E. apply E; auto.
  - unfold describes. clear. induction (shape x); cbn; constructor; auto.
  - intro K. apply in_map_iff in K. destruct K as (d & E0 & K). apply Z0. replace 0 with d by lia. auto.
  - assert (F : filter (Z.eqb (-1)) (map Z.of_nat (shape x)) = []); [|rewrite F; cbn; lia]. clear. induction (shape x) as [|d l IH]; cbn -[Z.eqb]; auto. destruct (Z.eqb_spec (-1) (Z.of_nat d)); [lia|auto].
Qed.

(** ** PRelu *)
Lemma prelu_moves {A} (f : list A -> A) p n (t s x s' : tensor A) : is_perm p n -> length (shape t) = n -> length (shape x) = n -> carried p n t x -> carried p n s s' ->
  forall y, prelu_rel f t s y <-> exists u, prelu_rel f x s' u /\ transpose_rel p u y.
Proof.
  intros P Lt Lx Ct Cs y. assert (F : Forall2 (carried p n) [t; s] [x; s']) by auto. assert (Et : exists a, In a [t; s] /\ length (shape a) = n) by (exists t; cbn; auto).
  assert (Ex : exists a, In a [x; s'] /\ length (shape a) = n) by (exists x; cbn; auto). assert (M := nary_moves f p n [t; s] [x; s'] P F Et Ex y).
  assert (St : shape t = pick p (shape x)). { destruct Ct as (e & e' & (_ & _ & ->) & (_ & _ & ->) & (_ & _ & _ & S & _)). cbn in S. rewrite Lt, Lx, Nat.sub_diag in S. exact S. }
  unfold prelu_rel. split.
  - intros [H S]. apply M in H. destruct H as (u & H & U). exists u. split; auto. split; auto. destruct (tr_facts p n P u y U) as (Lu & Ly & _ & _ & Sy & _). apply (pick_inj p n P); auto. congruence.
  - intros (u & [H S] & U). split; [apply M; eauto|]. destruct (tr_facts p n P u y U) as (Lu & Ly & _ & _ & Sy & _). congruence.
Qed.

(** ** Concat *)
Lemma shift_len ax off : forall ix, length (shift ax off ix) = length ix.
Proof. induction ax as [|ax IH]; intros [|i ix]; cbn; auto. Qed.
Lemma shift_nth ax off : forall ix k, ax < length ix -> nth k (shift ax off ix) 0 = if Nat.eqb k ax then off + nth k ix 0 else nth k ix 0.
Proof. induction ax as [|ax IH]; intros [|i ix] [|k] H; cbn in *; try lia; auto. apply IH. lia. Qed.
Lemma pick_shift p n ax off ix : is_perm p n -> length ix = n -> ax < n -> pick p (shift (nth ax p 0) off ix) = shift ax off (pick p ix).
Proof.
  intros P L H. assert (Bp := p_lt p n P ax H). apply list_nth_ext; [now rewrite shift_len, !pick_length|]. intros k K. rewrite pick_length, (pn p n P) in K.
  rewrite (pick_at p n P) by auto. rewrite !shift_nth by (rewrite ?pick_length, ?(pn p n P); lia). rewrite (pick_at p n P) by auto.
  destruct (Nat.eqb_spec k ax); [subst; now rewrite Nat.eqb_refl|]. destruct (Nat.eqb_spec (nth k p 0) (nth ax p 0)); auto.
  exfalso. apply n0. apply (proj1 (NoDup_nth p 0) (is_perm_NoDup p n P)); auto; rewrite (pn p n P); lia.
Qed.
Lemma inb_pick p n ix sh : is_perm p n -> length sh = n -> length ix = n -> (inb (pick p ix) (pick p sh) <-> inb ix sh).
Proof.
  intros P L Li. rewrite <- (index_forth p n P sh ix L). tauto.
Qed.
Lemma parts_tr {A} p n ax (u y : tensor A) : is_perm p n -> ax < n -> transpose_rel p u y -> forall xs ts, Forall2 (transpose_rel p) xs ts ->
  forall off, parts_at ax off y ts <-> parts_at (nth ax p 0) off u xs.
Proof.
  intros P B U. destruct (tr_facts p n P u y U) as (Lu & Ly & Wu & Wy & Sy & Gy).
  induction 1 as [|x t xs ts T F IH]; intro off; cbn [parts_at].
  - rewrite Sy, (pick_at p n P) by auto. tauto.
  - destruct (tr_facts p n P x t T) as (Lx & Lt & Wx & Wt & S & G). rewrite IH, S, (pick_at p n P) by auto. apply and_iff_compat_r. unfold part_at. rewrite S. split.
    + intros H ix I. assert (Li : length ix = n) by (apply inb_length in I; congruence). destruct (H (pick p ix)) as [H1 H2]; [now apply (pick_inb p n)|].
      rewrite <- (pick_shift p n) in H1, H2 by auto. rewrite Sy, (inb_pick p n) in H1 by (rewrite ?shift_len; auto). split; auto. rewrite Gy, G in H2 by auto. exact H2.
    + intros H jx J. destruct (index_back p n P _ _ Lx J) as (ix & I & ->). assert (Li : length ix = n) by (apply inb_length in I; congruence). destruct (H ix I) as [H1 H2].
      rewrite <- (pick_shift p n) by auto. split; [rewrite Sy; now apply (pick_inb p n)|]. rewrite Gy, G by auto. exact H2.
Qed.
Lemma concat_tr {A} p n axis new xs ts (u y : tensor A) : is_perm p n -> moved_axis p axis = Some new -> Forall2 (transpose_rel p) xs ts -> transpose_rel p u y ->
  (concat_rel axis ts y <-> concat_rel (Z.of_nat new) xs u).
Proof.
  intros P M F U. destruct (tr_facts p n P u y U) as (Lu & Ly & Wu & Wy & Sy & Gy). apply (py_get_spec p n _ P) in M. destruct M as (ax & Nx & ->). assert (B := norm_axis_lt _ _ _ Nx). assert (B' := p_lt p n P ax B).
  assert (Ne : ts <> [] <-> xs <> []) by (inversion F; subst; split; intros K C; try discriminate; now apply K).
  assert (Sh : forall x t : tensor A, transpose_rel p x t -> (shape t = set_dim ax (nth ax (shape t) 0) (shape y) <-> shape x = set_dim (nth ax p 0) (nth (nth ax p 0) (shape x) 0) (shape u))).
  { intros x t T. destruct (tr_facts p n P x t T) as (Lx & Lt & Wx & Wt & S & G). rewrite S, Sy, (pick_at p n P), <- (pick_set_dim p n) by auto. split; [intro E; apply (pick_inj p n P); auto; now rewrite set_dim_len|congruence]. }
  assert (Pt := parts_tr p n ax u y P B U xs ts F 0).
  unfold concat_rel. rewrite Lu, Ly, Nx, norm_of_nat by auto. split.
  - intros (H0 & _ & ax' & E & H1 & H2). inversion E; subst ax'. split; [now apply Ne|]. split; auto. exists (nth ax p 0). split; auto. split; [|now apply Pt].
    intros x Hx. destruct (F2_In' _ _ _ F x Hx) as (t & Ht & T). destruct (tr_facts p n P x t T) as (Lx & Lt & Wx & Wt & S & G). split; auto. split; auto. apply (Sh x t T). now apply H1.
  - intros (H0 & _ & ax' & E & H1 & H2). inversion E; subst ax'. split; [now apply Ne|]. split; auto. exists ax. split; auto. split; [|now apply Pt].
    intros t Ht. destruct (F2_In _ _ _ F t Ht) as (x & Hx & T). destruct (tr_facts p n P x t T) as (Lx & Lt & Wx & Wt & S & G). split; auto. split; auto. apply (Sh x t T). now apply H1.
Qed.
Lemma concat_moves {A} p n axis new (xs ts : list (tensor A)) : is_perm p n -> moved_axis p axis = Some new -> Forall2 (transpose_rel p) xs ts ->
  forall y, concat_rel axis ts y <-> exists u, concat_rel (Z.of_nat new) xs u /\ transpose_rel p u y.
Proof.
  intros P M F y. split.
  - intro H. assert (K : wf y /\ length (shape y) = n).
    { destruct H as (Ne & W & ax & _ & H & _). split; auto. destruct ts as [|t ts]; [congruence|]. destruct (H t (or_introl eq_refl)) as (_ & E & _). rewrite <- E.
      destruct (F2_In _ _ _ F t (or_introl eq_refl)) as (x & _ & T). now destruct (tr_facts p n P x t T) as (Lx & Lt & _). }
    destruct (tr_back p n P y (proj1 K) (proj2 K)) as (u & U). exists u. split; auto. now apply (concat_tr p n axis new xs ts u y).
  - intros (u & H & U). now apply (concat_tr p n axis new xs ts u y).
Qed.
(** Split with one output *)
Lemma split_moves {A} p n axis new lens : is_perm p n -> moved_axis p axis = Some new ->
  moves p (fun x y : tensor A => split_rel axis lens x [y]) (fun x u => split_rel (Z.of_nat new) lens x [u] /\ length (shape x) = n) p.
Proof.
  intros P M. assert (M' := M). apply (py_get_spec p n _ P) in M'. destruct M' as (ax & Nx & ->). assert (B := norm_axis_lt _ _ _ Nx). assert (B' := p_lt p n P ax B).
  apply (moves_intro p p n n); auto.
  - intros x t u y T U. destruct (tr_facts p n P x t T) as (Lx & Lt & Wx & Wt & S & G). destruct (tr_facts p n P u y U) as (Lu & Ly & Wu & Wy & Sy & Gy).
    assert (C := concat_tr p n axis (nth ax p 0) [u] [y] x t P M (Forall2_cons _ _ U (Forall2_nil _)) T). unfold split_rel. rewrite Lx, Lt, Nx, norm_of_nat by auto. split.
    + intros (H & ax' & E & K). inversion E; subst ax'. split; [|reflexivity]. split; [now apply C|]. exists (nth ax p 0). split; auto.
      destruct lens as [l|]; [cbn in *; rewrite Sy, (pick_at p n P) in K by auto; exact K|]. intros z [<-|[]]. specialize (K y (or_introl eq_refl)). cbn [length] in *. rewrite Sy, S, !(pick_at p n P) in K by auto. exact K.
    + intros ((H & ax' & E & K) & _). inversion E; subst ax'. split; [now apply C|]. exists ax. split; auto.
      destruct lens as [l|]; [cbn in *; rewrite Sy, (pick_at p n P) by auto; exact K|]. intros z [<-|[]]. specialize (K u (or_introl eq_refl)). cbn [length] in *. rewrite Sy, S, !(pick_at p n P) by auto. exact K.
  - intros t y L ((_ & _ & ax' & _ & H & _) & _). destruct (H y (or_introl eq_refl)) as (W & E & _). split; auto. congruence.
  - intros x u (((_ & Wx & ax' & _ & H & _) & _) & L). destruct (H u (or_introl eq_refl)) as (W & E & _). repeat split; auto. congruence.
Qed.
(** two transposes that cancel *)
Lemma pair_cancels {A} p n (x t y : tensor A) : is_perm p n -> transpose_rel p x t -> transpose_rel (invert_perm p) t y -> y = x.
Proof. intros P T U. rewrite (invert_perm_spec p n P) in U. eapply transpose_fun; [exact U|]. now apply (tr_inv p n P). Qed.
