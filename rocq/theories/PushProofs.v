From Coq Require Import List Arith ZArith Lia Bool Permutation.
From Verif Require Import Tensor OnnxSpec TensorProofs FoldModel FoldProofs B2BProofs NNSpec NNModel PushSpec PushModel.
Import ListNotations.
Local Open Scope list_scope.

(** ** transposes as bijections *)
Section Perm.
Variables (p : list nat) (n : nat).
Hypothesis P : is_perm p n.
Notation q := (inv_perm p).
Lemma pn : length p = n. Proof. now apply is_perm_length. Qed.
Lemma p_lt k : k < n -> nth k p 0 < n. Proof. now apply is_perm_nth. Qed.
Lemma q_lt k : k < n -> nth k q 0 < n. Proof. apply is_perm_nth. now apply inv_perm_perm. Qed.
Lemma pq k : k < n -> nth (nth k q 0) p 0 = k.
Proof. intro H. rewrite inv_perm_nth by (now rewrite pn). apply index_of_nth. now apply (is_perm_in p n P). Qed.
Lemma qp k : k < n -> nth (nth k p 0) q 0 = k.
Proof. intro H. rewrite inv_perm_nth by (rewrite pn; now apply p_lt). apply index_of_at; [eapply is_perm_NoDup; eauto|now rewrite pn]. Qed.
Lemma pick_at l k : k < n -> nth k (pick p l) 0 = nth (nth k p 0) l 0. Proof. intro. apply pick_nth. now rewrite pn. Qed.
Lemma pick_at' l k : k < n -> nth (nth k q 0) (pick p l) 0 = nth k l 0. Proof. intro H. rewrite pick_at by (now apply q_lt). now rewrite pq. Qed.
Lemma pick_len l : length (pick p l) = n. Proof. rewrite pick_length. apply pn. Qed.
(** every index of the transposed tensor is the image of an index *)
Lemma index_back sh jx : length sh = n -> inb jx (pick p sh) -> exists ix, inb ix sh /\ jx = pick p ix.
Proof.
  intros L I. exists (pick q jx). split; [eapply pick_inb_inv; eauto|]. symmetry. eapply pick_inv'; eauto. apply inb_length in I. now rewrite I, pick_len.
Qed.
Lemma index_forth sh ix : length sh = n -> (inb (pick p ix) (pick p sh) /\ length ix = n) <-> inb ix sh.
Proof.
  intros L. split.
  - intros [I Li]. rewrite <- (pick_inv p n ix P Li). eapply pick_inb_inv; eauto.
  - intro I. split; [eapply pick_inb; eauto|]. apply inb_length in I. congruence.
Qed.
Lemma pick_inj ix jx : length ix = n -> length jx = n -> pick p ix = pick p jx -> ix = jx.
Proof. intros Li Lj E. rewrite <- (pick_inv p n ix P Li), <- (pick_inv p n jx P Lj). now rewrite E. Qed.
Lemma forall_axes (Q : nat -> Prop) : (forall k, k < n -> Q k) <-> (forall k, k < n -> Q (nth k p 0)).
Proof. split; intros H k K; [apply H, p_lt, K|]. rewrite <- (pq k K). apply H, q_lt, K. Qed.
Lemma forall_axes' (Q : nat -> Prop) : (forall k, k < n -> Q k) <-> (forall k, k < n -> Q (nth k q 0)).
Proof. split; intros H k K; [apply H, q_lt, K|]. rewrite <- (qp k K). apply H, p_lt, K. Qed.
Context {A : Type}.
Lemma tr_facts (x t : tensor A) : transpose_rel p x t -> length (shape x) = n /\ length (shape t) = n /\ wf x /\ wf t /\ shape t = pick p (shape x) /\
  (forall ix, inb ix (shape x) -> get t (pick p ix) = get x ix).
Proof.
  intros (Q & Wx & Wt & S & G). assert (L : length (shape x) = n) by (rewrite <- (is_perm_length _ _ Q); apply pn).
  split; auto. split; [rewrite S; apply pick_len|auto].
Qed.
Lemma tr_intro (x t : tensor A) : length (shape x) = n -> wf x -> wf t -> shape t = pick p (shape x) -> (forall ix, inb ix (shape x) -> get t (pick p ix) = get x ix) -> transpose_rel p x t.
Proof. intros L Wx Wt S G. unfold transpose_rel. rewrite L. auto. Qed.
Lemma tr_exists (x : tensor A) : wf x -> length (shape x) = n -> exists t, transpose_rel p x t.
Proof. intros W L. apply transpose_exists; auto. now rewrite L. Qed.
Lemma tr_back (y : tensor A) : wf y -> length (shape y) = n -> exists u, transpose_rel p u y.
Proof.
  intros W L. destruct (transpose_exists q y W) as (u & Hu); [rewrite L; now apply inv_perm_perm|]. exists u.
  assert (Lu := transpose_shape_len _ _ _ Hu). destruct (tr_exists u) as (y' & Hy); [apply Hu|congruence|].
  assert (C := transpose_comp _ _ _ _ _ Hu Hy). assert (E : pick p q = seq 0 (length (shape y))).
  { apply list_nth_ext; [now rewrite pick_len, seq_length, L|]. intros k K. rewrite pick_len in K. rewrite pick_at, qp by auto. rewrite seq_nth; lia. }
  rewrite E in C. apply transpose_id in C. now subst y'.
Qed.
Lemma tr_inv (x t : tensor A) : transpose_rel p x t -> transpose_rel q t x.
Proof.
  intro T. destruct (tr_facts x t T) as (Lx & Lt & Wx & Wt & S & G). unfold transpose_rel. rewrite Lt. split; [now apply inv_perm_perm|].
  split; auto. split; auto. split; [rewrite S; symmetry; now apply (pick_inv p n)|]. intros jx I. rewrite S in I. destruct (index_back _ _ Lx I) as (ix & Ii & ->).
  rewrite (pick_inv p n); auto; [symmetry; auto|]. apply inb_length in Ii. congruence.
Qed.
End Perm.
Lemma tr_wf_inj {A} p (x x' t : tensor A) : transpose_rel p x t -> transpose_rel p x' t -> x = x'.
Proof.
  intros T T'. assert (Lx := transpose_shape_len _ _ _ T). assert (Lx' := transpose_shape_len _ _ _ T'). assert (P := proj1 T).
  assert (P' : is_perm p (length (shape x'))) by apply T'.
  eapply transpose_fun; [eapply tr_inv; [exact P|exact T]|eapply tr_inv; [exact P'|exact T']].
Qed.

(** the general scheme *)
Lemma moves_intro {A B} p q n m (F : tensor A -> tensor B -> Prop) G : is_perm p n -> is_perm q m ->
  (forall x t u y, transpose_rel p x t -> transpose_rel q u y -> (F t y <-> G x u)) ->
  (forall t y, length (shape t) = n -> F t y -> wf y /\ length (shape y) = m) ->
  (forall x u, G x u -> wf x /\ wf u /\ length (shape x) = n /\ length (shape u) = m) -> moves p F G q.
Proof.
  intros P Q E Fo Go x y. split.
  - intros (t & T & H). destruct (tr_facts p n P x t T) as (Lx & Lt & Wx & Wt & S & _). destruct (Fo t y Lt H) as [Wy Ly].
    destruct (tr_back q m Q y Wy Ly) as (u & U). exists u. split; auto. now apply (E x t u y T U).
  - intros (u & H & U). destruct (Go x u H) as (Wx & Wu & Lx & Lu). destruct (tr_exists p n P x Wx Lx) as (t & T). exists t. split; auto.
    now apply (E x t u y T U).
Qed.

(** ** elementwise *)
Lemma map_moves {A B} (f : A -> B) p n : is_perm p n -> moves p (map_rel f) (fun x u => map_rel f x u /\ length (shape x) = n) p.
Proof.
  intro P. apply (moves_intro p p n n); auto.
  - intros x t u y T U. destruct (tr_facts p n P x t T) as (Lx & Lt & Wx & Wt & S & G). destruct (tr_facts p n P u y U) as (Lu & Ly & Wu & Wy & Sy & Gy).
    unfold map_rel. split.
    + intros (_ & _ & E & H). assert (E' : shape u = shape x) by (apply (pick_inj p n P); congruence). split; auto. split; auto. split; auto. split; auto.
      intros ix I. rewrite <- Gy by (now rewrite E'). rewrite <- G by auto. apply H. rewrite S. now apply (pick_inb p n).
    + intros ((_ & _ & E & H) & _). do 2 (split; auto). split; [congruence|]. intros jx I. rewrite S in I. destruct (index_back p n P _ _ Lx I) as (ix & Ii & ->).
      rewrite Gy by (now rewrite E). rewrite G by auto. auto.
  - intros t y L (_ & W & S & _). split; auto. congruence.
  - intros x u ((Wx & Wu & S & _) & L). repeat split; auto. congruence.
Qed.

(** ** operators that place elements axis by axis *)
Lemma placed_tr {A} p n (Q Q' : nat -> nat -> nat -> Prop) (x t u y : tensor A) : is_perm p n -> transpose_rel p x t -> transpose_rel p u y ->
  (forall k i j, k < n -> (Q k i j <-> Q' (nth k p 0) i j)) -> (placed Q t y <-> placed Q' x u).
Proof.
  intros P T U E. destruct (tr_facts p n P x t T) as (Lx & Lt & Wx & Wt & S & G). destruct (tr_facts p n P u y U) as (Lu & Ly & Wu & Wy & Sy & Gy).
  unfold placed. split; intros H ix jx I J K.
  - rewrite <- Gy, <- G by auto. apply H.
    + rewrite Sy. now apply (pick_inb p n).
    + rewrite S. now apply (pick_inb p n).
    + rewrite Lt. intros k Hk. apply E; auto. rewrite !(pick_at p n P) by auto. apply K. rewrite Lx. now apply (p_lt p n).
  - rewrite Sy in I. rewrite S in J. destruct (index_back p n P _ _ Lu I) as (ix' & I' & ->). destruct (index_back p n P _ _ Lx J) as (jx' & J' & ->).
    rewrite Gy, G by auto. apply H; auto. rewrite Lx. apply (forall_axes p n P). intros k Hk. rewrite Lt in K. specialize (K k Hk). rewrite !(pick_at p n P) in K by auto. now apply E.
Qed.
Lemma permute_list {B} (d : B) p n (l : list B) k : is_perm p n -> k < n -> nth (nth k p 0) (map (fun i => nth i l d) (inv_perm p)) d = nth k l d.
Proof.
  intros P K. assert (H : nth k p 0 < length (inv_perm p)) by (rewrite inv_perm_length, (pn p n P); now apply (p_lt p n)).
  rewrite (nth_indep _ d (nth 0 l d)) by (now rewrite map_length). rewrite (map_nth (fun i => nth i l d) (inv_perm p) 0). now rewrite (qp p n).
Qed.
(** invert_perm is the inverse *)
Lemma upd_nth {A} (d : A) k v l i : nth i (upd k v l) d = if Nat.eqb i k then (if Nat.ltb k (length l) then v else nth i l d) else nth i l d.
Proof.
  revert k i. induction l as [|a l IH]; intros [|k] [|i]; cbn [upd nth length]; auto.
  - destruct (Nat.eqb (S i) (S k)); auto.
  - rewrite IH. cbn [Nat.eqb]. reflexivity.
Qed.
Lemma upd_len {A} k (v : A) l : length (upd k v l) = length l.
Proof. revert k. induction l as [|a l IH]; intros [|k]; cbn; auto. Qed.
Lemma invert_perm_fold l : forall s acc, NoDup l -> (forall i, In i l -> i < length acc) ->
  length (fold_left (fun inv ik => upd (snd ik) (fst ik) inv) (combine (seq s (length l)) l) acc) = length acc /\
  forall k, nth k (fold_left (fun inv ik => upd (snd ik) (fst ik) inv) (combine (seq s (length l)) l) acc) 0 =
    if existsb (Nat.eqb k) l then s + index_of k l else nth k acc 0.
Proof.
  induction l as [|i l IH]; intros s acc N B; cbn [length seq combine fold_left]; [split; auto|]. apply NoDup_cons_iff in N. destruct N as [Ni N].
  destruct (IH (S s) (upd i s acc) N) as [L K]. { intros j Hj. rewrite upd_len. apply B. cbn. auto. }
  cbn [fst snd]. split; [now rewrite L, upd_len|]. intro k. rewrite K. cbn [existsb index_of]. rewrite (Nat.eqb_sym i k). destruct (Nat.eqb_spec k i) as [->|Nk].
  - cbn [orb]. destruct (existsb (Nat.eqb i) l) eqn:X. { exfalso. apply existsb_exists in X. destruct X as (z & Hz & E). apply Nat.eqb_eq in E. subst. contradiction. }
    rewrite upd_nth, Nat.eqb_refl. destruct (Nat.ltb_spec i (length acc)) as [_|C]; [lia|]. exfalso. specialize (B i (or_introl eq_refl)). lia.
  - cbn [orb]. destruct (existsb (Nat.eqb k) l); [lia|]. rewrite upd_nth. destruct (Nat.eqb_spec k i); congruence.
Qed.
Lemma invert_perm_spec p n : is_perm p n -> invert_perm p = inv_perm p.
Proof.
  intro P. assert (L := pn p n P). destruct (invert_perm_fold p 0 (repeat 0 (length p)) (is_perm_NoDup p n P)) as [A B].
  { intros i Hi. rewrite repeat_length, L. now apply (is_perm_in p n P). }
  unfold invert_perm. apply list_nth_ext. { rewrite A, repeat_length, inv_perm_length. reflexivity. }
  intros k K. rewrite A, repeat_length, L in K. rewrite B, inv_perm_nth by lia. replace (existsb (Nat.eqb k) p) with true; auto.
  symmetry. apply existsb_exists. exists k. split; [now apply (is_perm_in p n P)|apply Nat.eqb_refl].
Qed.

(** ** Pad *)
Lemma pads_first p n pads k : is_perm p n -> k < n -> nth (nth k p 0) (permute_pads p pads) 0%Z = nth k pads 0%Z.
Proof.
  intros P K. unfold permute_pads. rewrite (invert_perm_spec p n P), app_nth1 by (rewrite map_length, inv_perm_length, (pn p n P); now apply (p_lt p n)).
  now apply (permute_list 0%Z p n).
Qed.
Lemma pads_second p n pads k : is_perm p n -> k < n -> nth (n + nth k p 0) (permute_pads p pads) 0%Z = nth (n + k) pads 0%Z.
Proof.
  intros P K. unfold permute_pads. rewrite (invert_perm_spec p n P), app_nth2; rewrite map_length, inv_perm_length, (pn p n P); [|lia].
  replace (n + nth k p 0 - n) with (nth k p 0) by lia. assert (H : nth k p 0 < length (inv_perm p)) by (rewrite inv_perm_length, (pn p n P); now apply (p_lt p n)).
  rewrite (nth_indep _ 0%Z (nth (0 + n) pads 0%Z)) by (now rewrite map_length). rewrite (map_nth (fun i => nth (i + n) pads 0%Z) (inv_perm p) 0). rewrite (qp p n) by auto. f_equal. lia.
Qed.
Lemma pad_moves {A} m p n pads (c : A) : is_perm p n -> length pads = 2 * n ->
  moves p (pad_rel m pads c) (fun x u => pad_rel m (permute_pads p pads) c x u /\ length (shape x) = n) p.
Proof.
  intros P Lp. apply (moves_intro p p n n); auto.
  - intros x t u y T U. destruct (tr_facts p n P x t T) as (Lx & Lt & Wx & Wt & S & G). destruct (tr_facts p n P u y U) as (Lu & Ly & Wu & Wy & Sy & Gy).
    assert (Lpp : length (permute_pads p pads) = 2 * n).
    { unfold permute_pads. rewrite (invert_perm_spec p n P), app_length, !map_length, inv_perm_length, (pn p n P). lia. }
    assert (E : forall k i j, k < n -> (pad_shows m (nth k (shape t) 0) (Z.of_nat i - nth k pads 0%Z) j <->
                                        pad_shows m (nth (nth k p 0) (shape x) 0) (Z.of_nat i - nth (nth k p 0) (permute_pads p pads) 0%Z) j)).
    { intros k i j K. rewrite S, (pick_at p n P), (pads_first p n) by auto. tauto. }
    assert (D : (forall k, k < n -> Z.of_nat (nth k (shape y) 0%nat) = (nth k pads 0%Z + Z.of_nat (nth k (shape t) 0%nat) + nth (n + k) pads 0%Z)%Z) <->
                (forall k, k < n -> Z.of_nat (nth k (shape u) 0%nat) = (nth k (permute_pads p pads) 0%Z + Z.of_nat (nth k (shape x) 0%nat) + nth (n + k) (permute_pads p pads) 0%Z)%Z)).
    { rewrite (forall_axes p n P (fun k => Z.of_nat (nth k (shape u) 0%nat) = _)). split; intros H k K; specialize (H k K).
      - rewrite (pads_first p n), (pads_second p n) by auto. rewrite Sy, S, !(pick_at p n P) in H by auto. exact H.
      - rewrite (pads_first p n), (pads_second p n) in H by auto. rewrite Sy, S, !(pick_at p n P) by auto. exact H. }
    unfold pad_rel. rewrite Lx, Lt, Lu, Ly. rewrite D.
    rewrite (placed_tr p n _ (fun k i j => pad_shows m (nth k (shape x) 0) (Z.of_nat i - nth k (permute_pads p pads) 0%Z) j) x t u y P T U E).
    split.
    + intros (_ & _ & _ & _ & H1 & H2 & H3). split; [|reflexivity]. do 6 (split; [auto; fail|]). intros ix I No. rewrite <- Gy by auto. apply H3; [rewrite Sy; now apply (pick_inb p n)|].
      intros jx J K. rewrite S in J. destruct (index_back p n P _ _ Lx J) as (jx' & J' & ->). apply (No jx' J'). apply (forall_axes p n P). intros k Hk.
      specialize (K k Hk). rewrite !(pick_at p n P) in K by auto. now apply E.
    + intros ((_ & _ & _ & _ & H1 & H2 & H3) & _). do 6 (split; [auto|]). intros ix I No. rewrite Sy in I. destruct (index_back p n P _ _ Lu I) as (ix' & I' & ->).
      rewrite Gy by auto. apply H3; auto. intros jx J K. apply (No (pick p jx)); [rewrite S; now apply (pick_inb p n)|]. intros k Hk. apply E; auto. rewrite !(pick_at p n P) by auto.
      apply K. now apply (p_lt p n).
  - intros t y L (_ & W & _ & Ly & _). split; auto. congruence.
  - intros x u ((Wx & Wu & _ & Lu & _) & L). repeat split; auto. congruence.
Qed.
(** ** Tile *)
Lemma tile_moves {A} p n reps : is_perm p n -> length reps = n ->
  moves p (@tile_rel A reps) (fun x u => tile_rel (permute_repeats p reps) x u /\ length (shape x) = n) p.
Proof.
  intros P Lr. apply (moves_intro p p n n); auto.
  - intros x t u y T U. destruct (tr_facts p n P x t T) as (Lx & Lt & Wx & Wt & S & G). destruct (tr_facts p n P u y U) as (Lu & Ly & Wu & Wy & Sy & Gy).
    assert (R : forall k, k < n -> nth (nth k p 0) (permute_repeats p reps) 0 = nth k reps 0).
    { intros k K. unfold permute_repeats. rewrite (invert_perm_spec p n P). now apply (permute_list 0 p n). }
    assert (Lpp : length (permute_repeats p reps) = n) by (unfold permute_repeats; now rewrite map_length, (invert_perm_spec p n P), inv_perm_length, (pn p n P)).
    assert (D : (forall k, k < n -> nth k (shape y) 0 = nth k (shape t) 0 * nth k reps 0) <->
                (forall k, k < n -> nth k (shape u) 0 = nth k (shape x) 0 * nth k (permute_repeats p reps) 0)).
    { rewrite (forall_axes p n P (fun k => nth k (shape u) 0 = _)). split; intros H k K; specialize (H k K).
      - rewrite R by auto. rewrite Sy, S, !(pick_at p n P) in H by auto. exact H.
      - rewrite R in H by auto. rewrite Sy, S, !(pick_at p n P) by auto. exact H. }
    unfold tile_rel. rewrite Lx, Lt, Lu, Ly, D.
    rewrite (placed_tr p n _ (fun k i j => j = i mod nth k (shape x) 0) x t u y P T U).
    + tauto.
    + intros k i j K. rewrite S, (pick_at p n P) by auto. tauto.
  - intros t y L (_ & W & _ & Ly & _). split; auto. congruence.
  - intros x u ((Wx & Wu & _ & Lu & _) & L). repeat split; auto. congruence.
Qed.

(** ** axes *)
Lemma F2_len {A B} (R : A -> B -> Prop) l l' : Forall2 R l l' -> length l = length l'.
Proof. induction 1; cbn; auto. Qed.
Lemma traverse_spec {A B} (f : A -> option B) l l' : traverse f l = Some l' <-> Forall2 (fun a b => f a = Some b) l l'.
Proof.
  revert l'. induction l as [|a l IH]; intros l'; cbn [traverse].
  - split; [intro E; inversion E; constructor|intro F; inversion F; auto].
  - split.
    + destruct (f a) as [b|] eqn:E; [|discriminate]. destruct (traverse f l) as [r|] eqn:E2; [|discriminate]. intro H; inversion H; subst. constructor; auto. now apply IH.
    + intro F. inversion F; subst. rewrite H1. apply IH in H3. now rewrite H3.
Qed.
Lemma py_get_spec p n a : is_perm p n -> forall b, py_get p a = Some b <-> exists k, norm_axis n a = Some k /\ b = nth k p 0.
Proof.
  intros P b. unfold py_get. rewrite (pn p n P), <- norm_py. destruct (norm_axis n a) as [k|] eqn:E.
  - assert (K := norm_axis_lt _ _ _ E). rewrite (nth_error_nth' p 0) by (rewrite (pn p n P); auto). split.
    + intro H; inversion H; subst. eauto.
    + intros (k' & E' & ->). inversion E'; subst. reflexivity.
  - split; [discriminate|]. intros (k & C & _). discriminate.
Qed.
Lemma norm_of_nat n k : k < n -> norm_axis n (Z.of_nat k) = Some k.
Proof. intro H. unfold norm_axis. destruct (Z.leb_spec 0 (Z.of_nat k)); [|lia]. destruct (Z.ltb_spec (Z.of_nat k) (Z.of_nat n)); [|lia]. f_equal. lia. Qed.
Lemma norm_axes_of_nat n l : (forall k, In k l -> k < n) -> norm_axes n (map Z.of_nat l) = Some l.
Proof. induction l as [|k l IH]; intro H; cbn; auto. rewrite norm_of_nat by (apply H; cbn; auto). rewrite IH; auto. intros; apply H; cbn; auto. Qed.
Lemma moved_axes_spec p n axes new : is_perm p n -> moved_axes p axes = Some new <-> exists ax, norm_axes n axes = Some ax /\ new = pick ax p.
Proof.
  intro P. unfold moved_axes. rewrite traverse_spec. revert new. induction axes as [|a axes IH]; intro new.
  - split; [intro F; inversion F; exists []; auto|]. intros (ax & E & ->). inversion E; subst. constructor.
  - split.
    + intro F. inversion F; subst. apply (py_get_spec p n a P) in H1. destruct H1 as (k & E & ->). apply IH in H3. destruct H3 as (ax & Ea & ->).
      exists (k :: ax). cbn [norm_axes]. rewrite E, Ea. auto.
    + intros (ax & E & ->). cbn [norm_axes] in E. destruct (norm_axis n a) as [k|] eqn:Ek; [|discriminate]. destruct (norm_axes n axes) as [ks|]; [|discriminate].
      inversion E; subst. constructor; [apply (py_get_spec p n a P); eauto|]. apply IH. eauto.
Qed.
Lemma pick_in_axis p n ax k : is_perm p n -> (forall a, In a ax -> a < n) -> k < n -> (In (nth k p 0) (pick ax p) <-> In k ax).
Proof.
  intros P B K. unfold pick. rewrite in_map_iff. split; [|intro H; exists k; auto]. intros (a & E & Ha). replace k with a; auto.
  rewrite <- (qp p n P a), <- (qp p n P k) by auto. now rewrite E.
Qed.
Lemma pick_axis_at p n ax k i : is_perm p n -> (forall a, In a ax -> a < n) -> k < n -> (nth_error (pick ax p) i = Some (nth k p 0) <-> nth_error ax i = Some k).
Proof.
  intros P B K. unfold pick. rewrite nth_error_map. destruct (nth_error ax i) as [a|] eqn:E; cbn; [|split; discriminate]. apply nth_error_In in E. split.
  - intro H. inversion H as [H']. f_equal. rewrite <- (qp p n P a), <- (qp p n P k) by auto. now rewrite H'.
  - intro H. now inversion H.
Qed.
Lemma pick_axes_lt p n ax : is_perm p n -> (forall a, In a ax -> a < n) -> forall a, In a (pick ax p) -> a < n.
Proof. intros P B a Ha. unfold pick in Ha. apply in_map_iff in Ha. destruct Ha as (k & <- & Hk). apply (p_lt p n P). auto. Qed.
Lemma pick_axes_NoDup p n ax : is_perm p n -> (forall a, In a ax -> a < n) -> (NoDup (pick ax p) <-> NoDup ax).
Proof.
  intros P B. split; [apply NoDup_map_inv|]. intro N. unfold pick. induction ax as [|a ax IH]; cbn; constructor; apply NoDup_cons_iff in N.
  - destruct N as [N _]. intro H. apply N. apply (pick_in_axis p n); auto; intros; apply B; cbn; auto.
  - apply IH; [intros; apply B; cbn; auto|tauto].
Qed.

(** ** Slice *)
Lemma slice_moves {A} p n params new : is_perm p n -> moved_axes p (map fst params) = Some new ->
  moves p (@slice_rel A params) (fun x u => slice_rel (combine (map Z.of_nat new) (map snd params)) x u /\ length (shape x) = n) p.
Proof.
  intros P M. apply (moved_axes_spec p n _ _ P) in M. destruct M as (ax & Nx & ->). assert (B := norm_axes_lt _ _ _ Nx).
  assert (Ll : length (map Z.of_nat (pick ax p)) = length (map snd params)).
  { rewrite !map_length, pick_length. apply norm_axes_spec, F2_len in Nx. rewrite map_length in Nx. auto. }
  assert (F : map fst (combine (map Z.of_nat (pick ax p)) (map snd params)) = map Z.of_nat (pick ax p)).
  { revert Ll. generalize (map Z.of_nat (pick ax p)) (map snd params). induction l as [|a l IH]; intros [|b l'] L; cbn in *; try discriminate; auto. f_equal. apply IH. lia. }
  assert (Sn : map snd (combine (map Z.of_nat (pick ax p)) (map snd params)) = map snd params).
  { revert Ll. generalize (map Z.of_nat (pick ax p)) (map snd params). induction l as [|a l IH]; intros [|b l'] L; cbn in *; try discriminate; auto. f_equal. apply IH. lia. }
  assert (St : (forall a s e st, In (a, (s, e, st)) params -> st <> 0%Z) <-> (forall a s e st, In (a, (s, e, st)) (combine (map Z.of_nat (pick ax p)) (map snd params)) -> st <> 0%Z)).
  { assert (K : forall l : list (Z * (Z * Z * Z)), (forall a s e st, In (a, (s, e, st)) l -> st <> 0%Z) <-> (forall s e st, In (s, e, st) (map snd l) -> st <> 0%Z)).
    { intro l. split.
      - intros H s e st I. apply in_map_iff in I. destruct I as ([a [[s' e'] st']] & E & I). cbn in E. inversion E; subst. eauto.
      - intros H a s e st I. apply (H s e st). apply in_map_iff. exists (a, (s, e, st)). auto. }
    rewrite !K, Sn. tauto. }
  apply (moves_intro p p n n); auto.
  - intros x t u y T U. destruct (tr_facts p n P x t T) as (Lx & Lt & Wx & Wt & S & G). destruct (tr_facts p n P u y U) as (Lu & Ly & Wu & Wy & Sy & Gy).
    unfold slice_rel. rewrite Lx, Lt, Lu, Ly, F, Sn, <- St. rewrite Nx, norm_axes_of_nat by (apply (pick_axes_lt p n ax P B)).
    set (sl := map snd params).
    assert (D1 : (forall q k s e st, nth_error ax q = Some k -> nth_error sl q = Some (s, e, st) -> nth k (shape y) 0 = snd (slice_axis (nth k (shape t) 0) s e st)) <->
                 (forall q k s e st, nth_error (pick ax p) q = Some k -> nth_error sl q = Some (s, e, st) -> nth k (shape u) 0 = snd (slice_axis (nth k (shape x) 0) s e st))).
    { split; intros H q k s e st E1 E2.
      - unfold pick in E1. rewrite nth_error_map in E1. destruct (nth_error ax q) as [a|] eqn:Ea; [|discriminate]. cbn in E1. inversion E1; subst k.
        assert (Ha : a < n) by (apply B; eapply nth_error_In; eauto). specialize (H q a s e st Ea E2). rewrite Sy, S, !(pick_at p n P) in H by auto. exact H.
      - assert (Ha : k < n) by (apply B; eapply nth_error_In; eauto). rewrite Sy, S, !(pick_at p n P) by auto. apply (H q); auto. now apply (pick_axis_at p n). }
    assert (D2 : (forall k, k < n -> ~ In k ax -> nth k (shape y) 0 = nth k (shape t) 0) <-> (forall k, k < n -> ~ In k (pick ax p) -> nth k (shape u) 0 = nth k (shape x) 0)).
    { rewrite (forall_axes p n P (fun k => ~ In k (pick ax p) -> nth k (shape u) 0 = nth k (shape x) 0)). split; intros H k K N.
      - rewrite (pick_in_axis p n) in N by auto. specialize (H k K N). rewrite Sy, S, !(pick_at p n P) in H by auto. exact H.
      - rewrite Sy, S, !(pick_at p n P) by auto. apply H; auto. now rewrite (pick_in_axis p n). }
    assert (D3 := placed_tr p n (fun k i j => (~ In k ax -> j = i) /\ forall q s e st, nth_error ax q = Some k -> nth_error sl q = Some (s, e, st) ->
                    Z.of_nat j = (fst (slice_axis (nth k (shape t) 0%nat) s e st) + Z.of_nat i * st)%Z)
                  (fun k i j => (~ In k (pick ax p) -> j = i) /\ forall q s e st, nth_error (pick ax p) q = Some k -> nth_error sl q = Some (s, e, st) ->
                    Z.of_nat j = (fst (slice_axis (nth k (shape x) 0%nat) s e st) + Z.of_nat i * st)%Z) x t u y P T U).
    assert (D4 := pick_axes_NoDup p n ax P B). split.
    + intros (_ & _ & _ & Hs & ax' & E & H1 & H2 & H3 & H4). inversion E; subst ax'. split; [|reflexivity]. do 3 (split; [auto; fail|]). split; [exact Hs|]. exists (pick ax p).
      split; [reflexivity|]. split; [now apply D4|]. split; [now apply D1|]. split; [now apply D2|]. apply D3; [|exact H4].
      intros k i j K. rewrite (pick_in_axis p n) by auto. rewrite S, (pick_at p n P) by auto. setoid_rewrite (pick_axis_at p n ax k _ P B K). tauto.
    + intros ((_ & _ & _ & Hs & ax' & E & H1 & H2 & H3 & H4) & _). inversion E; subst ax'. do 3 (split; [auto; fail|]). split; [exact Hs|]. exists ax.
      split; [reflexivity|]. split; [now apply D4|]. split; [now apply D1|]. split; [now apply D2|]. apply D3; [|exact H4].
      intros k i j K. rewrite (pick_in_axis p n) by auto. rewrite S, (pick_at p n P) by auto. setoid_rewrite (pick_axis_at p n ax k _ P B K). tauto.
  - intros t y L (_ & W & Ly & _). split; auto. congruence.
  - intros x u ((Wx & Wu & Lu & _) & L). repeat split; auto. congruence.
Qed.

(** ** along one axis *)
Lemma set_dim_len ax v l : length (set_dim ax v l) = length l.
Proof. rewrite <- upd_set_dim. apply upd_len. Qed.
Lemma set_dim_nth ax v l i : ax < length l -> nth i (set_dim ax v l) 0 = if Nat.eqb i ax then v else nth i l 0.
Proof. intro H. rewrite <- upd_set_dim, upd_nth. destruct (Nat.eqb i ax); auto. destruct (Nat.ltb_spec ax (length l)); auto. lia. Qed.
Lemma pick_set_dim p n ax v l : is_perm p n -> length l = n -> ax < n -> pick p (set_dim (nth ax p 0) v l) = set_dim ax v (pick p l).
Proof.
  intros P L K. apply list_nth_ext; [now rewrite set_dim_len, !pick_length|]. intros k H. rewrite (pick_len p n P) in H.
  rewrite (pick_at p n P), set_dim_nth by (auto; rewrite L; now apply (p_lt p n)). rewrite set_dim_nth by (now rewrite (pick_len p n P)).
  rewrite (pick_at p n P) by auto. destruct (Nat.eqb_spec k ax) as [->|N]; [now rewrite Nat.eqb_refl|]. destruct (Nat.eqb_spec (nth k p 0) (nth ax p 0)) as [E|]; auto.
  exfalso. apply N. rewrite <- (qp p n P k), <- (qp p n P ax) by auto. now rewrite E.
Qed.
Lemma set_dim_inb ax v ix sh : inb ix sh -> v < nth ax sh 0 -> inb (set_dim ax v ix) sh.
Proof.
  intros I V. assert (L := inb_length _ _ I). destruct (Nat.lt_ge_cases ax (length sh)) as [K|K].
  - apply inb_nth. rewrite set_dim_len. split; auto. intros k Hk. rewrite set_dim_nth by lia. destruct (Nat.eqb_spec k ax) as [->|N]; auto. apply inb_nth in I. now apply I.
  - rewrite nth_overflow in V by auto. lia.
Qed.
(** same index except at ax, where the tensor has dimension 1 *)
Lemma set_dim_inb' ax v ix sh : inb ix (set_dim ax 1 sh) -> ax < length sh -> v < nth ax sh 0 -> inb (set_dim ax v ix) sh.
Proof.
  intros I K V. assert (L := inb_length _ _ I). rewrite set_dim_len in L. apply inb_nth. rewrite set_dim_len. split; auto. intros k Hk.
  rewrite set_dim_nth by lia. destruct (Nat.eqb_spec k ax) as [->|N]; auto. apply inb_nth in I. destruct I as [_ I]. rewrite set_dim_len in I. specialize (I k Hk).
  rewrite set_dim_nth in I by auto. destruct (Nat.eqb_spec k ax); [contradiction|auto].
Qed.
Lemma lane_tr {A} p n (x t : tensor A) ax ix : is_perm p n -> transpose_rel p x t -> ax < n -> (forall v, v < nth (nth ax p 0) (shape x) 0 -> inb (set_dim (nth ax p 0) v ix) (shape x)) -> length ix = n ->
  lane t ax (pick p ix) = lane x (nth ax p 0) ix.
Proof.
  intros P T K I L. destruct (tr_facts p n P x t T) as (Lx & Lt & Wx & Wt & S & G). unfold lane. rewrite S, (pick_at p n P) by auto.
  apply map_ext_in. intros v Hv. apply in_seq in Hv. rewrite <- (pick_set_dim p n) by auto. apply G. apply I. lia.
Qed.
Lemma softmax_moves {A} (h : list A -> list A) p n axis new : is_perm p n -> n <> 0 -> moved_axis p axis = Some new ->
  moves p (softmax_rel h axis) (fun x u => softmax_rel h (Z.of_nat new) x u /\ length (shape x) = n) p.
Proof.
  intros P N M. apply (py_get_spec p n _ P) in M. destruct M as (ax & Nx & ->). assert (B := norm_axis_lt _ _ _ Nx).
  apply (moves_intro p p n n); auto.
  - intros x t u y T U. destruct (tr_facts p n P x t T) as (Lx & Lt & Wx & Wt & S & G). destruct (tr_facts p n P u y U) as (Lu & Ly & Wu & Wy & Sy & Gy).
    unfold softmax_rel. rewrite Lx, Lt, Nx, norm_of_nat by (now apply (p_lt p n)). split.
    + intros (_ & _ & E & ax' & Ea & H). inversion Ea; subst ax'. assert (E' : shape u = shape x) by (apply (pick_inj p n P); congruence). split; [|reflexivity].
      do 3 (split; [auto; fail|]). exists (nth ax p 0). split; auto. intros ix I. destruct (H (pick p ix)) as (vs & H1 & H2); [rewrite S; now apply (pick_inb p n)|].
      exists vs. rewrite <- Gy by (now rewrite E'). rewrite H2, (pick_at p n P) by auto. split; auto. rewrite <- H1. symmetry. apply (lane_tr p n); auto.
      * intros v Hv. now apply set_dim_inb.
      * apply inb_length in I. congruence.
    + intros ((_ & _ & E & ax' & Ea & H) & _). inversion Ea; subst ax'. do 2 (split; [auto; fail|]). split; [congruence|]. exists ax. split; auto. intros jx J.
      rewrite S in J. destruct (index_back p n P _ _ Lx J) as (ix & I & ->). destruct (H ix I) as (vs & H1 & H2). exists vs.
      rewrite Gy by (now rewrite E). rewrite H2, (pick_at p n P) by auto. split; auto. rewrite <- H1. apply (lane_tr p n); auto.
      * intros v Hv. now apply set_dim_inb.
      * apply inb_length in I. congruence.
  - intros t y L (_ & W & S & _). split; auto. congruence.
  - intros x u ((Wx & Wu & S & _) & L). repeat split; auto. congruence.
Qed.
Lemma arg_keep_moves {A B} (g : list A -> B) p n axis new : is_perm p n -> moved_axis p axis = Some new ->
  moves p (arg_rel g axis true) (fun x u => arg_rel g (Z.of_nat new) true x u /\ length (shape x) = n) p.
Proof.
  intros P M. apply (py_get_spec p n _ P) in M. destruct M as (ax & Nx & ->). assert (B' := norm_axis_lt _ _ _ Nx).
  apply (moves_intro p p n n); auto.
  - intros x t u y T U. destruct (tr_facts p n P x t T) as (Lx & Lt & Wx & Wt & S & G). destruct (tr_facts p n P u y U) as (Lu & Ly & Wu & Wy & Sy & Gy).
    assert (Bx : nth ax p 0 < n) by (now apply (p_lt p n)).
    assert (Sh : shape y = set_dim ax 1 (shape t) <-> shape u = set_dim (nth ax p 0) 1 (shape x)).
    { rewrite Sy, S, <- (pick_set_dim p n) by auto. split; [intro E; apply (pick_inj p n P); auto; now rewrite set_dim_len|congruence]. }
    unfold arg_rel. rewrite Lx, Lt, Nx, norm_of_nat by auto. split.
    + intros (z & (_ & _ & ax' & Ea & Es & H) & <-). inversion Ea; subst ax'. split; [|reflexivity]. exists u. split; [|reflexivity]. do 2 (split; [auto; fail|]).
      exists (nth ax p 0). split; auto. apply Sh in Es. split; auto. intros ix I. destruct (H (pick p ix)) as (vs & H1 & H2); [rewrite Sy; now apply (pick_inb p n)|].
      exists vs. rewrite <- Gy by auto. split; auto. rewrite <- H1. symmetry. rewrite Es in I. apply (lane_tr p n); auto.
      * intros v Hv. apply set_dim_inb'; auto. now rewrite Lx.
      * apply inb_length in I. rewrite set_dim_len in I. congruence.
    + intros ((z & (_ & _ & ax' & Ea & Es & H) & <-) & _). inversion Ea; subst ax'. exists y. split; [|reflexivity]. do 2 (split; [auto; fail|]). exists ax. split; auto.
      split; [now apply Sh|]. intros jx J. rewrite Sy in J. destruct (index_back p n P _ _ Lu J) as (ix & I & ->). destruct (H ix I) as (vs & H1 & H2). exists vs.
      rewrite Gy by auto. split; auto. rewrite <- H1. rewrite Es in I. apply (lane_tr p n); auto.
      * intros v Hv. apply set_dim_inb'; auto. now rewrite Lx.
      * apply inb_length in I. rewrite set_dim_len in I. congruence.
  - intros t y L (z & (_ & W & ax' & _ & Es & _) & ->). split; auto. rewrite Es, set_dim_len. auto.
  - intros x u ((z & (Wx & W & ax' & _ & Es & _) & ->) & L). split; auto. split; auto. split; auto. rewrite Es, set_dim_len. auto.
Qed.
(** ** QuantizeLinear, DequantizeLinear *)
Lemma quantize_moves {A S B} (f : A -> S -> B) p n axis new (s : tensor S) : is_perm p n -> moved_axis p axis = Some new ->
  moves p (quantize_rel f axis s) (fun x u => quantize_rel f (Z.of_nat new) s x u /\ length (shape x) = n) p.
Proof.
  intros P M. apply (py_get_spec p n _ P) in M. destruct M as (ax & Nx & ->). assert (B' := norm_axis_lt _ _ _ Nx).
  apply (moves_intro p p n n); auto.
  - intros x t u y T U. destruct (tr_facts p n P x t T) as (Lx & Lt & Wx & Wt & Sx & G). destruct (tr_facts p n P u y U) as (Lu & Ly & Wu & Wy & Sy & Gy).
    assert (Bx : nth ax p 0 < n) by (now apply (p_lt p n)). unfold quantize_rel. rewrite Lx, Lt, Nx, norm_of_nat by auto. split.
    + intros (_ & _ & Ws & E & H). assert (E' : shape u = shape x) by (apply (pick_inj p n P); congruence). split; [|reflexivity]. do 4 (split; [auto; fail|]).
      destruct H as [[Es H]|(ax' & Ea & Es & H)]; [left; split; auto|right; inversion Ea; subst ax'; exists (nth ax p 0); split; auto; split; [now rewrite Es, Sx, (pick_at p n P)|]].
      * intros ix I. rewrite <- Gy, <- G by (auto; now rewrite E'). apply H. rewrite Sx. now apply (pick_inb p n).
      * intros ix I. rewrite <- Gy, <- G by (auto; now rewrite E'). specialize (H (pick p ix)). rewrite (pick_at p n P) in H by auto. apply H. rewrite Sx. now apply (pick_inb p n).
    + intros ((_ & _ & Ws & E & H) & _). do 3 (split; [auto; fail|]). split; [congruence|].
      destruct H as [[Es H]|(ax' & Ea & Es & H)]; [left; split; auto|right; inversion Ea; subst ax'; exists ax; split; auto; split; [now rewrite Es, Sx, (pick_at p n P)|]].
      * intros jx J. rewrite Sx in J. destruct (index_back p n P _ _ Lx J) as (ix & I & ->). rewrite Gy, G by (auto; now rewrite E). auto.
      * intros jx J. rewrite Sx in J. destruct (index_back p n P _ _ Lx J) as (ix & I & ->). rewrite Gy, G, (pick_at p n P) by (auto; now rewrite E). auto.
  - intros t y L (_ & W & _ & Es & _). split; auto. congruence.
  - intros x u ((Wx & Wu & _ & Es & _) & L). repeat split; auto. congruence.
Qed.

(** ** over several axes *)
Lemma in_indices sh ix : In ix (indices sh) <-> inb ix sh.
Proof.
  revert ix. induction sh as [|n sh IH]; intro ix; cbn [indices].
  - split; [intros [<-|[]]; exact I|destruct ix; [cbn; auto|intros []]].
  - rewrite in_flat_map. split.
    + intros (i & Hi & H). apply in_map_iff in H. destruct H as (jx & <- & H). apply in_seq in Hi. cbn. split; [lia|now apply IH].
    + destruct ix as [|i jx]; [intros []|]. cbn. intros [Hi H]. exists i. split; [apply in_seq; lia|]. apply in_map. now apply IH.
Qed.
Lemma indices_NoDup sh : NoDup (indices sh).
Proof.
  induction sh as [|n sh IH]; cbn [indices]; [repeat constructor; intros []|]. generalize 0 at 1. induction n as [|n IHn]; intro s; cbn [seq flat_map]; [constructor|].
  assert (K : forall l l' : list (list nat), NoDup l -> NoDup l' -> (forall a, In a l -> ~ In a l') -> NoDup (l ++ l')).
  { clear. induction l as [|a l IH]; intros l' H H' D; cbn; auto. apply NoDup_cons_iff in H. constructor.
    - rewrite in_app_iff. intros [C|C]; [tauto|]. apply (D a); cbn; auto.
    - apply IH; [tauto|auto|]. intros b Hb. apply D. cbn. auto. }
  apply K; auto.
  - apply FinFun.Injective_map_NoDup; auto. intros a b E. now inversion E.
  - intros a Ha Hb. apply in_map_iff in Ha. destruct Ha as (b & <- & _). apply in_flat_map in Hb. destruct Hb as (i & Hi & Hc). apply in_map_iff in Hc. destruct Hc as (c & E & _).
    inversion E. apply in_seq in Hi. lia.
Qed.
Lemma block_tr {A} p n (x t : tensor A) f g : is_perm p n -> transpose_rel p x t -> (forall ix, inb ix (shape x) -> f (pick p ix) = g ix) ->
  Permutation (map (get t) (filter f (indices (shape t)))) (map (get x) (filter g (indices (shape x)))).
Proof.
  intros P T E. destruct (tr_facts p n P x t T) as (Lx & Lt & Wx & Wt & S & G).
  assert (Q : map (get x) (filter g (indices (shape x))) = map (get t) (map (pick p) (filter g (indices (shape x))))).
  { rewrite map_map. apply map_ext_in. intros ix I. apply filter_In in I. symmetry. apply G. now apply in_indices. }
  rewrite Q. clear Q. apply Permutation_map. apply NoDup_Permutation.
  - apply NoDup_filter, indices_NoDup.
  - assert (N := NoDup_filter g (indices_NoDup (shape x))). assert (B : forall ix, In ix (filter g (indices (shape x))) -> length ix = n).
    { intros ix I. apply filter_In in I. destruct I as [I _]. apply in_indices, inb_length in I. congruence. }
    induction (filter g (indices (shape x))) as [|ix l IH]; cbn; constructor; apply NoDup_cons_iff in N.
    + rewrite in_map_iff. intros (jx & Ej & J). apply (pick_inj p n P) in Ej; [subst; tauto| |]; apply B; cbn; auto.
    + apply IH; [tauto|]. intros; apply B; cbn; auto.
  - intro jx. rewrite filter_In, in_map_iff, in_indices. split.
    + intros [J F]. rewrite S in J. destruct (index_back p n P _ _ Lx J) as (ix & I & ->). exists ix. split; auto. apply filter_In. rewrite in_indices, <- E; auto.
    + intros (ix & <- & I). apply filter_In in I. destruct I as [I F]. apply in_indices in I. rewrite S. split; [now apply (pick_inb p n)|]. now rewrite E.
Qed.
Lemma perm_some {A} (vs : list A) l : Permutation l (map Some vs) -> exists vs', l = map Some vs' /\ Permutation vs vs'.
Proof. intro H. now apply Permutation_map_inv in H. Qed.
Lemma agrees_spec ax ix jx : agrees ax ix jx = true <-> forall k, k < length jx -> In k ax \/ nth k ix 0 = nth k jx 0.
Proof.
  unfold agrees. rewrite forallb_forall. split; intros H k K.
  - specialize (H k). rewrite in_seq, orb_true_iff, existsb_exists, Nat.eqb_eq in H. destruct H as [(a & Ha & E)|E]; [lia| |auto]. apply Nat.eqb_eq in E. subst. auto.
  - apply in_seq in K. rewrite orb_true_iff, existsb_exists, Nat.eqb_eq. destruct (H k) as [Q|Q]; [lia| |auto]. left. exists k. split; auto. apply Nat.eqb_refl.
Qed.
Lemma bool_iff (a b : bool) : (a = true <-> b = true) -> a = b.
Proof. destruct a, b; intuition congruence. Qed.
Lemma agrees_tr p n ax ix jx : is_perm p n -> (forall a, In a ax -> a < n) -> length jx = n -> agrees ax (pick p ix) (pick p jx) = agrees (pick ax p) ix jx.
Proof.
  intros P B L. apply bool_iff. rewrite !agrees_spec, (pick_len p n P), L. rewrite (forall_axes p n P (fun k => In k (pick ax p) \/ nth k ix 0 = nth k jx 0)).
  split; intros H k K; specialize (H k K); rewrite ?(pick_at p n P), ?(pick_in_axis p n) in * by auto; auto.
Qed.
Lemma existsb_iff k l : existsb (Nat.eqb k) l = true <-> In k l.
Proof. rewrite existsb_exists. split; [intros (a & H & E); apply Nat.eqb_eq in E; now subst|intro H; exists k; split; auto; apply Nat.eqb_refl]. Qed.
Lemma existsb_pick p n ax k : is_perm p n -> (forall a, In a ax -> a < n) -> k < n -> existsb (Nat.eqb (nth k p 0)) (pick ax p) = existsb (Nat.eqb k) ax.
Proof. intros P B K. apply bool_iff. rewrite !existsb_iff. now apply (pick_in_axis p n). Qed.
Lemma reduce_keep_tr {A} (agg : list A -> A) p n ax (x t u y : tensor A) : order_free agg -> is_perm p n -> (forall a, In a ax -> a < n) ->
  transpose_rel p x t -> transpose_rel p u y -> (reduce_keep agg ax t y <-> reduce_keep agg (pick ax p) x u).
Proof.
  intros Of P B T U. destruct (tr_facts p n P x t T) as (Lx & Lt & Wx & Wt & S & G). destruct (tr_facts p n P u y U) as (Lu & Ly & Wu & Wy & Sy & Gy).
  assert (D : (forall k, k < n -> nth k (shape y) 0 = (if existsb (Nat.eqb k) ax then 1 else nth k (shape t) 0)) <->
              (forall k, k < n -> nth k (shape u) 0 = (if existsb (Nat.eqb k) (pick ax p) then 1 else nth k (shape x) 0))).
  { rewrite (forall_axes p n P (fun k => nth k (shape u) 0 = _)). split; intros H k K; specialize (H k K); rewrite Sy, S, !(pick_at p n P), (existsb_pick p n) in * by auto; exact H. }
  unfold reduce_keep. rewrite Lx, Lt, Lu, Ly, D. split.
  - intros (_ & _ & _ & H1 & H2). do 4 (split; [auto; fail|]). intros ix I. destruct (H2 (pick p ix)) as (vs & E & V); [rewrite Sy; now apply (pick_inb p n)|].
    assert (Q := block_tr p n x t (agrees ax (pick p ix)) (agrees (pick ax p) ix) P T). rewrite E in Q. apply Permutation_sym, perm_some in Q.
    + destruct Q as (vs' & Ev & Pv). exists vs'. split; auto. rewrite <- Gy, V by auto. now rewrite (Of _ _ Pv).
    + intros jx J. apply agrees_tr with (n := n); auto. apply inb_length in J. congruence.
  - intros (_ & _ & _ & H1 & H2). do 4 (split; [auto; fail|]). intros jx J. rewrite Sy in J. destruct (index_back p n P _ _ Lu J) as (ix & I & ->). destruct (H2 ix I) as (vs & E & V).
    assert (Q := block_tr p n x t (agrees ax (pick p ix)) (agrees (pick ax p) ix) P T). rewrite E in Q. apply perm_some in Q.
    + destruct Q as (vs' & Ev & Pv). exists vs'. split; auto. rewrite Gy, V by auto. now rewrite (Of _ _ Pv).
    + intros kx K. apply agrees_tr with (n := n); auto. apply inb_length in K. congruence.
Qed.
Lemma reduce_keep_moves {A} (agg : list A -> A) p n axes new : order_free agg -> is_perm p n -> moved_axes p axes = Some new ->
  moves p (reduce_rel agg axes true) (fun x u => reduce_rel agg (map Z.of_nat new) true x u /\ length (shape x) = n) p.
Proof.
  intros Of P M. apply (moved_axes_spec p n _ _ P) in M. destruct M as (ax & Nx & ->). assert (B := norm_axes_lt _ _ _ Nx).
  apply (moves_intro p p n n); auto.
  - intros x t u y T U. destruct (tr_facts p n P x t T) as (Lx & Lt & Wx & Wt & S & G). destruct (tr_facts p n P u y U) as (Lu & Ly & Wu & Wy & Sy & Gy).
    assert (K := reduce_keep_tr agg p n ax x t u y Of P B T U). assert (D4 := pick_axes_NoDup p n ax P B).
    unfold reduce_rel. rewrite Lx, Lt, Nx, norm_axes_of_nat by (apply (pick_axes_lt p n ax P B)). split.
    + intros (ax' & z & Ea & N & H & <-). inversion Ea; subst ax'. split; [|reflexivity]. exists (pick ax p), u. split; auto. split; [now apply D4|]. split; [now apply K|reflexivity].
    + intros ((ax' & z & Ea & N & H & <-) & _). inversion Ea; subst ax'. exists ax, y. split; auto. split; [now apply D4|]. split; [now apply K|reflexivity].
  - intros t y L (ax' & z & _ & _ & (_ & W & Lz & _) & ->). split; auto. congruence.
  - intros x u ((ax' & z & _ & _ & (Wx & W & Lz & _) & ->) & L). repeat split; auto. congruence.
Qed.
(** Softmax before opset 13: no axis crosses the boundary *)
Lemma movable_spec p n axis : is_perm p n -> softmax12_movable p axis = true <->
  (forall k, k < n -> let c := match axis with Some a => a | None => 1%Z end in (Z.of_nat k < c <-> Z.of_nat (nth k p 0%nat) < c)%Z).
Proof.
  intro P. unfold softmax12_movable. rewrite forallb_forall. cbn zeta. set (c := match axis with Some a => a | None => 1%Z end). split.
  - intros H k K. specialize (H (k, nth k p 0)). cbn [fst snd] in H. assert (I : In (k, nth k p 0) (combine (seq 0 (length p)) p)).
    { assert (E : nth k (combine (seq 0 (length p)) p) (0, 0) = (k, nth k p 0)) by (rewrite combine_nth by (now rewrite seq_length); rewrite seq_nth by (rewrite (pn p n P); auto); reflexivity).
      rewrite <- E. apply nth_In. rewrite combine_length, seq_length, (pn p n P). lia. }
    apply H in I. apply negb_true_iff, orb_false_iff in I. destruct I as [I1 I2]. apply andb_false_iff in I1. apply andb_false_iff in I2.
    rewrite Z.ltb_ge, Z.leb_gt in I1. rewrite Z.leb_gt, Z.ltb_ge in I2. lia.
  - intros H [k v] I. cbn [fst snd]. assert (Ei : exists i, i < n /\ (k, v) = (i, nth i p 0)).
    { destruct (In_nth _ _ (0, 0) I) as (i & Hi & E). rewrite combine_length, seq_length, (pn p n P) in Hi. exists i. split; [lia|].
      rewrite combine_nth, seq_nth in E by (rewrite ?seq_length, ?(pn p n P); lia). symmetry. exact E. }
    destruct Ei as (i & Hi & E). inversion E; subst k v. specialize (H i Hi).
    apply negb_true_iff, orb_false_iff. rewrite !andb_false_iff, Z.ltb_ge, Z.leb_gt, Z.ltb_ge, Z.leb_gt. lia.
Qed.
Lemma firstn_eq_spec (a : nat) (l l' : list nat) : length l = length l' -> (firstn a l = firstn a l' <-> forall k, k < length l -> k < a -> nth k l 0 = nth k l' 0).
Proof.
  revert l l'. induction a as [|a IH]; intros l l' L; cbn; [split; intros; [lia|reflexivity]|]. destruct l as [|b l], l' as [|b' l']; cbn in *; try discriminate; [split; intros; [lia|reflexivity]|].
  split.
  - intro E. inversion E. intros [|k] K1 K2; auto. apply IH; [lia| |lia|lia]. auto.
  - intro H. f_equal; [apply (H 0); lia|]. apply IH; [lia|]. intros k K1 K2. apply (H (S k)); lia.
Qed.
Lemma softmax12_moves {A} (h : A -> list A -> A) p n axis : (forall v, order_free (h v)) -> is_perm p n ->
  (0 <= match axis with Some a => a | None => 1 end)%Z -> softmax12_movable p axis = true ->
  let a := match axis with Some a => a | None => 1%Z end in
  moves p (softmax12_rel h a) (fun x u => softmax12_rel h a x u /\ length (shape x) = n) p.
Proof.
  intros Of P Pos M. rewrite (movable_spec p n axis P) in M. cbn zeta in *. set (a := match axis with Some a => a | None => 1%Z end) in *. clearbody a.
  apply (moves_intro p p n n); auto.
  - intros x t u y T U. destruct (tr_facts p n P x t T) as (Lx & Lt & Wx & Wt & S & G). destruct (tr_facts p n P u y U) as (Lu & Ly & Wu & Wy & Sy & Gy).
    assert (F : forall ax ix jx, (norm_axis n a = Some ax \/ a = Z.of_nat n /\ ax = n) -> length ix = n -> length jx = n ->
      (if list_eq_dec Nat.eq_dec (firstn ax (pick p jx)) (firstn ax (pick p ix)) then true else false) = (if list_eq_dec Nat.eq_dec (firstn ax jx) (firstn ax ix) then true else false)).
    { intros ax ix jx Ha Li Lj. assert (Ea : a = Z.of_nat ax).
      { destruct Ha as [Ha|[-> ->]]; auto. unfold norm_axis in Ha. destruct (Z.leb_spec 0 a); [|lia]. destruct (Z.ltb_spec a (Z.of_nat n)); [|discriminate]. inversion Ha. lia. }
      assert (Q : firstn ax (pick p jx) = firstn ax (pick p ix) <-> firstn ax jx = firstn ax ix).
      { rewrite !firstn_eq_spec by (rewrite ?(pick_len p n P); congruence). rewrite (pick_len p n P), Lj.
        rewrite (forall_axes p n P (fun k => k < ax -> nth k jx 0 = nth k ix 0)). split; intros H k K1 K2; specialize (H k K1); rewrite ?(pick_at p n P) in * by auto; apply H; specialize (M k K1); lia. }
      destruct (list_eq_dec _ _ _), (list_eq_dec _ _ _); tauto. }
    unfold softmax12_rel. rewrite Lx, Lt. split.
    + intros (_ & _ & E & ax & Ha & H). assert (E' : shape u = shape x) by (apply (pick_inj p n P); congruence). split; [|reflexivity]. do 3 (split; [auto; fail|]).
      exists ax. split; auto. intros ix I. assert (Li : length ix = n) by (apply inb_length in I; congruence).
      destruct (H (pick p ix)) as (v & vs & H1 & H2 & H3); [rewrite S; now apply (pick_inb p n)|]. rewrite G in H1 by auto. rewrite Gy in H2 by (now rewrite E').
      match type of H3 with map _ (filter ?f _) = _ => assert (Q := block_tr p n x t f (fun jx => if list_eq_dec Nat.eq_dec (firstn ax jx) (firstn ax ix) then true else false) P T) end.
      rewrite H3 in Q. apply Permutation_sym, perm_some in Q.
      * destruct Q as (vs' & Ev & Pv). exists v, vs'. rewrite <- (Of v _ _ Pv). auto.
      * intros jx J. apply F; auto. apply inb_length in J. congruence.
    + intros ((_ & _ & E & ax & Ha & H) & _). do 2 (split; [auto; fail|]). split; [congruence|]. exists ax. split; auto. intros jx J. rewrite S in J.
      destruct (index_back p n P _ _ Lx J) as (ix & I & ->). assert (Li : length ix = n) by (apply inb_length in I; congruence).
      destruct (H ix I) as (v & vs & H1 & H2 & H3). rewrite G, Gy by (auto; now rewrite E).
      match goal with |- context [map (get t) (filter ?f _)] => assert (Q := block_tr p n x t f (fun jx => if list_eq_dec Nat.eq_dec (firstn ax jx) (firstn ax ix) then true else false) P T) end.
      rewrite H3 in Q. apply perm_some in Q.
      * destruct Q as (vs' & Ev & Pv). exists v, vs'. rewrite <- (Of v _ _ Pv). auto.
      * intros kx K. apply F; auto. apply inb_length in K. congruence.
  - intros t y L (_ & W & S & _). split; auto. congruence.
  - intros x u ((Wx & Wu & S & _) & L). repeat split; auto. congruence.
Qed.

(** ** dropping axes *)
Lemma drop_map (f : nat -> nat) ax : forall l k, drop_from k ax (map f l) = map f (drop_from k ax l).
Proof. induction l as [|a l IH]; intro k; cbn; auto. rewrite IH. now destruct (existsb (Nat.eqb k) ax). Qed.
Lemma drop_pick ax p l : drop_axes ax (pick p l) = pick (drop_axes ax p) l.
Proof. apply drop_map. Qed.
Lemma drop_same ax ax' : (forall a, In a ax <-> In a ax') -> forall l k, drop_from k ax l = drop_from k ax' l.
Proof.
  intro E. assert (K : forall k, existsb (Nat.eqb k) ax = existsb (Nat.eqb k) ax') by (intro k; apply bool_iff; rewrite !existsb_iff; auto).
  induction l as [|a l IH]; intro k; cbn; auto. now rewrite K, IH.
Qed.
Lemma drop_seq ax : forall n k, drop_from k ax (seq k n) = filter (not_in ax) (seq k n).
Proof. induction n as [|n IH]; intro k; cbn; auto. unfold not_in at 1. rewrite IH. now destruct (existsb (Nat.eqb k) ax). Qed.
Lemma drop_keep ax l : drop_axes ax l = pick (filter (not_in ax) (seq 0 (length l))) l.
Proof. rewrite <- drop_seq. rewrite <- (pick_seq l) at 1. apply drop_pick. Qed.
Lemma in_drop ax : forall l k v, In v (drop_from k ax l) <-> exists i, i < length l /\ ~ In (k + i) ax /\ nth i l 0 = v.
Proof.
  induction l as [|a l IH]; intros k v; cbn [drop_from length].
  - split; [intros []|intros (i & H & _); lia].
  - destruct (existsb (Nat.eqb k) ax) eqn:E.
    + rewrite IH. split.
      * intros (i & H1 & H2 & H3). exists (S i). replace (k + S i) with (S k + i) by lia. split; [lia|auto].
      * intros ([|i] & H1 & H2 & H3); [exfalso; apply H2; rewrite Nat.add_0_r; now apply existsb_iff|]. exists i. replace (S k + i) with (k + S i) by lia. split; [lia|auto].
    + cbn [In]. rewrite IH. split.
      * intros [->|(i & H1 & H2 & H3)]; [exists 0|exists (S i); replace (k + S i) with (S k + i) by lia; split; [lia|auto]]. split; [lia|]. split; auto.
        rewrite Nat.add_0_r, <- existsb_iff. congruence.
      * intros ([|i] & H1 & H2 & H3); [left; auto|]. right. exists i. replace (S k + i) with (k + S i) by lia. split; [lia|auto].
Qed.
Lemma drop_NoDup ax : forall l k, NoDup l -> NoDup (drop_from k ax l).
Proof.
  induction l as [|a l IH]; intros k N; cbn; auto. apply NoDup_cons_iff in N. destruct (existsb (Nat.eqb k) ax); [apply IH; tauto|]. constructor; [|apply IH; tauto].
  intro C. apply in_drop in C. destruct C as (i & Hi & _ & E). apply (proj1 N). rewrite <- E. now apply nth_In.
Qed.
Lemma drop_len ax l : NoDup ax -> (forall a, In a ax -> a < length l) -> length (drop_axes ax l) + length ax = length l.
Proof. intros N B. apply drop_axes_length; auto. intros a Ha. specialize (B a Ha). lia. Qed.
(** big tensors X, T and their smaller versions u, y *)
Section Drop.
Variables (Pb ps : list nat) (N n : nat) (ax ax' : list nat).
Hypothesis HP : is_perm Pb N.
Hypothesis Hp : is_perm ps n.
Hypothesis C : forall l, length l = N -> drop_axes ax (pick Pb l) = pick ps (drop_axes ax' l).
Hypothesis Len : forall l, length l = N -> length (drop_axes ax' l) = n.
Lemma drop_tr {A} (X T u y : tensor A) : transpose_rel Pb X T -> transpose_rel ps u y ->
  (shape y = drop_axes ax (shape T) /\ forall ix, inb ix (shape T) -> get y (drop_axes ax ix) = get T ix) <->
  (shape u = drop_axes ax' (shape X) /\ forall ix, inb ix (shape X) -> get u (drop_axes ax' ix) = get X ix).
Proof.
  intros HT HU. destruct (tr_facts Pb N HP X T HT) as (Lx & Lt & Wx & Wt & S & G). destruct (tr_facts ps n Hp u y HU) as (Lu & Ly & Wu & Wy & Sy & Gy).
  assert (Sh : shape y = drop_axes ax (shape T) <-> shape u = drop_axes ax' (shape X)).
  { rewrite Sy, S, C by auto. split; [intro E; apply (pick_inj ps n Hp); auto|congruence]. }
  split.
  - intros [E H]. apply Sh in E. split; auto. intros ix I. rewrite <- G by auto. rewrite <- H by (rewrite S; now apply (pick_inb Pb N)).
    assert (Li : length ix = N) by (apply inb_length in I; congruence). rewrite C by auto. symmetry. apply Gy. rewrite E. unfold drop_axes. now apply drop_inb.
  - intros [E H]. split; [now apply Sh|]. intros jx J. rewrite S in J. destruct (index_back Pb N HP _ _ Lx J) as (ix & I & ->).
    assert (Li : length ix = N) by (apply inb_length in I; congruence). rewrite C by auto. rewrite Gy by (rewrite E; unfold drop_axes; now apply drop_inb). rewrite G by auto. auto.
Qed.
End Drop.

(** ** Squeeze *)
(** the permutation that remains when axes ax of the output of p are dropped *)
Definition after_drop (p ax : list nat) : list nat := map (fun v => index_of v (filter (not_in (pick ax p)) (seq 0 (length p)))) (drop_axes ax p).
Lemma after_drop_spec p n ax : is_perm p n -> NoDup ax -> (forall a, In a ax -> a < n) ->
  is_perm (after_drop p ax) (n - length ax) /\
  (forall l, length l = n -> drop_axes ax (pick p l) = pick (after_drop p ax) (drop_axes (pick ax p) l)) /\
  (forall l, length l = n -> length (drop_axes (pick ax p) l) = n - length ax).
Proof.
  intros P ND B. assert (Lp := pn p n P). set (keep := filter (not_in (pick ax p)) (seq 0 n)).
  assert (Ld : length (drop_axes ax p) = n - length ax) by (assert (K := drop_len ax p ND); rewrite Lp in K; specialize (K B); lia).
  assert (B' := pick_axes_lt p n ax P B). assert (ND' : NoDup (pick ax p)) by (now apply (pick_axes_NoDup p n)).
  assert (Ll : forall l, length l = n -> length (drop_axes (pick ax p) l) = n - length ax).
  { intros l L. assert (K := drop_len (pick ax p) l ND'). rewrite L, pick_length in K. specialize (K B'). lia. }
  assert (Lk : length keep = n - length ax). { unfold keep. rewrite <- drop_seq. apply Ll. apply seq_length. }
  assert (Nk : NoDup keep) by (apply NoDup_filter, seq_NoDup).
  assert (Ik : forall v, In v (drop_axes ax p) <-> In v keep).
  { intro v. unfold drop_axes. rewrite in_drop, Lp. unfold keep. rewrite filter_In, in_seq. unfold not_in. rewrite negb_true_iff. split.
    - intros (i & Hi & Ni & <-). split; [assert (K := p_lt p n P i Hi); lia|]. rewrite (existsb_pick p n) by auto. apply not_true_is_false. rewrite existsb_iff. exact Ni.
    - intros [Hv E]. exists (nth v (inv_perm p) 0). assert (Hq : nth v (inv_perm p) 0 < n) by (apply (q_lt p n P); lia). split; auto. rewrite (pq p n P) by lia. split; auto.
      rewrite <- (pq p n P v) in E by lia. rewrite (existsb_pick p n) in E by auto. cbn [Nat.add]. rewrite <- existsb_iff. congruence. }
  assert (Np : NoDup (drop_axes ax p)) by (apply drop_NoDup; eapply is_perm_NoDup; eauto).
  assert (Ea : after_drop p ax = map (fun v => index_of v keep) (drop_axes ax p)) by (unfold after_drop; now rewrite Lp).
  split; [|split; [|exact Ll]].
  - apply incl_perm; [rewrite Ea; now rewrite map_length|]. intros k K. rewrite Ea. apply in_map_iff. exists (nth k keep 0). split; [apply index_of_at; auto; now rewrite Lk|].
    apply Ik. apply nth_In. now rewrite Lk.
  - intros l L. rewrite drop_pick, (drop_keep (pick ax p) l), L. fold keep. rewrite pick_pick.
    + f_equal. rewrite Ea. unfold pick. rewrite map_map. rewrite <- (map_id (drop_axes ax p)) at 1. apply map_ext_in. intros v Hv. symmetry. apply index_of_nth. now apply Ik.
    + intros k Hk. rewrite Ea in Hk. apply in_map_iff in Hk. destruct Hk as (v & <- & Hv). apply index_of_nth. now apply Ik.
Qed.
Lemma squeeze_moves_gen {A} p n axes ax new axes' : is_perm p n -> norm_axes n axes = Some ax -> NoDup ax -> norm_axes n axes' = Some new -> Permutation (pick ax p) new ->
  moves p (@squeeze_rel A axes) (fun x u => squeeze_rel axes' x u /\ length (shape x) = n) (after_drop p ax).
Proof.
  intros P Nx ND Nx' Pm. assert (B := norm_axes_lt _ _ _ Nx). destruct (after_drop_spec p n ax P ND B) as (Pa & C & Ll).
  assert (Mem : forall a, In a new <-> In a (pick ax p)) by (intro a; split; intro H; [eapply Permutation_in; [apply Permutation_sym; eauto|auto]|eapply Permutation_in; eauto]).
  assert (Ds : forall l, drop_axes new l = drop_axes (pick ax p) l) by (intro l; unfold drop_axes; now apply drop_same).
  assert (ND' : NoDup new) by (eapply Permutation_NoDup; [exact Pm|]; now apply (pick_axes_NoDup p n)).
  apply (moves_intro p (after_drop p ax) n (n - length ax)); auto.
  - intros x t u y T U. assert (D := drop_tr p (after_drop p ax) n (n - length ax) ax (pick ax p) P Pa C Ll x t u y T U).
    destruct (tr_facts p n P x t T) as (Lx & Lt & Wx & Wt & S & G). destruct (tr_facts _ _ Pa u y U) as (Lu & Ly & Wu & Wy & Sy & Gy).
    assert (One : (forall a, In a ax -> nth a (shape t) 0 = 1) <-> (forall a, In a new -> nth a (shape x) 0 = 1)).
    { split; intros H a Ha.
      - apply Mem in Ha. unfold pick in Ha. apply in_map_iff in Ha. destruct Ha as (k & <- & Hk). specialize (H k Hk). rewrite S, (pick_at p n P) in H by auto. exact H.
      - rewrite S, (pick_at p n P) by auto. apply H. apply Mem. apply (pick_in_axis p n); auto. }
    unfold squeeze_rel. rewrite Lx, Lt, Nx, Nx'. split.
    + intros (_ & _ & ax0 & E0 & _ & H1 & H2 & H3). inversion E0; subst ax0. split; [|reflexivity]. do 2 (split; [auto; fail|]). exists new. split; auto. split; auto. split; [now apply One|].
      setoid_rewrite Ds. apply D. auto.
    + intros ((_ & _ & ax0 & E0 & _ & H1 & H2 & H3) & _). inversion E0; subst ax0. do 2 (split; [auto; fail|]). exists ax. split; auto. split; auto. split; [now apply One|].
      apply D. setoid_rewrite Ds in H3. rewrite Ds in H2. auto.
  - intros t y L (_ & W & ax0 & E0 & _ & _ & E & _). rewrite L, Nx in E0. inversion E0; subst ax0. split; auto. rewrite E. assert (K := drop_len ax (shape t) ND). rewrite L in K. specialize (K B). lia.
  - intros x u ((Wx & Wu & ax0 & E0 & _ & _ & E & _) & L). rewrite L, Nx' in E0. inversion E0; subst ax0. repeat split; auto. rewrite E, Ds. now apply Ll.
Qed.
