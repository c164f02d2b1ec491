(** Concat, Unsqueeze and Slice along one axis of a tensor of any rank. *)
From Coq Require Import List Arith ZArith Bool Lia.
From Verif Require Import Tensor FoldModel OnnxSpec TensorProofs TOps TOpsProofs.
Import ListNotations.
Local Open Scope list_scope.

Lemma set_dim_mid pre d post v : set_dim (length pre) v (pre ++ d :: post) = pre ++ v :: post.
Proof. induction pre as [|e pre IH]; cbn; auto. now rewrite IH. Qed.
Lemma nth_mid {T} (pre : list T) d post x : nth (length pre) (pre ++ d :: post) x = d.
Proof. rewrite app_nth2, Nat.sub_diag; auto. Qed.
Lemma norm_axis_mid pre (d : nat) post : norm_axis (length (pre ++ d :: post)) (Z.of_nat (length pre)) = Some (length pre).
Proof. apply seq_axis. rewrite app_length. cbn. lia. Qed.
Lemma split_ix pre (d : nat) post ix : inb ix (pre ++ d :: post) -> exists p c q, ix = p ++ c :: q /\ inb p pre /\ c < d /\ inb q post.
Proof.
  intro H. assert (L := inb_length _ _ H). rewrite app_length in L. cbn in L.
  destruct (skipn (length pre) ix) as [|c q] eqn:E; [apply (f_equal (@length nat)) in E; rewrite skipn_length in E; cbn in E; lia|].
  exists (firstn (length pre) ix), c, q. assert (X : ix = firstn (length pre) ix ++ c :: q) by (rewrite <- E; symmetry; apply firstn_skipn).
  rewrite X in H. apply inb_app in H; [|rewrite firstn_length; lia]. destruct H as [H1 [H2 H3]]. auto.
Qed.
Lemma inb_mid p c q pre d post : inb p pre -> c < d -> inb q post -> inb (p ++ c :: q) (pre ++ d :: post).
Proof. intros. apply inb_app; [now apply inb_length|]. cbn. auto. Qed.

Section Concat.
Context {T : Type} (pre post : list nat).
Fixpoint part_of (c : nat) (ts : list (tensor T)) (ds : list nat) : option (tensor T * nat) :=
  match ts, ds with
  | t :: ts', d :: ds' => if Nat.ltb c d then Some (t, c) else part_of (c - d) ts' ds'
  | _, _ => None
  end.
Definition total := fold_right Nat.add 0.
Lemma find_part_mid ts ds : Forall2 (fun (t : tensor T) d => wf t /\ shape t = pre ++ d :: post) ts ds -> forall c,
  find_part (length pre) c ts = part_of c ts ds.
Proof.
  induction 1 as [|t d ts ds [_ H] _ IH]; intro c; auto. cbn [find_part part_of]. rewrite H, nth_mid. destruct (Nat.ltb c d); auto.
Qed.
Lemma part_of_in ts ds : Forall2 (fun (t : tensor T) d => wf t /\ shape t = pre ++ d :: post) ts ds -> forall c, c < total ds ->
  exists t d c', part_of c ts ds = Some (t, c') /\ wf t /\ shape t = pre ++ d :: post /\ c' < d.
Proof.
  induction 1 as [|t d ts ds H _ IH]; intros c Hc; cbn in Hc; [lia|]. cbn [part_of]. destruct (Nat.ltb_spec c d).
  - exists t, d, c. tauto.
  - apply IH. lia.
Qed.
Lemma concat_spec ts ds : ts <> [] -> Forall2 (fun (t : tensor T) d => wf t /\ shape t = pre ++ d :: post) ts ds ->
  exists z, f_concat (Z.of_nat (length pre)) ts = Some z /\ wf z /\ shape z = pre ++ total ds :: post /\
    forall p c q, inb p pre -> c < total ds -> inb q post ->
      get z (p ++ c :: q) = match part_of c ts ds with Some (t, c') => get t (p ++ c' :: q) | None => None end.
Proof.
  intros N F0. destruct F0 as [|t0 d0 ts ds [W0 S0] F]; [congruence|].
  assert (F' : Forall2 (fun (t : tensor T) d => wf t /\ shape t = pre ++ d :: post) (t0 :: ts) (d0 :: ds)) by (constructor; auto).
  unfold f_concat. rewrite S0, norm_axis_mid.
  assert (E : forallb (fun t => list_eqb (set_dim (length pre) 0 (shape t)) (set_dim (length pre) 0 (pre ++ d0 :: post))) (t0 :: ts) = true).
  { apply forallb_forall. intros t Ht. assert (exists d, shape t = pre ++ d :: post) as (d & ->).
    { clear -F' Ht. remember (t0 :: ts) as l. remember (d0 :: ds) as l'. clear Heql Heql'. induction F' as [|x y ? ? [_ H] _ IH]; [destruct Ht|]. destruct Ht as [-> | Ht]; eauto. }
    rewrite !set_dim_mid. unfold list_eqb; destruct list_eq_dec; congruence. }
  rewrite E. rewrite set_dim_mid.
  replace (fold_right Nat.add 0 (map (fun t => nth (length pre) (shape t) 0) (t0 :: ts))) with (total (d0 :: ds)).
  2:{ clear -F'. unfold total. induction F' as [|x y ? ? [_ H] _ IH]; auto. cbn [map fold_right]. rewrite H, nth_mid. f_equal. exact IH. }
  assert (Q : forall p c q, inb p pre -> c < total (d0 :: ds) -> inb q post ->
     match find_part (length pre) (nth (length pre) (p ++ c :: q) 0) (t0 :: ts) with Some (t, c0) => get t (set_dim (length pre) c0 (p ++ c :: q)) | None => None end =
     match part_of c (t0 :: ts) (d0 :: ds) with Some (t, c') => get t (p ++ c' :: q) | None => None end).
  { intros p c q Hp Hc Hq. assert (L := inb_length _ _ Hp). rewrite <- L, nth_mid. rewrite L, (find_part_mid _ _ F').
    destruct (part_of c (t0 :: ts) (d0 :: ds)) as [[t c']|]; auto. rewrite <- L, set_dim_mid. reflexivity. }
  match goal with |- exists z, build ?sh ?f = Some z /\ _ => destruct (build_ex sh f) as (z & B & S1 & W1 & G1) end.
  - intros ix Ix. apply split_ix in Ix. destruct Ix as (p & c & q & -> & Hp & Hc & Hq). rewrite Q by auto.
    destruct (part_of_in _ _ F' c Hc) as (t & d & c' & -> & Wt & St & Hc'). apply get_some; auto. rewrite St. now apply inb_mid.
  - exists z. split; auto. split; auto. split; auto. intros p c q Hp Hc Hq. rewrite G1 by (now apply inb_mid). apply Q; auto.
Qed.
End Concat.

(** Unsqueeze at one axis *)
Lemma insert_ones_none : forall n k axes sh, (forall j, In j axes -> j < k) -> n = length sh -> insert_ones k n axes sh = sh.
Proof.
  induction n as [|n IH]; intros k axes [|d sh] H L; cbn in L; try discriminate; auto. cbn [insert_ones].
  replace (existsb (Nat.eqb k) axes) with false.
  - f_equal. apply IH; [|lia]. intros j Hj. apply H in Hj. lia.
  - symmetry. apply not_true_iff_false. rewrite existsb_exists. intros (j & Hj & E). apply Nat.eqb_eq in E. apply H in Hj. lia.
Qed.
Lemma insert_one : forall pre post k n, n = length pre + 1 + length post -> insert_ones k n [k + length pre] (pre ++ post) = pre ++ 1 :: post.
Proof.
  induction pre as [|d pre IH]; intros post k n ->.
  - cbn [length Nat.add insert_ones]. rewrite Nat.add_0_r. cbn [existsb]. rewrite Nat.eqb_refl. cbn [orb app]. f_equal. apply insert_ones_none; auto.
    intros j [<-|[]]. lia.
  - cbn [length Nat.add insert_ones existsb app]. replace (Nat.eqb k (k + S (length pre))) with false by (symmetry; apply Nat.eqb_neq; lia). cbn [orb].
    f_equal. replace (k + S (length pre)) with (S k + length pre) by lia. apply IH. lia.
Qed.
Lemma unsqueeze_mid {T} pre post (t : tensor T) : shape t = pre ++ post ->
  f_unsqueeze [Z.of_nat (length pre)] t = Some (Tensor (pre ++ 1 :: post) (data t)).
Proof.
  intro H. unfold f_unsqueeze. rewrite H. cbn [length]. change [Z.of_nat (length pre)] with (map Z.of_nat [length pre]). rewrite nat_axes.
  2:{ constructor; auto. rewrite app_length. lia. }
  cbn [nodupb existsb negb andb]. do 2 f_equal. apply (insert_one pre post 0). rewrite app_length. lia.
Qed.
Lemma drop_one : forall pre (d : nat) post k, drop_from k [k + length pre] (pre ++ d :: post) = pre ++ post.
Proof.
  assert (Q : forall post k j, j < k -> drop_from k [j] post = post).
  { induction post as [|x post IH]; intros k j H; auto. cbn [drop_from existsb]. replace (Nat.eqb k j) with false by (symmetry; apply Nat.eqb_neq; lia). cbn [orb].
    f_equal. apply IH. lia. }
  induction pre as [|x pre IH]; intros d post k.
  - cbn [length app drop_from existsb]. rewrite Nat.add_0_r, Nat.eqb_refl. cbn [orb]. apply Q. lia.
  - cbn [length app drop_from existsb]. replace (Nat.eqb k (k + S (length pre))) with false by (symmetry; apply Nat.eqb_neq; lia). cbn [orb].
    f_equal. replace (k + S (length pre)) with (S k + length pre) by lia. apply IH.
Qed.
Lemma squeeze_mid {T} pre post (t : tensor T) : shape t = pre ++ 1 :: post ->
  f_squeeze [Z.of_nat (length pre)] t = Some (Tensor (pre ++ post) (data t)).
Proof.
  intro H. unfold f_squeeze. rewrite H. change [Z.of_nat (length pre)] with (map Z.of_nat [length pre]). rewrite nat_axes.
  2:{ constructor; auto. rewrite app_length. cbn. lia. }
  cbn [nodupb existsb negb andb forallb]. rewrite nth_mid. cbn [Nat.eqb andb]. do 2 f_equal. exact (drop_one pre 1 post 0).
Qed.
Lemma get_ones {T} pre post (t : tensor T) p q : length p = length pre -> shape t = pre ++ post ->
  get (Tensor (pre ++ 1 :: post) (data t)) (p ++ 0 :: q) = get t (p ++ q).
Proof.
  intros L S0. apply reindex. rewrite S0, !ravel_app by auto. rewrite size_cons. cbn [ravel]. lia.
Qed.

(** Slice of one axis *)
Lemma slice_mid {T} pre d post (x : tensor T) s e : wf x -> shape x = pre ++ d :: post ->
  exists y, f_slice [s] [e] (Some [Z.of_nat (length pre)]) x = Some y /\ wf y /\
    shape y = pre ++ (clamp d e - clamp d s) :: post /\
    forall p c q, inb p pre -> c < clamp d e - clamp d s -> inb q post -> get y (p ++ c :: q) = get x (p ++ clamp d s + c :: q).
Proof.
  intros W Sx. destruct (slice_spec pre [d] post x [s] [e] W Sx eq_refl eq_refl) as (y & E & Wy & Sy & Gy).
  exists y. split; [exact E|]. split; auto. split; [exact Sy|]. intros p c q Hp Hc Hq. apply (Gy p [c] q); auto. cbn. auto.
Qed.
Lemma neg_axis_nat opset n : neg_axis opset (Z.of_nat n) = false.
Proof. unfold neg_axis. now rewrite (proj2 (Z.ltb_ge (Z.of_nat n) 0)) by lia. Qed.
Lemma mid_axis {X} (d0 : X) (sh : list X) a : a < length sh -> sh = firstn a sh ++ nth a sh d0 :: skipn (S a) sh /\ length (firstn a sh) = a.
Proof.
  intro H. split; [|rewrite firstn_length; lia]. revert a H. induction sh as [|x sh IH]; intros [|a] H; cbn in H; try lia; auto.
  cbn [firstn nth skipn app]. f_equal. apply IH. lia.
Qed.
Lemma norm_axis_lt r a k : norm_axis r a = Some k -> k < r.
Proof.
  unfold norm_axis. destruct (Z.leb_spec 0 a).
  - destruct (Z.ltb_spec a (Z.of_nat r)); [|discriminate]. intros [= <-]. lia.
  - destruct (Z.leb_spec (- Z.of_nat r) a); [|discriminate]. intros [= <-]. lia.
Qed.
Lemma firstn_mid {X} (p : list X) c q : firstn (length p) (p ++ c :: q) = p /\ skipn (S (length p)) (p ++ c :: q) = q /\ skipn (length p) (p ++ c :: q) = c :: q.
Proof.
  split; [|split].
  - rewrite firstn_app, firstn_all, Nat.sub_diag, firstn_O. apply app_nil_r.
  - replace (S (length p)) with (length p + 1) by lia. rewrite skipn_app, skipn_all2 by lia. replace (length p + 1 - length p) with 1 by lia. reflexivity.
  - rewrite skipn_app, skipn_all, Nat.sub_diag. reflexivity.
Qed.
