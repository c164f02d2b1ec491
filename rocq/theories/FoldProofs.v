(** Every folding function computes what the ONNX operator computes. *)
From Coq Require Import List Arith ZArith Lia Bool Permutation.
From Verif Require Import Util Tensor OnnxSpec FoldModel TensorProofs.
Import ListNotations.
Local Open Scope list_scope.

(** ** Transpose *)
Lemma np_transpose_spec {A} (t : tensor A) perm y : wf t -> np_transpose t perm = Some y ->
  transpose_rel (match perm with Some p => p | None => rev (seq 0 (length (shape t))) end) t y.
Proof.
  unfold np_transpose. intros W. set (p := match perm with Some p => p | None => _ end). set (r := length (shape t)).
  destruct (Nat.eqb (length p) r && forallb (fun k => existsb (Nat.eqb k) p) (seq 0 r)) eqn:C; [|discriminate].
  apply andb_true_iff in C. destruct C as [C1 C2]. apply Nat.eqb_eq in C1. rewrite forallb_forall in C2.
  assert (P : is_perm p r).
  { apply incl_perm; auto. intros k K. specialize (C2 k ltac:(apply in_seq; lia)). apply existsb_exists in C2. destruct C2 as (x & Hx & E). apply Nat.eqb_eq in E. now subst. }
  intro H. apply build_spec in H. destruct H as (Sy & Wy & G). fold (pick p (shape t)) in *.
  split; auto. split; auto. split; auto. split; auto. intros ix I. rewrite (G (pick p ix)) by (eapply pick_inb; eauto).
  f_equal. assert (L := inb_length _ _ I). transitivity (pick (inv_perm p) (pick p ix)); [|apply (pick_inv p r); auto].
  unfold inv_perm. unfold pick at 2. rewrite map_map, C1. reflexivity.
Qed.

(** ** Reshape *)
Definition prodZ (l : list Z) : Z := fold_right Z.mul 1%Z l.
Lemma size_prod l : Forall (fun d => 0 <= d)%Z l -> Z.of_nat (size (map Z.to_nat l)) = prodZ l.
Proof.
  induction 1 as [|d l H _ IH]; [reflexivity|]. cbn [map prodZ fold_right]. rewrite size_cons, Nat2Z.inj_mul, IH. unfold prodZ. rewrite Z2Nat.id by auto. reflexivity.
Qed.
Lemma filter_none l : filter (fun d => (d <? 0)%Z) l = [] -> Forall (fun d => 0 <= d)%Z l.
Proof.
  induction l as [|d l IH]; cbn; [constructor|]. destruct (Z.ltb_spec d 0); [discriminate|]. constructor; auto.
Qed.
Lemma filter_all l : Forall (fun d => 0 <= d)%Z l -> filter (fun d => (0 <=? d)%Z) l = l.
Proof. induction 1 as [|d l H _ IH]; cbn; auto. destruct (Z.leb_spec 0 d); [now rewrite IH|lia]. Qed.
Lemma size_one_neg l q n : filter (fun d => (d <? 0)%Z) l = [n] -> (0 <= q)%Z ->
  Z.of_nat (size (map (fun d => Z.to_nat (if (d <? 0)%Z then q else d)) l)) = (prodZ (filter (fun d => (0 <=? d)%Z) l) * q)%Z.
Proof.
  intros H Q. revert H. induction l as [|d l IH]; cbn [filter]; [discriminate|]. destruct (Z.ltb_spec d 0) as [D|D].
  - intro H. injection H as -> H. destruct (Z.leb_spec 0 n); [lia|]. cbn [map]. rewrite size_cons, Nat2Z.inj_mul.
    destruct (Z.ltb_spec n 0); [|lia]. rewrite Z2Nat.id by auto.
    assert (F := filter_none l H). rewrite (filter_all l F). rewrite <- (size_prod l F). rewrite Z.mul_comm. f_equal. f_equal. f_equal.
    apply map_ext_in. intros x Hx. rewrite Forall_forall in F. specialize (F x Hx). destruct (Z.ltb_spec x 0); [lia|auto].
  - intro H. destruct (Z.leb_spec 0 d); [|lia]. cbn [map prodZ fold_right]. rewrite size_cons, Nat2Z.inj_mul, (IH H).
    destruct (Z.ltb_spec d 0); [lia|]. rewrite Z2Nat.id by auto. unfold prodZ. lia.
Qed.
Lemma np_reshape_spec {A} (t : tensor A) l y : wf t -> np_reshape t l = Some y ->
  wf y /\ data y = data t /\ length (shape y) = length l /\ size (shape y) = size (shape t) /\
  length (filter (fun d => (d <? 0)%Z) l) <= 1 /\
  forall k d, nth_error l k = Some d -> (0 <= d)%Z -> nth_error (shape y) k = Some (Z.to_nat d).
Proof.
  intro W. unfold np_reshape. fold (prodZ (filter (fun d => (0 <=? d)%Z) l)).
  destruct (filter (fun d => (d <? 0)%Z) l) as [|n [|n' ns]] eqn:F; [| |discriminate].
  - destruct (Z.eqb_spec (prodZ (filter (fun d => (0 <=? d)%Z) l)) (Z.of_nat (size (shape t)))) as [E|]; [|discriminate].
    intro H. injection H as <-. cbn [shape data]. assert (N := filter_none l F). rewrite (filter_all l N), <- (size_prod l N) in E.
    apply Nat2Z.inj in E. unfold wf. cbn [shape data]. rewrite E. split; [exact W|]. split; [auto|]. split; [now rewrite map_length|].
    split; auto. split; [cbn; lia|]. intros k d Hk Hd. rewrite nth_error_map, Hk. reflexivity.
  - destruct (Z.eqb_spec (prodZ (filter (fun d => (0 <=? d)%Z) l)) 0) as [|K]; [discriminate|].
    destruct (Z.eqb_spec (Z.of_nat (size (shape t)) mod prodZ (filter (fun d => (0 <=? d)%Z) l))%Z 0) as [M|]; [|discriminate].
    intro H. injection H as <-. cbn [shape data]. set (kn := prodZ _) in *. set (q := (Z.of_nat (size (shape t)) / kn)%Z) in *.
    assert (Kp : (0 < kn)%Z).
    { assert (0 <= kn)%Z; [|lia]. unfold kn. clear. induction l as [|d l IH]; cbn; [lia|]. destruct (Z.leb_spec 0 d); auto.
      cbn [prodZ fold_right]. unfold prodZ in IH. nia. }
    assert (Q : (0 <= q)%Z) by (unfold q; apply Z.div_pos; lia).
    assert (E : size (map (fun d => Z.to_nat (if (d <? 0)%Z then q else d)) l) = size (shape t)).
    { apply Nat2Z.inj. rewrite (size_one_neg l q n F Q). fold kn. unfold q. rewrite (Z.div_mod (Z.of_nat (size (shape t))) kn) at 2 by lia. lia. }
    unfold wf. cbn [shape data]. rewrite E. split; [exact W|]. split; [auto|]. split; [now rewrite map_length|]. split; auto. split; [cbn; lia|].
    intros k d Hk Hd. rewrite nth_error_map, Hk. cbn. destruct (Z.ltb_spec d 0); [lia|auto].
Qed.
Lemma copy_zeros_spec insh target : forall k l, copy_zeros insh k target = Some l ->
  length l = length target /\
  forall i t, nth_error target i = Some t ->
    (t = 0%Z -> exists v, nth_error insh (k + i) = Some v /\ nth_error l i = Some (Z.of_nat v)) /\
    (t <> 0%Z -> nth_error l i = Some t).
Proof.
  induction target as [|t target IH]; cbn [copy_zeros]; intros k l H.
  - injection H as <-. split; auto. intros [|i] t; discriminate.
  - destruct (copy_zeros insh (S k) target) as [l'|] eqn:E; [|discriminate]. destruct (IH _ _ E) as [L P].
    assert (Q : exists d, l = d :: l' /\ (t = 0%Z -> exists v, nth_error insh k = Some v /\ d = Z.of_nat v) /\ (t <> 0%Z -> d = t)).
    { destruct (Z.eqb_spec t 0).
      - destruct (nth_error insh k) as [v|] eqn:N; [|discriminate]. injection H as <-. exists (Z.of_nat v). split; auto. split; [eauto|congruence].
      - injection H as <-. exists t. split; auto. split; [congruence|auto]. }
    destruct Q as (d & -> & Q1 & Q2). split; [cbn; lia|]. intros [|i] u Hu; cbn in Hu |- *.
    + injection Hu as <-. rewrite Nat.add_0_r. split; intro Hz.
      * destruct (Q1 Hz) as (v & A1 & A2). exists v. subst d. auto.
      * rewrite (Q2 Hz). auto.
    + rewrite <- Nat.add_succ_comm. auto.
Qed.
Lemma count_neg target : forall insh k l, copy_zeros insh k target = Some l -> (forall d, In d target -> (-1 <= d)%Z) ->
  length (filter (Z.eqb (-1)) target) = length (filter (fun d => (d <? 0)%Z) l).
Proof.
  induction target as [|t target IH]; cbn [copy_zeros]; intros insh k l H B.
  - injection H as <-. reflexivity.
  - destruct (copy_zeros insh (S k) target) as [l'|] eqn:E; [|discriminate].
    assert (R := IH _ _ _ E ltac:(intros; apply B; cbn; auto)). assert (Bt := B t (or_introl eq_refl)).
    destruct (Z.eqb_spec t 0) as [->|N].
    + destruct (nth_error insh k) as [v|]; [|discriminate]. injection H as <-. cbn [filter]. cbn [Z.eqb]. destruct (Z.ltb_spec (Z.of_nat v) 0); [lia|]. exact R.
    + injection H as <-. cbn [filter]. destruct (Z.eqb_spec (-1) t), (Z.ltb_spec t 0); try lia; cbn [length]; lia.
Qed.
Lemma fold_reshape_spec {A} (t : tensor A) target ys : wf t -> (forall d, In d target -> (-1 <= d)%Z) ->
  fold_reshape t target = Some ys -> exists y, ys = [y] /\ reshape_rel false target t y.
Proof.
  intros W B. unfold fold_reshape. destruct (copy_zeros (shape t) 0 target) as [l|] eqn:C; [|discriminate].
  destruct (np_reshape t l) as [y|] eqn:E; [|discriminate]. intro H. injection H as <-. exists y. split; auto.
  destruct (np_reshape_spec t l y W E) as (Wy & D & L & S & Cn & Nth). destruct (copy_zeros_spec _ _ _ _ C) as [Ll P].
  split; auto. split; auto. split; [rewrite (count_neg _ _ _ _ C B); auto|]. split; [lia|]. split.
  - intros k tt d Ht Hd. destruct (P k tt Ht) as [P1 P2]. unfold dim_ok. assert (Bt := B tt (nth_error_In _ _ Ht)).
    destruct (Z.eq_dec tt 0) as [Z0|Z0].
    + right. left. split; auto. destruct (P1 Z0) as (v & A1 & A2). apply Nth in A2; [|lia]. rewrite Nat2Z.id in A2. cbn in A1. congruence.
    + destruct (Z.eq_dec tt (-1)) as [M|M]; [now left|]. right. right. split; [lia|]. apply P2 in Z0. apply Nth in Z0; [|lia]. congruence.
  - split; auto. intros ix jx I J R. unfold get. rewrite D, R. reflexivity.
Qed.
(** the specification determines the result when no dimension is zero *)
Lemma reshape_size_fun target : forall insh k sh sh', length sh = length target -> length sh' = length target ->
  length (filter (Z.eqb (-1)) target) <= 1 ->
  (forall i t d, nth_error target i = Some t -> nth_error sh i = Some d -> dim_ok false insh (k + i) t d) ->
  (forall i t d, nth_error target i = Some t -> nth_error sh' i = Some d -> dim_ok false insh (k + i) t d) ->
  size sh = size sh' -> 0 < size sh -> sh = sh'.
Proof.
  induction target as [|t target IH]; intros insh k [|d sh] [|d' sh'] L L' C H H' Sz P; try discriminate; auto.
  rewrite !size_cons in *. cbn in L, L'.
  assert (Htl : forall i t0 d0, nth_error target i = Some t0 -> nth_error sh i = Some d0 -> dim_ok false insh (S k + i) t0 d0).
  { intros i t0 d0 A B. replace (S k + i) with (k + S i) by lia. apply (H (S i)); auto. }
  assert (Htl' : forall i t0 d0, nth_error target i = Some t0 -> nth_error sh' i = Some d0 -> dim_ok false insh (S k + i) t0 d0).
  { intros i t0 d0 A B. replace (S k + i) with (k + S i) by lia. apply (H' (S i)); auto. }
  assert (H0 := H 0 t d eq_refl eq_refl). assert (H0' := H' 0 t d' eq_refl eq_refl). rewrite Nat.add_0_r in *.
  cbn [filter] in C. destruct (Z.eqb_spec (-1) t) as [E|E].
  - cbn [length] in C. assert (sh = sh').
    { clear -L L' Htl Htl' C. assert (C' : length (filter (Z.eqb (-1)) target) = 0) by lia. clear C.
      revert L L' k Htl Htl' C'. revert sh sh'. induction target as [|t target IH]; intros [|d sh] [|d' sh'] L L' k H H' C; try discriminate; auto.
      cbn [filter] in C. destruct (Z.eqb_spec (-1) t); [cbn in C; lia|].
      f_equal.
      - assert (A := H 0 t d eq_refl eq_refl). assert (A' := H' 0 t d' eq_refl eq_refl). unfold dim_ok in A, A'.
        destruct A as [A|[[A1 A2]|[A1 A2]]], A' as [A'|[[A1' A2']|[A1' A2']]]; try lia; congruence.
      - apply (IH sh sh' ltac:(cbn in L; lia) ltac:(cbn in L'; lia) (S k)); auto.
        + intros i t0 d0 P Q. replace (S (S k) + i) with (S k + S i) by lia. apply (H (S i)); auto.
        + intros i t0 d0 P Q. replace (S (S k) + i) with (S k + S i) by lia. apply (H' (S i)); auto. }
    subst sh'. f_equal. nia.
  - assert (d = d').
    { unfold dim_ok in H0, H0'. destruct H0 as [A|[[A1 A2]|[A1 A2]]], H0' as [A'|[[A1' A2']|[A1' A2']]]; try lia; congruence. }
    subst d'. f_equal. apply (IH insh (S k)); auto; try nia; lia.
Qed.
Lemma reshape_fun {A} target (x y z : tensor A) : 0 < size (shape x) ->
  reshape_rel false target x y -> reshape_rel false target x z -> y = z.
Proof.
  intros P (Wx & Wy & C & L & D & S & G) (_ & Wz & _ & L' & D' & S' & G').
  assert (E : shape y = shape z) by (apply (reshape_size_fun target (shape x) 0); auto; lia).
  apply tensor_ext; auto. intros jx J. assert (R := ravel_lt _ _ J). set (ix := unravel (shape x) (ravel (shape y) jx)).
  assert (I : inb ix (shape x)) by (apply unravel_inb; lia).
  assert (Q : ravel (shape x) ix = ravel (shape y) jx) by (apply ravel_unravel; lia).
  rewrite (G ix jx), (G' ix jx); auto; congruence.
Qed.

(** ** Unsqueeze *)
Lemma ravel_drop ax : forall sh ix k, inb ix sh -> (forall a, In a ax -> k <= a -> a < k + length sh -> nth (a - k) sh 0 = 1) ->
  ravel sh ix = ravel (drop_from k ax sh) (drop_from k ax ix) /\ size (drop_from k ax sh) = size sh.
Proof.
  induction sh as [|d sh IH]; intros [|i ix] k I H; cbn in I; try tauto; cbn [drop_from ravel].
  destruct I as [I1 I2]. destruct (IH ix (S k) I2) as [R S].
  { intros a Ha K1 K2. specialize (H a Ha ltac:(lia) ltac:(cbn; lia)). replace (a - k) with (S (a - S k)) in H by lia. exact H. }
  destruct (existsb (Nat.eqb k) ax) eqn:E.
  - apply existsb_exists in E. destruct E as (a & Ha & E). apply Nat.eqb_eq in E. subst a.
    specialize (H k Ha ltac:(lia) ltac:(cbn; lia)). rewrite Nat.sub_diag in H. cbn in H. subst d.
    rewrite !size_cons. split; [|lia]. assert (i = 0) by lia. subst i. rewrite R. lia.
  - cbn [ravel]. rewrite !size_cons, S. split; lia.
Qed.
Lemma drop_inb ax : forall sh ix k, inb ix sh -> inb (drop_from k ax ix) (drop_from k ax sh).
Proof.
  induction sh as [|d sh IH]; intros [|i ix] k I; cbn in I; try tauto; cbn [drop_from]. destruct I as [I1 I2].
  destruct (existsb (Nat.eqb k) ax); auto. cbn. auto.
Qed.
Lemma upd_length {A} k (v : A) l : length (upd k v l) = length l.
Proof. revert k. induction l as [|x l IH]; intros [|k]; cbn; auto. Qed.
Lemma upd_nth_error {A} k (v : A) l j : nth_error (upd k v l) j = if Nat.eqb j k && Nat.ltb k (length l) then Some v else nth_error l j.
Proof.
  revert k j. induction l as [|x l IH]; intros [|k] [|j]; cbn; try rewrite IH; auto.
  - destruct (Nat.eqb j k); reflexivity.
Qed.
Lemma mark_axes_spec axes : forall out res, mark_axes axes out = Some res ->
  length res = length out /\ exists ax, Forall2 (fun a k => py_index (length out) a = Some k) axes ax /\
    forall k, nth_error res k = if existsb (Nat.eqb k) ax then (if Nat.ltb k (length out) then Some (Some 1) else None) else nth_error out k.
Proof.
  induction axes as [|a axes IH]; cbn [mark_axes]; intros out res H.
  - injection H as <-. split; auto. exists []. split; [constructor|reflexivity].
  - destruct (py_index (length out) a) as [k|] eqn:E; [|discriminate]. destruct (IH _ _ H) as (L & ax & F & N).
    rewrite upd_length in *. split; auto. exists (k :: ax). split; [constructor; auto|]. intro j. rewrite N, upd_nth_error. cbn [existsb].
    rewrite <- orb_comm. destruct (existsb (Nat.eqb j) ax); cbn [orb]; auto.
    destruct (Nat.eqb_spec j k) as [->|]; cbn [andb orb]; auto. destruct (Nat.ltb_spec k (length out)); auto.
    apply nth_error_None. lia.
Qed.
Fixpoint marks (k : nat) (ax : list nat) (n : nat) : list (option nat) :=
  match n with 0 => [] | S n' => (if existsb (Nat.eqb k) ax then Some 1 else None) :: marks (S k) ax n' end.
Lemma marks_nth k ax n j : nth_error (marks k ax n) j = if Nat.ltb j n then Some (if existsb (Nat.eqb (k + j)) ax then Some 1 else None) else None.
Proof.
  revert k j. induction n as [|n IH]; intros k [|j]; cbn [marks nth_error]; auto; [rewrite Nat.add_0_r; reflexivity|].
  rewrite IH. replace (S k + j) with (k + S j) by lia. reflexivity.
Qed.
Lemma fill_dims_spec ax n : forall k insh l, fill_dims (marks k ax n) insh = Some l ->
  length l = n /\ Forall (fun d => 0 <= d)%Z l /\ (exists rest, insh = drop_from k ax (map Z.to_nat l) ++ rest) /\
  forall a, In a ax -> k <= a -> a < k + n -> nth (a - k) (map Z.to_nat l) 0 = 1.
Proof.
  induction n as [|n IH]; cbn [marks fill_dims]; intros k insh l H.
  - injection H as <-. split; auto. split; [constructor|]. split; [exists insh; auto|]. intros. lia.
  - destruct (existsb (Nat.eqb k) ax) eqn:E.
    + destruct (fill_dims (marks (S k) ax n) insh) as [l'|] eqn:Q; [|discriminate]. injection H as <-. destruct (IH _ _ _ Q) as (L & F & (rest & R) & N).
      split; [cbn; lia|]. split; [constructor; [lia|auto]|]. split.
      * exists rest. cbn [map drop_from]. rewrite E. auto.
      * intros a Ha K1 K2. destruct (Nat.eq_dec a k) as [->|]; [rewrite Nat.sub_diag; reflexivity|].
        replace (a - k) with (S (a - S k)) by lia. cbn. apply N; auto; lia.
    + destruct insh as [|d insh]; [discriminate|]. destruct (fill_dims (marks (S k) ax n) insh) as [l'|] eqn:Q; [|discriminate]. injection H as <-.
      destruct (IH _ _ _ Q) as (L & F & (rest & R) & N).
      split; [cbn; lia|]. split; [constructor; [lia|auto]|]. split.
      * exists rest. cbn [map drop_from]. rewrite E, Nat2Z.id. cbn. now rewrite R at 1.
      * intros a Ha K1 K2. destruct (Nat.eq_dec a k) as [->|].
        { assert (existsb (Nat.eqb k) ax = true); [|congruence]. apply existsb_exists. exists k. split; auto. apply Nat.eqb_refl. }
        replace (a - k) with (S (a - S k)) by lia. cbn. apply N; auto; lia.
Qed.
Lemma drop_length ax : forall l k, length (drop_from k ax l) + length (filter (fun j => existsb (Nat.eqb j) ax) (seq k (length l))) = length l.
Proof.
  induction l as [|x l IH]; intro k; cbn [drop_from length seq filter]; auto. specialize (IH (S k)). destruct (existsb (Nat.eqb k) ax); cbn [length]; lia.
Qed.
Lemma filter_marks_le ax n : length (filter (fun j => existsb (Nat.eqb j) ax) (seq 0 n)) <= length ax.
Proof.
  apply NoDup_incl_length; [apply NoDup_filter, seq_NoDup|]. intros j Hj. apply filter_In in Hj. destruct Hj as [_ Hj].
  apply existsb_exists in Hj. destruct Hj as (a & Ha & E). apply Nat.eqb_eq in E. now subst.
Qed.
Lemma filter_marks_eq ax n : length (filter (fun j => existsb (Nat.eqb j) ax) (seq 0 n)) = length ax -> NoDup ax.
Proof.
  intro H. apply (@NoDup_incl_NoDup nat (filter (fun j => existsb (Nat.eqb j) ax) (seq 0 n))); [apply NoDup_filter, seq_NoDup|lia|].
  intros j Hj. apply filter_In in Hj. destruct Hj as [_ Hj].
  apply existsb_exists in Hj. destruct Hj as (a & Ha & E). apply Nat.eqb_eq in E. now subst.
Qed.
Lemma norm_py r a : norm_axis r a = py_index r a.
Proof. reflexivity. Qed.
Lemma norm_axes_spec r axes ax : norm_axes r axes = Some ax <-> Forall2 (fun a k => norm_axis r a = Some k) axes ax.
Proof.
  revert ax. induction axes as [|a axes IH]; intro ax; cbn [norm_axes].
  - split; intro H; [injection H as <-; constructor|inversion H; auto].
  - destruct (norm_axis r a) as [x|] eqn:E.
    + destruct (norm_axes r axes) as [xs|] eqn:Q.
      * split; intro H; [injection H as <-; constructor; auto; apply IH; auto|]. inversion H; subst. assert (x = y) by congruence. subst. f_equal. f_equal.
        apply IH in H4. congruence.
      * split; [discriminate|]. intro H. inversion H; subst. apply IH in H4. discriminate.
    + split; [discriminate|]. intro H. inversion H; subst. congruence.
Qed.
Lemma norm_axis_lt r a k : norm_axis r a = Some k -> k < r.
Proof.
  unfold norm_axis. destruct (Z.leb_spec 0 a).
  - destruct (Z.ltb_spec a (Z.of_nat r)); [|discriminate]. intro H1. injection H1 as <-. lia.
  - destruct (Z.leb_spec (- Z.of_nat r) a); [|discriminate]. intro H1. injection H1 as <-. lia.
Qed.
Lemma norm_axes_lt r axes ax : norm_axes r axes = Some ax -> forall a, In a ax -> a < r.
Proof.
  intros Na a Ha. apply norm_axes_spec in Na. induction Na as [|b k l m H _ IH]; [destruct Ha|]. destruct Ha as [<-|Ha]; auto.
  eapply norm_axis_lt; eauto.
Qed.
Lemma Forall2_fun {X Y} (R : X -> Y -> Prop) l m m' : (forall x y y', R x y -> R x y' -> y = y') -> Forall2 R l m -> Forall2 R l m' -> m = m'.
Proof.
  intros F H. revert m'. induction H as [|x y l m Hxy _ IH]; intros m' H'; inversion H'; subst; auto. f_equal; eauto.
Qed.
Lemma reshape_get {A} (t y : tensor A) ix jx : data y = data t -> ravel (shape t) ix = ravel (shape y) jx -> get y jx = get t ix.
Proof. intros D R. unfold get. now rewrite D, R. Qed.
Lemma axes_py dims axes ax0 : Forall2 (fun a k => norm_axis dims a = Some k) axes ax0 -> forall ax,
  Forall2 (fun a k => py_index dims a = Some k) (map (fun i => if (0 <=? i)%Z then i else (i + Z.of_nat dims)%Z) axes) ax -> ax0 = ax.
Proof.
  induction 1 as [|a k axs ax0 Ha _ IH]; intros ax F; inversion F as [|? k' ? l' H1 H2]; subst; auto. f_equal; auto.
  clear -Ha H1. unfold py_index, norm_axis in *. destruct (Z.leb_spec 0 a).
  - destruct (Z.leb_spec 0 a); [congruence|lia].
  - destruct (Z.leb_spec (- Z.of_nat dims) a); [|discriminate]. destruct (Z.leb_spec 0 (a + Z.of_nat dims)); [|lia].
    destruct (Z.ltb_spec (a + Z.of_nat dims) (Z.of_nat dims)); [congruence|lia].
Qed.
Lemma fold_unsqueeze_spec {A} (t : tensor A) axes ys : wf t ->
  norm_axes (length (shape t) + length axes) axes <> None ->
  fold_unsqueeze t axes = Some ys -> exists y, ys = [y] /\ unsqueeze_rel axes t y.
Proof.
  intros W V. unfold fold_unsqueeze. set (dims := length (shape t) + length axes) in *.
  set (axes' := map _ axes). destruct (mark_axes axes' (repeat None dims)) as [out|] eqn:M; [|discriminate].
  destruct (fill_dims out (shape t)) as [sh|] eqn:Fd; [|discriminate]. destruct (np_reshape t sh) as [y|] eqn:E; [|discriminate].
  intro H. injection H as <-. exists y. split; auto.
  destruct (mark_axes_spec _ _ _ M) as (Lo & ax & F & N). rewrite repeat_length in *.
  destruct (norm_axes dims axes) as [ax0|] eqn:Na; [|congruence]. clear V.
  assert (ax0 = ax) by (apply (axes_py dims axes); [now apply norm_axes_spec|exact F]).
  subst ax0.
  assert (Axlt : forall a, In a ax -> a < dims).
  { exact (norm_axes_lt dims axes ax Na). }
  assert (Eo : out = marks 0 ax dims).
  { apply nth_error_ext. intro k. rewrite N, marks_nth. rewrite Nat.add_0_l. destruct (Nat.ltb_spec k dims) as [Hk|Hk].
    - destruct (existsb (Nat.eqb k) ax); auto. apply nth_error_repeat. exact Hk.
    - destruct (existsb (Nat.eqb k) ax); auto. apply nth_error_None. now rewrite repeat_length. }
  rewrite Eo in Fd. destruct (fill_dims_spec _ _ _ _ _ Fd) as (Ls & Fn & (rest & R) & Ones).
  destruct (np_reshape_spec t sh y W E) as (Wy & D & L & S & _ & Nth).
  assert (Sy : shape y = map Z.to_nat sh).
  { apply nth_error_ext. intro k. rewrite nth_error_map. destruct (nth_error sh k) as [d|] eqn:Q.
    - cbn. apply Nth; auto. rewrite Forall_forall in Fn. apply Fn. eapply nth_error_In; eauto.
    - cbn. apply nth_error_None in Q. apply nth_error_None. lia. }
  assert (La : length ax = length axes) by (apply norm_axes_spec in Na; symmetry; apply (Forall2_length Na)).
  assert (Dl := drop_length ax (map Z.to_nat sh) 0). rewrite map_length, Ls in Dl.
  assert (Le := filter_marks_le ax dims). assert (Lr := f_equal (@length _) R). rewrite app_length in Lr.
  assert (rest = []) by (destruct rest; auto; cbn in Lr; unfold dims in *; lia). subst rest. rewrite app_nil_r in R. cbn in Lr.
  assert (ND : NoDup ax) by (apply (filter_marks_eq ax dims); unfold dims in *; lia).
  assert (Ly : length (shape y) = dims) by lia.
  split; auto. split; auto. split; [lia|]. exists ax. rewrite Ly. split; auto. split; auto. rewrite Sy. split.
  - intros a Ha. rewrite <- (Nat.sub_0_r a) at 1. apply Ones; [auto|lia|]. cbn. apply Axlt. auto.
  - split; auto. intros ix I. apply reshape_get; auto. rewrite Sy.
    destruct (ravel_drop ax (map Z.to_nat sh) ix 0 I) as [Q _].
    { intros a Ha _ _. apply Ones; [auto|lia|]. cbn. apply Axlt. auto. }
    rewrite Q. f_equal. exact R.
Qed.

(** ** Split and Concat *)
Lemma upd_set_dim ax v sh : upd ax v sh = set_dim ax v sh.
Proof. revert ax. induction sh as [|d sh IH]; intros [|ax]; cbn; auto. now rewrite IH. Qed.
Lemma upd_nth ax v (l : list nat) : ax < length l -> nth ax (upd ax v l) 0 = v.
Proof. revert ax. induction l as [|d l IH]; intros [|ax] H; cbn in *; try lia. apply IH. lia. Qed.
Lemma upd_upd ax v w (l : list nat) : upd ax v (upd ax w l) = upd ax v l.
Proof. revert ax. induction l as [|d l IH]; intros [|ax]; cbn; auto. now rewrite IH. Qed.
Lemma upd_same ax (l : list nat) : upd ax (nth ax l 0) l = l.
Proof. revert ax. induction l as [|d l IH]; intros [|ax]; cbn; auto. now rewrite IH. Qed.
Lemma inb_upd ax v w ix sh : inb ix (upd ax v sh) -> ax < length sh -> w < nth ax sh 0 -> inb (upd ax w ix) sh.
Proof.
  revert ax ix. induction sh as [|d sh IH]; intros [|ax] [|i ix] I L H; cbn in *; try tauto; try lia.
  destruct I as [I1 I2]. split; auto. apply IH; auto. lia.
Qed.
Lemma inb_upd' ax v w ix sh : inb ix sh -> ax < length sh -> w < v -> inb (upd ax w ix) (upd ax v sh).
Proof.
  revert ax ix. induction sh as [|d sh IH]; intros [|ax] [|i ix] I L H; cbn in *; try tauto; try lia.
  destruct I as [I1 I2]. split; auto. apply IH; auto. lia.
Qed.
Lemma inb_at ax ix sh : inb ix sh -> ax < length sh -> nth ax ix 0 < nth ax sh 0.
Proof. intros I L. apply inb_nth in I. apply I. auto. Qed.
Lemma shift_upd ax off ix : ax < length ix -> shift ax off ix = upd ax (off + nth ax ix 0) ix.
Proof. revert ax. induction ix as [|i ix IH]; intros [|ax] H; cbn in *; try lia; auto. rewrite IH; auto. lia. Qed.
Lemma np_part_spec {A} (t : tensor A) ax st en y : wf t -> ax < length (shape t) -> st <= en -> en <= nth ax (shape t) 0 ->
  np_part t ax st en = Some y ->
  wf y /\ shape y = upd ax (en - st) (shape t) /\ part_at ax st t y.
Proof.
  intros W L B1 B2 H. unfold np_part in H. rewrite !Nat.min_l in H by lia. apply build_spec in H. destruct H as (S & Wy & G).
  split; auto. split; auto. intros ix I. rewrite S in I. assert (Li := inb_length _ _ I). rewrite upd_length in Li.
  rewrite shift_upd by lia. assert (C := inb_at ax ix _ I). rewrite upd_length, upd_nth in C by auto. specialize (C L).
  split; [eapply inb_upd; [exact I|auto|lia]|]. symmetry. apply G. auto.
Qed.
Fixpoint ascending (st : nat) (l : list nat) (dim : nat) : Prop :=
  match l with [] => st <= dim | e :: l' => st <= e /\ ascending e l' dim end.
Lemma ascending_le st l dim : ascending st l dim -> st <= dim.
Proof. revert st. induction l as [|e l IH]; cbn; intros st H; auto. destruct H as [A B]. apply IH in B. lia. Qed.
Fixpoint diffs (st : nat) (l : list nat) (dim : nat) : list nat :=
  match l with [] => [dim - st] | e :: l' => e - st :: diffs e l' dim end.
Lemma np_parts_spec {A} (t : tensor A) ax : wf t -> ax < length (shape t) -> forall idx st ys,
  ascending st idx (nth ax (shape t) 0) -> sequence (np_parts t ax st idx) = Some ys ->
  (forall y, In y ys -> wf y /\ length (shape y) = length (shape t) /\ shape y = set_dim ax (nth ax (shape y) 0) (shape t)) /\
  map (fun y => nth ax (shape y) 0) ys = diffs st idx (nth ax (shape t) 0) /\
  parts_at ax st t ys /\ ys <> [].
Proof.
  intros W L. set (dim := nth ax (shape t) 0).
  assert (One : forall st en y, st <= en -> en <= dim -> np_part t ax st en = Some y ->
     wf y /\ length (shape y) = length (shape t) /\ shape y = set_dim ax (nth ax (shape y) 0) (shape t) /\ nth ax (shape y) 0 = en - st /\ part_at ax st t y).
  { intros st en y A1 A2 H. destruct (np_part_spec t ax st en y W L A1 A2 H) as (B1 & B2 & B3). split; auto.
    split; [rewrite B2; apply upd_length|]. rewrite B2. rewrite upd_nth by auto. split; [apply upd_set_dim|]. auto. }
  induction idx as [|e idx IH]; cbn [np_parts ascending diffs sequence]; intros st ys As H.
  - fold dim in H. destruct (np_part t ax st dim) as [y|] eqn:E; [|discriminate]. injection H as <-.
    destruct (One st dim y As ltac:(lia) E) as (B1 & B2 & B3 & B4 & B5). split; [intros z [<-|[]]; auto|].
    cbn [map]. rewrite B4. split; [reflexivity|]. cbn [parts_at]. rewrite B4. split; [split; [exact B5|fold dim; lia]|discriminate].
  - destruct As as [A1 A2]. assert (A3 := ascending_le _ _ _ A2).
    destruct (np_part t ax st e) as [y|] eqn:E; [|discriminate]. destruct (sequence (np_parts t ax e idx)) as [ys'|] eqn:Q; [|discriminate].
    injection H as <-. destruct (One st e y A1 A3 E) as (B1 & B2 & B3 & B4 & B5). destruct (IH e ys' A2 Q) as (C1 & C2 & C3 & _).
    split; [intros z [<-|Hz]; auto|]. cbn [map parts_at]. rewrite B4, C2. split; [reflexivity|]. split; [|discriminate]. split; [exact B5|].
    replace (st + (e - st)) with e by lia. exact C3.
Qed.
Definition sum (l : list nat) : nat := fold_right Nat.add 0 l.
Lemma cumsum_asc l : forall s dim, s + sum l <= dim -> ascending s (cumsum_from s l) dim.
Proof. induction l as [|x l IH]; cbn [sum fold_right cumsum_from ascending]; intros s dim H; [lia|]. fold (sum l) in H. split; [lia|]. apply IH. lia. Qed.
Lemma cumsum_diffs l : forall s dim, l <> [] -> s + sum l = dim -> diffs s (cumsum_from s (removelast l)) dim = l.
Proof.
  induction l as [|x l IH]; intros s dim N H; [congruence|]. destruct l as [|y l].
  - cbn in *. f_equal. lia.
  - change (removelast (x :: y :: l)) with (x :: removelast (y :: l)). cbn [cumsum_from diffs]. f_equal; [lia|].
    apply IH; [discriminate|]. cbn in *. lia.
Qed.
Lemma removelast_sum l : sum (removelast l) <= sum l.
Proof.
  induction l as [|x l IH]; [auto|]. destruct l as [|y l]; [cbn; lia|]. change (removelast (x :: y :: l)) with (x :: removelast (y :: l)).
  change (sum (x :: removelast (y :: l))) with (x + sum (removelast (y :: l))). change (sum (x :: y :: l)) with (x + sum (y :: l)). lia.
Qed.
Lemma even_asc q n : forall k, ascending (k * q) (map (fun j => S j * q) (seq k n)) ((k + S n) * q).
Proof. induction n as [|n IH]; intro k; cbn [seq map ascending]; [nia|]. split; [nia|]. replace (k + S (S n)) with (S k + S n) by lia. apply IH. Qed.
Lemma even_diffs q n : forall k d, In d (diffs (k * q) (map (fun j => S j * q) (seq k n)) ((k + S n) * q)) -> d = q.
Proof.
  induction n as [|n IH]; intros k d; cbn [seq map diffs].
  - intros [<-|[]]. nia.
  - intros [<-|H]; [nia|]. replace (k + S (S n)) with (S k + S n) in H by lia. eauto.
Qed.
Lemma diffs_length st l d : length (diffs st l d) = S (length l).
Proof. revert st. induction l as [|e l IH]; intro st; cbn; auto. Qed.
Lemma shift_0 ax ix : shift ax 0 ix = ix.
Proof. revert ax. induction ix as [|i ix IH]; intros [|ax]; cbn; auto. now rewrite IH. Qed.
Lemma fold_split_spec {A} (t : tensor A) axis split nout ys ax : wf t -> 0 < nout ->
  norm_axis (length (shape t)) axis = Some ax ->
  (forall l, split = Some l -> length l = nout /\ sum l = nth ax (shape t) 0) ->
  fold_split t axis split nout = Some ys -> length ys = nout /\ split_rel axis split t ys.
Proof.
  intros W Pn Na Hs. assert (L := norm_axis_lt _ _ _ Na). unfold fold_split. destruct (Nat.eqb_spec nout 1) as [->|N1].
  - intro H. injection H as <-. split; auto. split.
    + split; [discriminate|]. split; auto. exists ax. split; auto. split.
      * intros x [<-|[]]. split; auto. split; auto. rewrite <- upd_set_dim, upd_same. auto.
      * cbn [parts_at]. split; [|lia]. intros ix I. rewrite shift_0. auto.
    + exists ax. split; auto. destruct split as [l|].
      * destruct (Hs l eq_refl) as [Hl Hsum]. destruct l as [|d [|]]; try discriminate. cbn in *. f_equal. lia.
      * intros y [<-|[]]. cbn. lia.
  - rewrite norm_py in Na. rewrite Na. set (dim := nth ax (shape t) 0) in *. destruct split as [l|].
    + destruct (Hs l eq_refl) as [Hl Hsum]. assert (Ln : l <> [] \/ l = []) by (destruct l; [right; auto|left; discriminate]). intro H. 
      assert (As : ascending 0 (cumsum (removelast l)) dim).
      { apply cumsum_asc. assert (Q := removelast_sum l). lia. }
      destruct (np_parts_spec t ax W L _ 0 ys As H) as (C1 & C2 & C3 & C4).
      destruct Ln as [Ln|El].
      * unfold cumsum in C2. fold dim in C2. rewrite (cumsum_diffs l 0 dim Ln ltac:(lia)) in C2.
        split; [rewrite <- Hl, <- C2; now rewrite map_length|]. split; [|exists ax; auto].
        split; auto. split; auto. exists ax. auto.
      * subst l. cbn in Hl. lia.
    + destruct (Nat.eqb_spec nout 0); [discriminate|]. destruct (Nat.eqb_spec (dim mod nout) 0) as [M|]; [|discriminate].
      intro H. assert (Hd : dim = nout * (dim / nout)) by (apply Nat.div_exact; auto). set (q := dim / nout) in *.
      assert (Hd' : dim = (0 + S (nout - 1)) * q) by (replace (0 + S (nout - 1)) with nout by lia; exact Hd).
      assert (As : ascending 0 (map (fun k => S k * q) (seq 0 (nout - 1))) dim).
      { rewrite Hd'. apply (even_asc q (nout - 1) 0). }
      destruct (np_parts_spec t ax W L _ 0 ys As H) as (C1 & C2 & C3 & C4). fold dim in C2.
      assert (Ly : length ys = nout).
      { rewrite <- (map_length (fun y => nth ax (shape y) 0)), C2, diffs_length, map_length, seq_length. lia. }
      split; auto. split; [split; auto; split; auto; exists ax; auto|]. exists ax. split; auto. intros y Hy.
      assert (Q : nth ax (shape y) 0 = q).
      { apply (even_diffs q (nout - 1) 0). rewrite <- Hd'. change (0 * q) with 0. rewrite <- C2. exact (in_map (fun y => nth ax (shape y) 0) ys y Hy). }
      rewrite Q, Ly. fold dim. lia.
Qed.
Lemma locate_app {A} ax c (pre : list (tensor A)) x suf : c < nth ax (shape x) 0 ->
  locate ax (sum (map (fun u => nth ax (shape u) 0) pre) + c) (pre ++ x :: suf) = Some (x, c).
Proof.
  intro H. induction pre as [|p pre IH]; cbn [map app locate].
  - change (sum []) with 0. rewrite Nat.add_0_l. destruct (Nat.ltb_spec c (nth ax (shape x) 0)); [auto|lia].
  - change (sum (nth ax (shape p) 0 :: map (fun u => nth ax (shape u) 0) pre)) with (nth ax (shape p) 0 + sum (map (fun u => nth ax (shape u) 0) pre)).
    destruct (Nat.ltb_spec (nth ax (shape p) 0 + sum (map (fun u => nth ax (shape u) 0) pre) + c) (nth ax (shape p) 0)); [lia|].
    rewrite <- IH. f_equal. lia.
Qed.
Lemma sum_app l l' : sum (l ++ l') = sum l + sum l'.
Proof. induction l as [|x l IH]; [auto|]. change (sum ((x :: l) ++ l')) with (x + sum (l ++ l')). change (sum (x :: l)) with (x + sum l). lia. Qed.
Lemma list_eqb_spec l l' : list_eqb l l' = true <-> l = l'.
Proof. unfold list_eqb. destruct (list_eq_dec Nat.eq_dec l l'); split; congruence. Qed.
Lemma fold_concat_spec {A} (ts : list (tensor A)) axis ys : (forall t, In t ts -> wf t) ->
  fold_concat ts axis = Some ys -> exists y, ys = [y] /\ concat_rel axis ts y.
Proof.
  intro W. unfold fold_concat. destruct (np_concatenate ts axis) as [y|] eqn:E; [|discriminate]. intro H. injection H as <-. exists y. split; auto.
  unfold np_concatenate in E. destruct ts as [|t ts']; [discriminate|]. set (ts := t :: ts') in *.
  destruct (py_index (length (shape t)) axis) as [ax|] eqn:Pa; [|discriminate].
  destruct (forallb (fun u => list_eqb (upd ax 0 (shape u)) (upd ax 0 (shape t))) ts) eqn:F; [|discriminate].
  rewrite forallb_forall in F. apply build_spec in E. fold (sum (map (fun u => nth ax (shape u) 0) ts)) in E.
  set (total := sum (map (fun u => nth ax (shape u) 0) ts)) in *. destruct E as (Sy & Wy & G).
  assert (L := norm_axis_lt _ _ _ Pa).
  assert (Sh : forall u, In u ts -> shape u = upd ax (nth ax (shape u) 0) (shape t)).
  { intros u Hu. specialize (F u Hu). apply list_eqb_spec in F. rewrite <- (upd_same ax (shape u)) at 1. rewrite <- (upd_upd ax _ 0 (shape u)).
    rewrite F, upd_upd. reflexivity. }
  assert (Ly : length (shape y) = length (shape t)) by (rewrite Sy; apply upd_length).
  split; [discriminate|]. split; auto. exists ax. split; [rewrite Ly; exact Pa|]. split.
  - intros x Hx. split; auto. assert (S := Sh x Hx). split; [rewrite S, Ly; apply upd_length|]. rewrite Sy, <- upd_set_dim, upd_upd. auto.
  - assert (K : forall suf pre, ts = pre ++ suf -> parts_at ax (sum (map (fun u => nth ax (shape u) 0) pre)) y suf).
    { induction suf as [|x suf IH]; intros pre Ep; cbn [parts_at].
      - rewrite Sy, upd_nth by auto. rewrite app_nil_r in Ep. unfold total. now rewrite Ep.
      - split.
        + intros ix I. assert (Hx : In x ts) by (rewrite Ep; apply in_app_iff; cbn; auto). assert (S := Sh x Hx).
          assert (Li := inb_length _ _ I). assert (Lx : length (shape x) = length (shape t)) by (rewrite S; apply upd_length).
          rewrite shift_upd by lia. assert (C := inb_at ax ix _ I ltac:(lia)).
          set (off := sum (map (fun u => nth ax (shape u) 0) pre)) in *.
          assert (Bd : off + nth ax ix 0 < total).
          { unfold total. rewrite Ep, map_app, sum_app. cbn [map]. fold off.
            change (sum (nth ax (shape x) 0 :: map (fun u => nth ax (shape u) 0) suf)) with (nth ax (shape x) 0 + sum (map (fun u => nth ax (shape u) 0) suf)). lia. }
          assert (I2 : inb (upd ax (off + nth ax ix 0) ix) (upd ax total (shape t))).
          { rewrite S in I. rewrite <- (upd_upd ax total (nth ax (shape x) 0) (shape t)). apply inb_upd'; auto. rewrite upd_length. auto. }
          rewrite Sy. split; auto. rewrite (G _ I2). rewrite upd_nth by lia. rewrite Ep. unfold off. rewrite locate_app by auto.
          rewrite upd_upd, upd_same. reflexivity.
        + replace (sum (map (fun u => nth ax (shape u) 0) pre) + nth ax (shape x) 0) with (sum (map (fun u => nth ax (shape u) 0) (pre ++ [x]))).
          * apply IH. rewrite <- app_assoc. exact Ep.
          * rewrite map_app, sum_app. cbn. lia. }
    apply (K ts []). reflexivity.
Qed.

(** ** Add, Sub, Mul *)
Lemma bcast_dims_spec a : forall b l, bcast_dims a b = Some l -> length l = length a /\ length b = length a /\
  forall k, k < length a -> (nth k a 0 = nth k b 0 \/ nth k a 0 = 1 \/ nth k b 0 = 1) /\
                            nth k l 0 = if Nat.eqb (nth k a 0) 1 then nth k b 0 else nth k a 0.
Proof.
  induction a as [|x a IH]; intros [|y b] l H; cbn [bcast_dims] in H; try discriminate.
  - injection H as <-. repeat split; auto; cbn in *; lia.
  - destruct (bcast_dims a b) as [l'|] eqn:E; [|discriminate]. destruct (IH b l' E) as (L1 & L2 & N).
    assert (K : exists d, l = d :: l' /\ (x = y \/ x = 1 \/ y = 1) /\ d = if Nat.eqb x 1 then y else x).
    { destruct (Nat.eqb_spec x y); [injection H as <-; exists x; subst; destruct (Nat.eqb_spec y 1); auto|].
      destruct (Nat.eqb_spec x 1); [injection H as <-; exists y; auto|].
      destruct (Nat.eqb_spec y 1); [injection H as <-; exists x; auto|discriminate]. }
    destruct K as (d & -> & K1 & K2). cbn [length]. split; [lia|]. split; [lia|]. intros [|k] Hk; cbn [nth]; auto. apply N. lia.
Qed.
Lemma fold_binary_spec {A} (f : A -> A -> A) t u ys : wf t -> wf u -> fold_binary f t u = Some ys ->
  exists y, ys = [y] /\ elementwise_rel f t u y.
Proof.
  intros Wt Wu. unfold fold_binary. destruct (np_binary f t u) as [y|] eqn:E; [|discriminate]. intro H. injection H as <-. exists y. split; auto.
  unfold np_binary in E. set (r := Nat.max (length (shape t)) (length (shape u))) in *.
  destruct (bcast_dims (pad_ones r (shape t)) (pad_ones r (shape u))) as [sh|] eqn:B; [|discriminate].
  apply build_spec in E. destruct E as (Sy & Wy & G). destruct (bcast_dims_spec _ _ _ B) as (L1 & L2 & N).
  assert (Lp : forall s, length s <= r -> length (pad_ones r s) = r).
  { intros s Hs. unfold pad_ones. rewrite app_length, repeat_length. lia. }
  assert (Lt := Lp (shape t) ltac:(unfold r; lia)). rewrite Lt in L1, L2, N. unfold elementwise_rel. fold r. split; auto. split; auto. split; auto. rewrite Sy. split; [exact L1|]. split.
  - intros k Hk. exact (N k Hk).
  - intros ix I. specialize (G ix I). rewrite <- Sy in I. destruct (get_wf y ix Wy I) as [v Ev]. rewrite Ev in G. unfold bcast_ix. rewrite Ev.
    destruct (get t _) as [a|] eqn:Ga; [|discriminate]. destruct (get u _) as [b|] eqn:Gb; [|discriminate]. exists a, b. auto.
Qed.
