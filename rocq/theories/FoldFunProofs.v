(** The ONNX specifications used for folding determine their results. *)
From Coq Require Import List Arith ZArith Bool Lia Permutation.
From Verif Require Import Tensor OnnxSpec FoldModel TensorProofs FoldProofs.
Import ListNotations.
Local Open Scope list_scope.

(** product of the dimensions that the target does not leave open *)
Fixpoint others (target : list Z) (sh : list nat) : nat :=
  match target, sh with
  | t :: target', d :: sh' => if (t =? -1)%Z then others target' sh' else d * others target' sh'
  | _, _ => 1
  end.
Lemma reshape_shape_fun target : forall insh k sh sh', length sh = length target -> length sh' = length target ->
  length (filter (Z.eqb (-1)) target) <= 1 ->
  (forall i t d, nth_error target i = Some t -> nth_error sh i = Some d -> dim_ok false insh (k + i) t d) ->
  (forall i t d, nth_error target i = Some t -> nth_error sh' i = Some d -> dim_ok false insh (k + i) t d) ->
  (In (-1)%Z target -> others target sh <> 0) ->
  (In (-1)%Z target -> size sh = size sh') -> sh = sh'.
Proof.
  induction target as [|t target IH]; intros insh k [|d sh] [|d' sh'] L L' C H H' P Sz; try discriminate; auto.
  rewrite !size_cons in *. cbn in L, L'.
  assert (Htl : forall i t0 d0, nth_error target i = Some t0 -> nth_error sh i = Some d0 -> dim_ok false insh (S k + i) t0 d0).
  { intros i t0 d0 A B. replace (S k + i) with (k + S i) by lia. apply (H (S i)); auto. }
  assert (Htl' : forall i t0 d0, nth_error target i = Some t0 -> nth_error sh' i = Some d0 -> dim_ok false insh (S k + i) t0 d0).
  { intros i t0 d0 A B. replace (S k + i) with (k + S i) by lia. apply (H' (S i)); auto. }
  assert (H0 := H 0 t d eq_refl eq_refl). assert (H0' := H' 0 t d' eq_refl eq_refl). rewrite Nat.add_0_r in *.
  cbn [filter others] in *. destruct (Z.eqb_spec (-1) t) as [E|E].
  - subst t. cbn [length] in C. assert (C' : length (filter (Z.eqb (-1)) target) = 0) by lia.
    assert (Nin : ~ In (-1)%Z target).
    { intro K. assert (K' : In (-1)%Z (filter (Z.eqb (-1)) target)) by (apply filter_In; split; auto). destruct (filter (Z.eqb (-1)) target); [destruct K'|discriminate]. }
    assert (sh = sh') by (apply (IH insh (S k)); auto; try lia; intro K; contradiction). subst sh'. f_equal.
    assert (Sz' := Sz (or_introl eq_refl)). assert (P' := P (or_introl eq_refl)). cbn in P'. change (others target sh <> 0) in P'.
    assert (Eo : others target sh = size sh).
    { clear -Nin L. revert sh L. induction target as [|t target IH]; intros [|d sh] L; try discriminate; auto. cbn [others].
      destruct (Z.eqb_spec t (-1)); [subst; exfalso; apply Nin; cbn; auto|]. rewrite size_cons, IH; auto. intro K. apply Nin. cbn. auto. }
    rewrite Eo in P'. nia.
  - assert (d = d').
    { unfold dim_ok in H0, H0'. destruct H0 as [A|[[A1 A2]|[A1 A2]]], H0' as [A'|[[A1' A2']|[A1' A2']]]; try lia; congruence. }
    subst d'. f_equal. destruct (Z.eqb_spec t (-1)); [congruence|]. apply (IH insh (S k)); auto; try lia.
    + intro K. assert (X := P (or_intror K)). nia.
    + intro K. assert (X := P (or_intror K)). assert (Y := Sz (or_intror K)). nia.
Qed.
Lemma reshape_fun' {A} target (x y z : tensor A) : (In (-1)%Z target -> others target (shape y) <> 0) ->
  reshape_rel false target x y -> reshape_rel false target x z -> y = z.
Proof.
  intros P (Wx & Wy & C & L & D & S & G) (_ & Wz & _ & L' & D' & S' & G').
  assert (E : shape y = shape z) by (apply (reshape_shape_fun target (shape x) 0); auto; lia).
  apply tensor_ext; auto. intros jx J. assert (R := ravel_lt _ _ J). set (ix := unravel (shape x) (ravel (shape y) jx)).
  assert (I : inb ix (shape x)) by (apply unravel_inb; lia).
  assert (Q : ravel (shape x) ix = ravel (shape y) jx) by (apply ravel_unravel; lia).
  rewrite (G ix jx), (G' ix jx); auto; congruence.
Qed.
Lemma others_copied (f : Z -> nat) insh target : forall k l, copy_zeros insh k target = Some l ->
  (forall d, In d target -> (-1 <= d)%Z) -> (forall d, (0 <= d)%Z -> f d = Z.to_nat d) ->
  Z.of_nat (others target (map f l)) = fold_right Z.mul 1%Z (filter (fun d => (0 <=? d)%Z) l).
Proof.
  induction target as [|t target IH]; intros k l E B F; cbn [copy_zeros] in E; [injection E as <-; reflexivity|].
  destruct (copy_zeros insh (S k) target) as [l1|] eqn:E1; [|discriminate].
  assert (IH' := IH (S k) l1 E1 (fun d H => B d (or_intror H)) F). assert (Bt := B t (or_introl eq_refl)).
  destruct (Z.eqb_spec t 0) as [->|].
  - destruct (nth_error insh k) as [v|] eqn:V; [|discriminate]. injection E as <-. cbn [map others filter].
    destruct (Z.leb_spec 0 (Z.of_nat v)); [|lia]. cbn [fold_right]. change (0 =? -1)%Z with false. cbn iota.
    rewrite Nat2Z.inj_mul, IH', F by lia. lia.
  - injection E as <-. cbn [map others filter]. destruct (Z.eqb_spec t (-1)).
    + subst. exact IH'.
    + destruct (Z.leb_spec 0 t); [|lia]. cbn [fold_right]. rewrite Nat2Z.inj_mul, IH', F by lia. lia.
Qed.
Lemma copied_minus1 insh target : forall k l, copy_zeros insh k target = Some l -> In (-1)%Z target -> In (-1)%Z l.
Proof.
  induction target as [|t target IH]; intros k l E K; cbn [copy_zeros] in E; [destruct K|].
  destruct (copy_zeros insh (S k) target) as [l1|] eqn:E1; [|discriminate].
  destruct K as [->|K].
  - cbn in E. injection E as <-. cbn. auto.
  - assert (X := IH _ _ E1 K). destruct (Z.eqb t 0); [destruct (nth_error insh k); [|discriminate]|]; injection E as <-; cbn; auto.
Qed.
Lemma fold_reshape_fun {A} (t : tensor A) target y z : wf t -> (forall d, In d target -> (-1 <= d)%Z) ->
  fold_reshape t target = Some [y] -> reshape_rel false target t z -> z = y.
Proof.
  intros W B E R. destruct (fold_reshape_spec t target [y] W B E) as (y' & E' & Ry). injection E' as <-. symmetry.
  eapply reshape_fun'; eauto. intro M. unfold fold_reshape in E.
  destruct (copy_zeros (shape t) 0 target) as [l|] eqn:C; [|discriminate].
  destruct (np_reshape t l) as [y'|] eqn:N; [|discriminate]. injection E as ->.
  assert (M' := copied_minus1 _ _ _ _ C M). unfold np_reshape in N.
  assert (Mf : In (-1)%Z (filter (fun d => (d <? 0)%Z) l)) by (apply filter_In; auto).
  destruct (filter (fun d => (d <? 0)%Z) l) as [|a [|? ?]]; [destruct Mf| |discriminate].
  destruct (Z.eqb_spec (fold_right Z.mul 1%Z (filter (fun d => (0 <=? d)%Z) l)) 0) as [|K]; [discriminate|].
  match type of N with (if ?c then _ else _) = _ => destruct c; [|discriminate] end. injection N as <-. cbn [shape].
  assert (X := others_copied (fun d => Z.to_nat (if d <? 0 then Z.of_nat (size (shape t)) / fold_right Z.mul 1 (filter (fun d => 0 <=? d) l) else d)%Z)
    (shape t) target 0 l C B). rewrite <- X in K; [lia|]. intros d Hd. destruct (Z.ltb_spec d 0); [lia|reflexivity].
Qed.

Lemma drop_fun ax : forall l l' k, length l = length l' -> drop_from k ax l = drop_from k ax l' ->
  (forall a, In a ax -> k <= a -> a < k + length l -> nth (a - k) l 0 = nth (a - k) l' 0) -> l = l'.
Proof.
  induction l as [|x l IH]; intros [|x' l'] k L E H; try discriminate; auto. cbn [drop_from] in E. cbn in L.
  assert (Ht : forall a, In a ax -> S k <= a -> a < S k + length l -> nth (a - S k) l 0 = nth (a - S k) l' 0).
  { intros a Ia La Ra. assert (X := H a Ia ltac:(lia) ltac:(cbn; lia)). replace (a - k) with (S (a - S k)) in X by lia. exact X. }
  destruct (existsb (Nat.eqb k) ax) eqn:Ex.
  - apply existsb_exists in Ex. destruct Ex as (a & Ia & Ea). apply Nat.eqb_eq in Ea. subst a.
    assert (X := H k Ia ltac:(lia) ltac:(cbn; lia)). rewrite Nat.sub_diag in X. cbn in X. f_equal; auto. apply (IH l' (S k)); auto.
  - injection E as -> E. f_equal. apply (IH l' (S k)); auto.
Qed.
Lemma unsqueeze_fun {A} axes (x y z : tensor A) : unsqueeze_rel axes x y -> unsqueeze_rel axes x z -> y = z.
Proof.
  intros (Wx & Wy & L & ax & Na & Nd & One & Sh & G) (_ & Wz & L' & ax' & Na' & _ & One' & Sh' & G').
  assert (Ll : length (shape y) = length (shape z)) by congruence. rewrite <- Ll in Na'. assert (ax' = ax) by congruence. subst ax'.
  assert (E : shape y = shape z).
  { apply (drop_fun ax _ _ 0); auto; [unfold drop_axes in *; congruence|]. intros a Ia _ _. rewrite Nat.sub_0_r, One, One'; auto. }
  apply tensor_ext; auto. intros ix I. rewrite G by auto. rewrite G' by congruence. reflexivity.
Qed.
Lemma elementwise_fun {A} (f : A -> A -> A) t u (y z : tensor A) : elementwise_rel f t u y -> elementwise_rel f t u z -> y = z.
Proof.
  intros (W1 & W2 & Wy & L & D & G) (_ & _ & Wz & L' & D' & G'). cbn zeta in *.
  assert (E : shape y = shape z).
  { apply list_nth_ext; [congruence|]. intros k Hk. rewrite L in Hk. rewrite (proj2 (D k Hk)), (proj2 (D' k Hk)). reflexivity. }
  apply tensor_ext; auto. intros ix I. destruct (G ix I) as (a & b & A1 & B1 & ->). rewrite E in I. destruct (G' ix I) as (a' & b' & A2 & B2 & ->). congruence.
Qed.

Lemma parts_total {A} ax xs : forall off (y : tensor A), parts_at ax off y xs ->
  nth ax (shape y) 0 = off + sum (map (fun x => nth ax (shape x) 0) xs).
Proof.
  induction xs as [|x xs IH]; intros off y P; cbn [parts_at map] in *; [cbn; lia|]. destruct P as [_ P]. rewrite (IH _ _ P).
  change (sum (?a :: ?l)) with (a + sum l). lia.
Qed.
Lemma parts_get {A} ax xs : forall off (y z : tensor A), parts_at ax off y xs -> parts_at ax off z xs -> shape y = shape z ->
  (forall x, In x xs -> length (shape x) = length (shape y) /\ shape x = set_dim ax (nth ax (shape x) 0) (shape y)) -> ax < length (shape y) ->
  forall ix, inb ix (shape y) -> off <= nth ax ix 0 -> get y ix = get z ix.
Proof.
  induction xs as [|x xs IH]; intros off y z P P' E S La ix I Lo; cbn [parts_at] in *.
  - assert (K := inb_at ax ix _ I La). lia.
  - destruct P as [Px P], P' as [Px' P']. destruct (S x (or_introl eq_refl)) as [Lx Sx].
    destruct (Nat.le_gt_cases (off + nth ax (shape x) 0) (nth ax ix 0)) as [L|L].
    + apply (IH (off + nth ax (shape x) 0)); auto. intros. apply S. cbn. auto.
    + set (jx := upd ax (nth ax ix 0 - off) ix). assert (Li := inb_length _ _ I).
      assert (J : inb jx (shape x)).
      { rewrite Sx, <- upd_set_dim. apply inb_upd'; auto. lia. }
      assert (Sj : shift ax off jx = ix).
      { rewrite shift_upd by (unfold jx; rewrite upd_length; lia). unfold jx. rewrite upd_upd, upd_nth by lia.
        replace (off + (nth ax ix 0 - off)) with (nth ax ix 0) by lia. apply upd_same. }
      destruct (Px jx J) as [_ G]. destruct (Px' jx J) as [_ G']. rewrite Sj in *. congruence.
Qed.
Lemma concat_fun {A} axis (xs : list (tensor A)) y z : concat_rel axis xs y -> concat_rel axis xs z -> y = z.
Proof.
  intros (Ne & Wy & ax & Na & Hx & P) (_ & Wz & ax' & Na' & Hx' & P').
  destruct xs as [|x0 xs]; [congruence|]. destruct (Hx x0 (or_introl eq_refl)) as (_ & L & Sx). destruct (Hx' x0 (or_introl eq_refl)) as (_ & L' & Sx').
  rewrite <- L in Na. rewrite <- L' in Na'. assert (ax' = ax) by congruence. subst ax'. assert (La := norm_axis_lt _ _ _ Na).
  assert (E : shape y = shape z).
  { rewrite <- (upd_same ax (shape y)), <- (upd_same ax (shape z)). rewrite (parts_total _ _ _ _ P), (parts_total _ _ _ _ P').
    rewrite <- (upd_upd ax _ (nth ax (shape x0) 0) (shape y)), <- (upd_upd ax _ (nth ax (shape x0) 0) (shape z)).
    rewrite (upd_set_dim ax (nth ax (shape x0) 0) (shape y)), (upd_set_dim ax (nth ax (shape x0) 0) (shape z)). rewrite <- Sx, <- Sx'. reflexivity. }
  apply tensor_ext; auto. intros ix I. apply (parts_get ax (x0 :: xs) 0); auto; [|lia|lia]. intros x K. destruct (Hx x K) as (_ & A1 & A2). auto.
Qed.
Lemma split_fun {A} axis lens (x : tensor A) ys zs : length ys = length zs -> split_rel axis lens x ys -> split_rel axis lens x zs -> ys = zs.
Proof.
  intros Ll ((Ne & Wx & ax & Na & Hy & P) & ax1 & Na1 & D) ((_ & _ & ax' & Na' & Hz & P') & ax1' & Na1' & D').
  assert (ax1 = ax) by congruence. assert (ax' = ax) by congruence. assert (ax1' = ax) by congruence. subst.
  assert (E : map (fun y => nth ax (shape y) 0) ys = map (fun y => nth ax (shape y) 0) zs).
  { destruct lens as [l|]; [congruence|].
    assert (Q : forall n l, n <> 0 -> (forall y : tensor A, In y l -> nth ax (shape y) 0 * n = nth ax (shape x) 0) ->
       map (fun y => nth ax (shape y) 0) l = repeat (nth ax (shape x) 0 / n) (length l)).
    { intros n l Hn. induction l as [|y l IH]; intro H; cbn; auto. f_equal; [|apply IH; intros; apply H; cbn; auto].
      rewrite <- (H y (or_introl eq_refl)). symmetry. apply Nat.div_mul. exact Hn. }
    assert (length ys <> 0) by (destruct ys; [congruence|discriminate]).
    rewrite (Q (length ys) ys), (Q (length ys) zs); auto; try congruence. intros y K. rewrite Ll. auto. }
  assert (La := norm_axis_lt _ _ _ Na). clear D D' Ne. clear Ll. cut (forall off, parts_at ax off x ys -> parts_at ax off x zs -> ys = zs); [intro Gen; exact (Gen 0 P P')|]. clear P P'. revert zs E Hy Hz.
  induction ys as [|y ys IH]; intros [|z zs] E Hy Hz off P P'; cbn [map] in E; try discriminate; auto.
  injection E as E0 E. cbn [parts_at] in P, P'. destruct P as [Py P], P' as [Pz P'].
  destruct (Hy y (or_introl eq_refl)) as (Wy & Ly & Sy). destruct (Hz z (or_introl eq_refl)) as (Wz & Lz & Sz). f_equal.
  - assert (Es : shape y = shape z) by congruence. apply tensor_ext; auto.
    intros ix I. destruct (Py ix I) as [_ <-]. rewrite Es in I. destruct (Pz ix I) as [_ <-]. reflexivity.
  - apply (IH zs) with (off := off + nth ax (shape y) 0); auto.
    + intros w K. apply Hy. cbn. auto.
    + intros w K. apply Hz. cbn. auto.
    + rewrite E0. exact P'.
Qed.
