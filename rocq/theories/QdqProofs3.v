(** Operators that copy elements. *)
From Coq Require Import String List Arith ZArith Bool Lia Reals.
From Verif Require Import FGraph Tensor OnnxSpec TensorProofs FoldProofs PushSpec PushProofs QdqSpec QdqProofs2.
Import ListNotations.
Local Open Scope nat_scope.
Local Open Scope list_scope.

Section Copies.
Context {A : Type}.
Notation T := (tensor A).
Lemma combine_seq_map {B C} (f : nat * B -> C) : forall (l : list B) j, length (map f (combine (seq j (length l)) l)) = length l.
Proof. intros. rewrite map_length, combine_length, seq_length. lia. Qed.
Lemma view_first (x : T) ws : view [0] (x :: ws) = inl (shape x) :: map inr ws.
Proof.
  unfold view. cbn [length seq combine map fst snd existsb Nat.eqb orb]. f_equal.
  assert (K : forall j, map (fun kx => if Nat.eqb (fst kx) 0 || false then inl (shape (snd kx)) else inr (snd kx)) (combine (seq (S j) (length ws)) ws) = map inr ws); [|apply K].
  induction ws as [|w ws IH]; intros j; auto. cbn [length seq combine map fst snd]. rewrite IH. reflexivity.
Qed.
Lemma map_inr_inj {B C} (l l' : list C) : map (@inr B C) l = map inr l' -> l = l'.
Proof. revert l'. induction l as [|x l IH]; intros [|y l'] H; try discriminate; auto. cbn in H. injection H as -> H. f_equal. auto. Qed.
Lemma copies_first len (R : list T -> T -> Prop) (cond : list T -> list nat -> list nat -> Prop) (corr : list T -> list nat -> list nat -> list nat -> list nat -> Prop) :
  (forall x ws w, length ws = len -> (R (x :: ws) w <-> wf x /\ wf w /\ cond ws (shape x) (shape w) /\
     forall ix jx, inb ix (shape w) -> inb jx (shape x) -> corr ws (shape x) (shape w) ix jx -> get w ix = get x jx)) ->
  (forall ws shx shw ix, cond ws shx shw -> inb ix shw -> exists jx, inb jx shx /\ corr ws shx shw ix jx) ->
  copies (S len) [0] R.
Proof.
  intros H E.
  exists (fun v sh => exists shx ws, v = inl shx :: map inr ws /\ cond ws shx sh), (fun v sh ix k jx => k = 0 /\ exists shx ws, v = inl shx :: map inr ws /\ inb jx shx /\ corr ws shx sh ix jx).
  intros [|x ws] w L; [discriminate|]. cbn in L. injection L as L. rewrite (H x ws w L), view_first. split.
  - intros (Wx & Ww & Co & K). split; [intros k y [<-|[]] Ey; cbn in Ey; inversion Ey; now subst|]. split; auto. split; [exists (shape x), ws; auto|]. intros ix I. split.
    + destruct (E ws (shape x) (shape w) ix Co I) as (jx & J & Cr). exists 0, jx. split; auto. exists (shape x), ws. auto.
    + intros k jx (-> & shx & ws' & Ev & J & Cr). inversion Ev as [[E1 E2]]. apply map_inr_inj in E2. subst shx ws'. exists x. split; [now left|]. split; auto.
  - intros (Wx & Ww & (shx & ws' & Ev & Co) & K). inversion Ev as [[E1 E2]]. apply map_inr_inj in E2. subst shx ws'. split; [apply (Wx 0); [now left|reflexivity]|]. split; auto. split; auto.
    intros ix jx I J Cr. destruct (K ix I) as [_ K']. destruct (K' 0 jx) as (x' & _ & Ex & _ & G); [split; auto; exists (shape x), ws; auto|]. cbn in Ex. inversion Ex. now subst.
Qed.

Lemma copies_par {P} len (par : list T -> option P) (rel : P -> T -> T -> Prop) (cond : P -> list nat -> list nat -> Prop) (corr : P -> list nat -> list nat -> list nat -> list nat -> Prop) :
  (forall p x w, rel p x w <-> wf x /\ wf w /\ cond p (shape x) (shape w) /\ forall ix jx, inb ix (shape w) -> inb jx (shape x) -> corr p (shape x) (shape w) ix jx -> get w ix = get x jx) ->
  (forall p shx shw ix, cond p shx shw -> inb ix shw -> exists jx, inb jx shx /\ corr p shx shw ix jx) ->
  copies (S len) [0] (first_rel par rel).
Proof.
  intros H E. apply (copies_first len _ (fun ws shx shw => exists p, par ws = Some p /\ cond p shx shw) (fun ws shx shw ix jx => exists p, par ws = Some p /\ corr p shx shw ix jx)).
  - intros x ws w L. cbn [first_rel]. split.
    + intros (p & Ep & Rp). apply H in Rp. destruct Rp as (K1 & K2 & K3 & K4). split; auto. split; auto. split; [eauto|]. intros ix jx I J (p' & Ep' & C). assert (p' = p) by congruence. subst. auto.
    + intros (K1 & K2 & (p & Ep & K3) & K4). exists p. split; auto. apply H. split; auto. split; auto. split; auto. intros ix jx I J C. apply K4; eauto.
  - intros ws shx shw ix (p & Ep & C) I. destruct (E p shx shw ix C I) as (jx & J & K). eauto.
Qed.
Lemma identity_copies : copies 1 [0] (fun ws (w : T) => match ws with [x] => wf x /\ w = x | _ => False end).
Proof.
  apply (copies_first 0 _ (fun _ a b => b = a) (fun _ _ _ ix jx => ix = jx)).
  - intros x [|u us] w L; [|discriminate]. split.
    + intros [W ->]. repeat (split; auto). intros ix jx _ _ ->. reflexivity.
    + intros (Wx & Ww & S & K). split; auto. apply tensor_ext; auto. intros ix I. apply K; auto. now rewrite <- S.
  - intros ws a b ix -> I. eauto.
Qed.
Lemma transpose_copies len (par : list T -> option _) : copies (S len) [0] (first_rel par transpose_rel).
Proof.
  apply (copies_par len par transpose_rel (fun p a b => is_perm p (length a) /\ b = pick p a) (fun p a b ix jx => ix = pick p jx)).
  - intros p x w. unfold transpose_rel. split.
    + intros (K1 & K2 & K3 & K4 & K5). repeat (split; auto). intros ix jx I J ->. auto.
    + intros (K2 & K3 & (K1 & K4) & K5). repeat (split; auto). intros ix I. apply K5; auto. rewrite K4. apply (pick_inb p (length (shape x))); auto.
  - intros p a b ix [P ->] I. destruct (index_back p (length a) P a ix eq_refl I) as (jx & J & ->). eauto.
Qed.
Lemma reshape_copies len (par : list T -> option _) : copies (S len) [0] (first_rel par (fun (azt : bool * list Z) => reshape_rel (fst azt) (snd azt))).
Proof.
  apply (copies_par len par (fun azt => reshape_rel (fst azt) (snd azt))
    (fun p a b => length (filter (Z.eqb (-1)) (snd p)) <= 1 /\ length b = length (snd p) /\ (forall k t d, nth_error (snd p) k = Some t -> nth_error b k = Some d -> dim_ok (fst p) a k t d) /\ size b = size a)
    (fun p a b ix jx => ravel a jx = ravel b ix)).
  - intros p x w. unfold reshape_rel. split.
    + intros (K1 & K2 & K3 & K4 & K5 & K6 & K7). repeat (split; auto).
    + intros (K1 & K2 & (K3 & K4 & K5 & K6) & K7). repeat (split; auto).
  - intros p a b ix (_ & _ & _ & S) I. assert (L := ravel_lt _ _ I). rewrite S in L. exists (unravel a (ravel b ix)). split; [now apply unravel_inb|now apply ravel_unravel].
Qed.
Lemma unsqueeze_copies len (par : list T -> option _) : copies (S len) [0] (first_rel par unsqueeze_rel).
Proof.
  apply (copies_par len par unsqueeze_rel
    (fun p a b => length b = length a + length p /\ exists ax, norm_axes (length b) p = Some ax /\ NoDup ax /\ (forall k, In k ax -> nth k b 0 = 1) /\ a = drop_axes ax b)
    (fun p a b ix jx => exists ax, norm_axes (length b) p = Some ax /\ jx = drop_axes ax ix)).
  - intros p x w. unfold unsqueeze_rel. split.
    + intros (K1 & K2 & K3 & ax & K4 & K5 & K6 & K7 & K8). split; auto. split; auto. split; [split; auto; exists ax; auto|]. intros ix jx I J (ax' & E & ->). assert (ax' = ax) by congruence. subst. auto.
    + intros (K1 & K2 & (K3 & ax & K4 & K5 & K6 & K7) & K8). split; auto. split; auto. split; auto. exists ax. repeat (split; auto). intros ix I. apply K8; auto; [|eauto]. rewrite K7. now apply drop_inb.
  - intros p a b ix (_ & ax & K4 & _ & _ & ->) I. exists (drop_axes ax ix). split; [now apply drop_inb|eauto].
Qed.
(** an index with zeros in the dropped axes *)
Lemma undrop ax : forall sh k ix, inb ix (drop_from k ax sh) -> (forall a, In a ax -> k <= a -> a < k + length sh -> nth (a - k) sh 0 = 1) -> exists jx, inb jx sh /\ ix = drop_from k ax jx.
Proof.
  induction sh as [|d sh IH]; intros k ix I H; cbn [drop_from] in I.
  - destruct ix; [|destruct I]. exists []. split; auto.
  - assert (H' : forall a, In a ax -> S k <= a -> a < S k + length sh -> nth (a - S k) sh 0 = 1).
    { intros a Ha L1 L2. specialize (H a Ha ltac:(lia) ltac:(cbn; lia)). replace (a - k) with (S (a - S k)) in H by lia. exact H. }
    destruct (existsb (Nat.eqb k) ax) eqn:E.
    + destruct (IH (S k) ix I H') as (jx & J & ->). exists (0 :: jx). cbn [drop_from inb]. rewrite E. split; auto. split; auto.
      apply existsb_exists in E. destruct E as (a & Ha & E). apply Nat.eqb_eq in E. subst a. specialize (H k Ha ltac:(lia) ltac:(cbn; lia)). rewrite Nat.sub_diag in H. cbn in H. lia.
    + destruct ix as [|i ix]; [destruct I|]. destruct I as [Li I]. destruct (IH (S k) ix I H') as (jx & J & ->). exists (i :: jx). cbn [drop_from inb]. rewrite E. auto.
Qed.
Lemma norm_axes_lt r : forall l ax, norm_axes r l = Some ax -> forall a, In a ax -> a < r.
Proof.
  induction l as [|a l IH]; intros ax H; cbn [norm_axes] in H; [inversion H; intros b []|].
  destruct (norm_axis r a) as [x|] eqn:E; [|discriminate]. destruct (norm_axes r l) as [xs|] eqn:E'; [|discriminate]. inversion H. intros b [<-|Hb]; [|eauto].
  unfold norm_axis in E. destruct (0 <=? a)%Z eqn:E0.
  - destruct (a <? Z.of_nat r)%Z eqn:E1; [|discriminate]. inversion E. lia.
  - destruct (- Z.of_nat r <=? a)%Z eqn:E1; [|discriminate]. inversion E. lia.
Qed.
Lemma squeeze_copies len (par : list T -> option _) : copies (S len) [0] (first_rel par squeeze_rel).
Proof.
  apply (copies_par len par squeeze_rel
    (fun p a b => exists ax, norm_axes (length a) p = Some ax /\ NoDup ax /\ (forall k, In k ax -> nth k a 0 = 1) /\ b = drop_axes ax a)
    (fun p a b ix jx => exists ax, norm_axes (length a) p = Some ax /\ ix = drop_axes ax jx)).
  - intros p x w. unfold squeeze_rel. split.
    + intros (K1 & K2 & ax & K4 & K5 & K6 & K7 & K8). split; auto. split; auto. split; [exists ax; auto|]. intros ix jx I J (ax' & E & ->). assert (ax' = ax) by congruence. subst. auto.
    + intros (K1 & K2 & (ax & K4 & K5 & K6 & K7) & K8). split; auto. split; auto. exists ax. repeat (split; auto). intros ix I. apply K8; auto; [|eauto]. rewrite K7. now apply drop_inb.
  - intros p a b ix (ax & K4 & _ & K6 & ->) I. destruct (undrop ax a 0 ix I) as (jx & J & ->); [|exists jx; split; auto; eauto].
    intros k Hk _ _. rewrite Nat.sub_0_r. auto.
Qed.
(** an index chosen axis by axis *)
Lemma axiswise (P : nat -> nat -> Prop) sh : (forall k, k < length sh -> exists j, j < nth k sh 0 /\ P k j) -> exists jx, inb jx sh /\ forall k, k < length sh -> P k (nth k jx 0).
Proof.
  revert P. induction sh as [|d sh IH]; intros P H.
  - exists []. split; [exact I|]. intros k L. inversion L.
  - destruct (H 0) as (j & Lj & Pj); [cbn; lia|]. destruct (IH (fun k => P (S k))) as (jx & J & K). { intros k L. apply (H (S k)). cbn. lia. }
    exists (j :: jx). split; [split; auto|]. intros [|k] L; cbn; auto. apply K. cbn in L. lia.
Qed.
Lemma tile_copies len (par : list T -> option _) : copies (S len) [0] (first_rel par tile_rel).
Proof.
  apply (copies_par len par tile_rel (fun p a b => length p = length a /\ length b = length a /\ (forall k, k < length a -> nth k b 0 = nth k a 0 * nth k p 0))
    (fun p a b ix jx => forall k, k < length a -> nth k jx 0 = nth k ix 0 mod nth k a 0)).
  - intros p x w. unfold tile_rel, placed. cbv zeta. tauto.
  - intros p a b ix (K1 & K2 & K3) I. apply (axiswise (fun k j => j = nth k ix 0 mod nth k a 0)). intros k L. eexists. split; [|reflexivity]. apply Nat.mod_upper_bound. intro Z.
    apply inb_nth in I. destruct I as [_ I]. specialize (I k ltac:(lia)). rewrite K3 in I by auto. rewrite Z in I. lia.
Qed.
Lemma slice_axis_in d s e st i : st <> 0%Z -> i < snd (slice_axis d s e st) -> exists j, j < d /\ Z.of_nat j = (fst (slice_axis d s e st) + Z.of_nat i * st)%Z.
Proof.
  intros Hst. unfold slice_axis. destruct (Nat.eqb_spec d 0) as [->|Nd]; [cbn; lia|]. set (s1 := if (s <? 0)%Z then _ else s). set (e1 := if (e <? 0)%Z then _ else e). destruct (0 <? st)%Z eqn:E; cbn [fst snd]; intro L.
  - set (S := Z.max 0 (Z.min (Z.of_nat d) s1)) in *. set (F := Z.max 0 (Z.min (Z.of_nat d) e1)) in *.
    assert (B1 : (0 <= S)%Z) by (unfold S; lia). assert (B2 : (F <= Z.of_nat d)%Z) by (unfold F; lia).
    assert (K : (st * ((F - S + st - 1) / st) <= F - S + st - 1)%Z) by (apply Z.mul_div_le; lia).
    assert (Lz : (Z.of_nat i + 1 <= (F - S + st - 1) / st)%Z) by lia.
    exists (Z.to_nat (S + Z.of_nat i * st)). assert ((Z.of_nat i + 1) * st <= st * ((F - S + st - 1) / st))%Z by nia. split; nia.
  - set (S := Z.max 0 (Z.min (Z.of_nat d - 1) s1)) in *. set (F := Z.max (-1) (Z.min (Z.of_nat d - 1) e1)) in *.
    assert (B1 : (S <= Z.of_nat d - 1)%Z) by (unfold S; lia). assert (B2 : (-1 <= F)%Z) by (unfold F; lia).
    assert (K : (- st * ((S - F + - st - 1) / - st) <= S - F + - st - 1)%Z) by (apply Z.mul_div_le; lia).
    assert (Lz : (Z.of_nat i + 1 <= (S - F + - st - 1) / - st)%Z) by lia.
    exists (Z.to_nat (S + Z.of_nat i * st)). assert ((Z.of_nat i + 1) * - st <= - st * ((S - F + - st - 1) / - st))%Z by nia. split; nia.
Qed.
Lemma norm_axes_length r : forall l ax, norm_axes r l = Some ax -> length ax = length l.
Proof.
  induction l as [|a l IH]; intros ax H; cbn [norm_axes] in H; [inversion H; auto|].
  destruct (norm_axis r a) as [x|]; [|discriminate]. destruct (norm_axes r l) as [xs|] eqn:E'; [|discriminate]. inversion H. cbn. f_equal. auto.
Qed.
Lemma NoDup_nth_error_eq {B} (l : list B) q q' k : NoDup l -> nth_error l q = Some k -> nth_error l q' = Some k -> q = q'.
Proof. intros N E E'. apply (proj1 (NoDup_nth_error l) N); [apply nth_error_Some; congruence|congruence]. Qed.
Lemma slice_copies len (par : list T -> option _) : copies (S len) [0] (first_rel par slice_rel).
Proof.
  apply (copies_par len par slice_rel
    (fun p a b => length b = length a /\ (forall x s e st, In (x, (s, e, st)) p -> st <> 0%Z) /\ exists ax, norm_axes (length a) (map fst p) = Some ax /\ NoDup ax /\
       (forall q k s e st, nth_error ax q = Some k -> nth_error (map snd p) q = Some (s, e, st) -> nth k b 0 = snd (slice_axis (nth k a 0) s e st)) /\
       (forall k, k < length a -> ~ In k ax -> nth k b 0 = nth k a 0))
    (fun p a b ix jx => exists ax, norm_axes (length a) (map fst p) = Some ax /\ forall k, k < length a -> (~ In k ax -> nth k jx 0 = nth k ix 0) /\
       forall q s e st, nth_error ax q = Some k -> nth_error (map snd p) q = Some (s, e, st) -> Z.of_nat (nth k jx 0) = (fst (slice_axis (nth k a 0%nat) s e st) + Z.of_nat (nth k ix 0%nat) * st)%Z)).
  - intros p x w. unfold slice_rel, placed. cbv zeta. split.
    + intros (K1 & K2 & K3 & K4 & ax & K5 & K6 & K7 & K8 & K9). split; auto. split; auto. split; [split; auto; split; [exact K4|]; exists ax; auto|]. intros ix jx I J (ax' & E & C). assert (ax' = ax) by congruence. subst. auto.
    + intros (K1 & K2 & (K3 & K4 & ax & K5 & K6 & K7 & K8) & K9). split; auto. split; auto. split; auto. split; [exact K4|]. exists ax. repeat (split; auto). intros ix jx I J C. apply K9; eauto.
  - intros p a b ix (K3 & K4 & ax & K5 & K6 & K7 & K8) I. apply inb_nth in I. destruct I as [Li I]. rewrite K3 in I.
    destruct (axiswise (fun k j => (~ In k ax -> j = nth k ix 0) /\ forall q s e st, nth_error ax q = Some k -> nth_error (map snd p) q = Some (s, e, st) -> Z.of_nat j = (fst (slice_axis (nth k a 0%nat) s e st) + Z.of_nat (nth k ix 0%nat) * st)%Z) a) as (jx & J & K).
    + intros k L. specialize (I k L). destruct (in_dec Nat.eq_dec k ax) as [Hk|Hk].
      * apply In_nth_error in Hk. destruct Hk as [q Eq]. assert (Lq : q < length (map snd p)). { rewrite map_length. rewrite <- (map_length fst p), <- (norm_axes_length _ _ _ K5). apply nth_error_Some. congruence. }
        destruct (nth_error (map snd p) q) as [[[s e] st]|] eqn:Ep; [|apply nth_error_None in Ep; lia].
        assert (Hst : st <> 0%Z). { rewrite nth_error_map in Ep. destruct (nth_error p q) as [[xx yy]|] eqn:Epp; [|discriminate]. cbn in Ep. inversion Ep. subst yy. apply nth_error_In in Epp. eauto. }
        rewrite (K7 q k s e st Eq Ep) in I. destruct (slice_axis_in _ _ _ _ _ Hst I) as (j & Lj & Ej). exists j. split; auto. split.
        -- intro N. exfalso. apply N. eapply nth_error_In; eauto.
        -- intros q' s' e' st' Eq' Ep'. assert (q' = q) by (eapply NoDup_nth_error_eq; eauto). subst q'. rewrite Ep in Ep'. inversion Ep'. subst. exact Ej.
      * rewrite K8 in I by auto. exists (nth k ix 0). split; auto. split; auto. intros q s e st Eq. exfalso. apply Hk. eapply nth_error_In; eauto.
    + exists jx. split; auto. exists ax. split; auto.
Qed.

(** Concat *)
Definition dim_at (ax : nat) (v : list nat + T) : nat := match v with inl sh => nth ax sh 0 | inr _ => 0 end.
Definition offset (ax : nat) (vs : list (list nat + T)) (k : nat) : nat := fold_right Nat.add 0 (map (dim_at ax) (firstn k vs)).
Lemma view_all (ws : list T) : view (seq 0 (length ws)) ws = map (fun x => inl (shape x)) ws.
Proof.
  unfold view. assert (K : forall j l, map (fun kx : nat * T => if existsb (Nat.eqb (fst kx)) (seq 0 (j + length l)) then inl (shape (snd kx)) else inr (snd kx)) (combine (seq j (length l)) l) = map (fun x => inl (shape x)) l); [|apply (K 0)].
  intros j l. revert j. induction l as [|x l IH]; intro j; auto. cbn [length seq combine map fst snd].
  assert (E : existsb (Nat.eqb j) (seq 0 (j + S (length l))) = true). { apply existsb_exists. exists j. split; [apply in_seq; lia|apply Nat.eqb_refl]. } rewrite E. f_equal.
  rewrite <- Nat.add_succ_comm. apply IH.
Qed.
Lemma parts_at_spec ax (y : T) : forall xs off, parts_at ax off y xs <->
  off + fold_right Nat.add 0 (map (fun x => nth ax (shape x) 0) xs) = nth ax (shape y) 0 /\
  forall k x, nth_error xs k = Some x -> part_at ax (off + fold_right Nat.add 0 (map (fun x => nth ax (shape x) 0) (firstn k xs))) y x.
Proof.
  induction xs as [|x xs IH]; intro off; cbn [parts_at map fold_right firstn].
  - split; [intro H; split; [lia|intros [|k] x E; discriminate]|intros [H _]; lia].
  - rewrite IH. split.
    + intros (P & E & K). split; [lia|]. intros [|k] x' E'; cbn in E'.
      * inversion E'. subst. cbn [firstn map fold_right]. now rewrite Nat.add_0_r.
      * cbn [firstn map fold_right]. rewrite Nat.add_assoc. auto.
    + intros (E & K). split; [|split; [lia|]].
      * specialize (K 0 x eq_refl). cbn [firstn map fold_right] in K. now rewrite Nat.add_0_r in K.
      * intros k x' E'. specialize (K (S k) x' E'). cbn [firstn map fold_right] in K. now rewrite Nat.add_assoc in K.
Qed.
Lemma offset_shapes ax (ws : list T) k : offset ax (map (fun x => inl (shape x)) ws) k = fold_right Nat.add 0 (map (fun x => nth ax (shape x) 0) (firstn k ws)).
Proof. unfold offset. rewrite firstn_map, map_map. reflexivity. Qed.
Lemma find_part (ds : list nat) : forall i, i < fold_right Nat.add 0 ds -> exists k d, nth_error ds k = Some d /\ fold_right Nat.add 0 (firstn k ds) <= i /\ i < fold_right Nat.add 0 (firstn k ds) + d.
Proof.
  induction ds as [|d ds IH]; intros i L; cbn [fold_right] in L; [lia|]. destruct (Nat.lt_ge_cases i d) as [H|H].
  - exists 0, d. cbn. auto with arith.
  - destruct (IH (i - d)) as (k & d' & E & L1 & L2); [lia|]. exists (S k), d'. cbn [nth_error firstn fold_right]. split; auto. lia.
Qed.
Lemma shift_unshift ax : forall ix off, ax < length ix -> off <= nth ax ix 0 -> ix = shift ax off (set_dim ax (nth ax ix 0 - off) ix).
Proof.
  induction ax as [|ax IH]; intros [|i ix] off L O; cbn in L; try lia; cbn [nth set_dim shift] in *.
  - f_equal. lia.
  - f_equal. apply IH; auto. lia.
Qed.
Lemma unshift_inb ax v : forall ix sh d, ax < length sh -> inb ix sh -> v < d -> inb (set_dim ax v ix) (set_dim ax d sh).
Proof.
  induction ax as [|ax IH]; intros [|i ix] [|e sh] d L I V; cbn [length] in L; try lia; cbn [inb] in I; try tauto; cbn [set_dim inb].
  - tauto.
  - destruct I. split; auto. apply IH; auto. lia.
Qed.
Lemma shift_inb ax off : forall jx sh d, ax < length sh -> inb jx (set_dim ax d sh) -> off + d <= nth ax sh 0 -> inb (shift ax off jx) sh.
Proof.
  induction ax as [|ax IH]; intros [|i ix] [|e sh] d L I V; cbn [length set_dim inb nth] in *; try tauto; try lia; cbn [shift inb].
  - destruct I. split; auto. lia.
  - destruct I. split; auto. apply (IH ix sh d); auto. lia.
Qed.
Lemma sum_firstn_le (ds : list nat) : forall k d, nth_error ds k = Some d -> fold_right Nat.add 0 (firstn k ds) + d <= fold_right Nat.add 0 ds.
Proof. induction ds as [|e ds IH]; intros [|k] d E; cbn in *; try discriminate; [inversion E; lia|]. specialize (IH k d E). lia. Qed.
Lemma concat_copies len axis : copies len (seq 0 len) (concat_rel (A := A) axis).
Proof.
  exists (fun vs sh => vs <> [] /\ exists ax, norm_axis (length sh) axis = Some ax /\ (forall v, In v vs -> exists s, v = inl s /\ length s = length sh /\ s = set_dim ax (nth ax s 0) sh) /\ fold_right Nat.add 0 (map (dim_at ax) vs) = nth ax sh 0),
    (fun vs sh ix k jx => exists ax s, norm_axis (length sh) axis = Some ax /\ nth_error vs k = Some (inl s) /\ inb jx s /\ ix = shift ax (offset ax vs k) jx).
  intros ws w <-. rewrite view_all. unfold concat_rel. split.
  - intros (Ne & Ww & ax & Na & Hs & Hp). apply parts_at_spec in Hp. destruct Hp as [Es Hp]. cbn [Nat.add] in *.
    split; [intros k x _ E; apply Hs; eapply nth_error_In; eauto|]. split; auto. split.
    { split; [destruct ws; [congruence|discriminate]|]. exists ax. split; auto. split; [|now rewrite map_map]. intros v Hv. apply in_map_iff in Hv. destruct Hv as (x & <- & Hx). exists (shape x). destruct (Hs x Hx) as (_ & H1 & H2). auto. }
    assert (Lax : ax < length (shape w)). { apply (norm_axes_lt (length (shape w)) [axis] [ax]); [cbn [norm_axes]; now rewrite Na|now left]. }
    intros ix I. split.
    + assert (Li := inb_length _ _ I). assert (Lx := proj2 (proj1 (inb_nth _ _) I) ax Lax). rewrite <- Es in Lx. destruct (find_part _ _ Lx) as (k & d & Ed & L1 & L2).
      rewrite nth_error_map in Ed. destruct (nth_error ws k) as [x|] eqn:Ex; [|discriminate]. cbn in Ed. inversion Ed. subst d. rewrite firstn_map in L1, L2.
      exists k, (set_dim ax (nth ax ix 0 - offset ax (map (fun x => inl (shape x)) ws) k) ix), ax, (shape x). split; auto. split; [rewrite nth_error_map, Ex; reflexivity|]. rewrite offset_shapes. split.
      * destruct (Hs x (nth_error_In _ _ Ex)) as (_ & _ & E). rewrite E. apply unshift_inb; auto. lia.
      * apply shift_unshift; lia.
    + intros k jx (ax' & s & Na' & Ev & J & ->). assert (ax' = ax) by congruence. subst ax'. rewrite nth_error_map in Ev. destruct (nth_error ws k) as [x|] eqn:Ex; [|discriminate]. cbn in Ev. inversion Ev. subst s.
      exists x. split; [apply in_seq; split; [lia|cbn; apply nth_error_Some; congruence]|]. split; auto. split; auto. rewrite offset_shapes. apply (Hp k x Ex). exact J.
  - intros (Wx & Ww & (Ne & ax & Na & Hs & Es) & K). rewrite map_map in Es. split; [destruct ws; [cbn in Ne; congruence|discriminate]|]. split; auto. exists ax. split; auto.
    assert (Hx : forall x, In x ws -> length (shape x) = length (shape w) /\ shape x = set_dim ax (nth ax (shape x) 0) (shape w)).
    { intros x Hx. destruct (Hs (inl (shape x))) as (s & E & H1 & H2); [now apply (in_map (fun x : T => @inl (list nat) T (shape x)))|]. inversion E. subst s. auto. }
    assert (Lax : ax < length (shape w)). { apply (norm_axes_lt (length (shape w)) [axis] [ax]); [cbn [norm_axes]; now rewrite Na|now left]. }
    split.
    { intros x Hin. split; [|apply Hx; auto]. apply In_nth_error in Hin. destruct Hin as [k E]. apply (Wx k x); auto. apply in_seq. split; [lia|cbn; apply nth_error_Some; congruence]. }
    apply parts_at_spec. cbn [Nat.add]. split; [exact Es|]. intros k x Ex jx J. destruct (Hx x (nth_error_In _ _ Ex)) as (H1 & H2). rewrite <- (offset_shapes ax ws k).
    assert (I : inb (shift ax (offset ax (map (fun x => inl (shape x)) ws) k) jx) (shape w)).
    { apply (shift_inb ax _ jx (shape w) (nth ax (shape x) 0)); auto; [rewrite <- H2; auto|]. rewrite offset_shapes, <- Es. rewrite <- firstn_map. apply sum_firstn_le. rewrite nth_error_map, Ex. reflexivity. }
    split; auto. destruct (K _ I) as [_ K']. destruct (K' k jx) as (x' & _ & Ex' & _ & G).
    { exists ax, (shape x). split; auto. split; [rewrite nth_error_map, Ex; reflexivity|]. auto. }
    rewrite Ex in Ex'. inversion Ex'. now subst.
Qed.
End Copies.

(** ** The two arithmetics *)
From Verif Require Import QuantSpec QuantProofs.
Definition exact : arithmetic :=
  {| ok := fun _ _ s _ => (0 < s)%R; deq := dequantize; qua := quantizes; deq_qua := fun lo hi s z q q' O B => quant_dequant lo hi s z q q' O B |}.
Definition binary32 : arithmetic :=
  {| ok := fun lo hi s z => is_f32 s /\ (0 < s)%R /\ (lo <= z <= hi)%Z /\ (hi - lo < 2 ^ 21)%Z; deq := dequantize32; qua := quantizes32;
     deq_qua := fun lo hi s z q q' O B => quant_dequant32 lo hi s z q q' (proj1 O) (proj1 (proj2 O)) B (proj1 (proj2 (proj2 O))) (proj2 (proj2 (proj2 O))) |}.
