From Coq Require Import String List Arith ZArith Reals Bool Lia Permutation.
From Verif Require Import Tensor OnnxSpec TensorProofs B2BProofs ConvSpec FlexModel NNModel NNSpec.
Import ListNotations.
Local Open Scope nat_scope.
Local Open Scope list_scope.

(** ** permutations *)
Lemma pick_seq_mid pre l post : pick (seq (length pre) (length l)) (pre ++ l ++ post) = l.
Proof.
  apply list_nth_ext; rewrite pick_length, seq_length; [reflexivity|]. intros k Hk.
  rewrite pick_nth by (now rewrite seq_length). rewrite seq_nth by auto. rewrite app_nth2_plus. apply app_nth1. exact Hk.
Qed.
Lemma pick_cf b sp c : pick (channels_first_perm (length sp)) (b :: sp ++ [c]) = b :: c :: sp.
Proof.
  unfold channels_first_perm. cbn [pick map app nth]. f_equal. f_equal.
  - replace (length sp + 1) with (S (length sp)) by lia. cbn. rewrite app_nth2, Nat.sub_diag by lia. reflexivity.
  - exact (pick_seq_mid [b] sp [c]).
Qed.
Lemma pick_cl b c sp : pick (channels_last_perm (length sp)) (b :: c :: sp) = b :: sp ++ [c].
Proof.
  unfold channels_last_perm, pick. cbn [map app nth]. rewrite map_app. f_equal. f_equal.
  assert (H := pick_seq_mid [b; c] sp []). rewrite app_nil_r in H. exact H.
Qed.
Lemma pick_kernel t q m : pick (kernel_perm (length t)) (t ++ [q; m]) = m :: q :: t.
Proof.
  unfold kernel_perm. cbn [pick map app nth]. f_equal; [|f_equal].
  - rewrite app_nth2 by lia. replace (length t + 1 - length t) with 1 by lia. reflexivity.
  - rewrite app_nth2, Nat.sub_diag by lia. reflexivity.
  - exact (pick_seq_mid [] t [q; m]).
Qed.
Lemma seq_last a n : seq a (S n) = seq a n ++ [a + n].
Proof. replace (S n) with (n + 1) by lia. apply seq_app. Qed.
Lemma cf_perm n : is_perm (channels_first_perm n) (n + 2).
Proof.
  unfold is_perm, channels_first_perm. replace (n + 2) with (S (S n)) by lia. cbn [seq app]. apply perm_skip.
  change (1 :: seq 2 n) with (seq 1 (S n)). rewrite seq_last. replace (n + 1) with (1 + n) by lia. apply Permutation_cons_append.
Qed.
Lemma cl_perm n : is_perm (channels_last_perm n) (n + 2).
Proof.
  unfold is_perm, channels_last_perm. replace (n + 2) with (S (S n)) by lia. cbn [seq app]. apply perm_skip. symmetry. apply Permutation_cons_append.
Qed.
Lemma kernel_perm_perm n : is_perm (kernel_perm n) (n + 2).
Proof.
  unfold is_perm, kernel_perm. replace (n + 2) with (S (S n)) by lia. rewrite !seq_last. rewrite Nat.add_0_l. cbn [app]. rewrite <- app_assoc. cbn [app].
  replace (0 + S n) with (n + 1) by lia.
  eapply perm_trans; [apply perm_swap|]. change (n :: n + 1 :: seq 0 n) with ([n; n + 1] ++ seq 0 n). apply Permutation_app_comm.
Qed.
Lemma cl_cf_inverse n : pick (channels_last_perm n) (channels_first_perm n) = seq 0 (n + 2).
Proof.
  unfold channels_first_perm. cbn [app]. assert (H := pick_cl 0 (n + 1) (seq 1 n)). rewrite seq_length in H. rewrite H.
  replace (n + 2) with (S (S n)) by lia. change (seq 0 (S (S n))) with (0 :: seq 1 (S n)). rewrite seq_last. do 2 f_equal. f_equal. lia.
Qed.
Lemma cf_cl_inverse n : pick (channels_first_perm n) (channels_last_perm n) = seq 0 (n + 2).
Proof.
  unfold channels_last_perm. cbn [app]. assert (H := pick_cf 0 (seq 2 n) 1). rewrite seq_length in H. rewrite H.
  replace (n + 2) with (S (S n)) by lia. reflexivity.
Qed.
Lemma transpose_back {A} p q r (x y : tensor A) : length (shape x) = r -> is_perm q r -> pick q p = seq 0 r -> transpose_rel p x y -> transpose_rel q y x.
Proof.
  intros L Q E T. assert (L' := transpose_shape_len _ _ _ T). destruct T as (P & Wx & Wy & Sy & Gy).
  assert (B : forall k, In k q -> k < length p). { intros k Hk. apply (is_perm_in q r Q) in Hk. rewrite (is_perm_length _ _ P). lia. }
  split; [rewrite L', L; exact Q|]. split; auto. split; auto.
  assert (PP : forall l, length l = r -> pick q (pick p l) = l). { intros l Ll. rewrite pick_pick, E by auto. rewrite <- Ll. apply pick_seq. }
  split; [rewrite Sy; symmetry; apply PP; auto|]. intros jx J. rewrite Sy in J.
  assert (I := pick_inb_inv p _ jx (shape x) P eq_refl J). assert (Lj := inb_length _ _ J). rewrite pick_length, (is_perm_length _ _ P) in Lj.
  assert (Ej := pick_inv' p _ jx P Lj). rewrite <- Ej. rewrite PP by (rewrite (inb_length _ _ I); auto). symmetry. apply Gy. exact I.
Qed.

(** ** layout of shapes *)
Lemma shape_cf {A} (a : A) l c : make_shape_channels_first (a :: l ++ [c]) = a :: c :: l.
Proof.
  unfold make_shape_channels_first. cbn [length firstn app]. rewrite app_length. cbn [length].
  replace (S (length l + 1) - 1) with (S (length l)) by lia. replace (S (length l + 1) - 2) with (length l) by lia. cbn [skipn].
  rewrite skipn_app, skipn_all, Nat.sub_diag, firstn_app, firstn_all, Nat.sub_diag. cbn. rewrite app_nil_r. reflexivity.
Qed.

(** ** one axis *)
Lemma ceil_div_bounds a s : 1 <= s -> 1 <= a -> 1 <= ceil_div a s /\ (ceil_div a s - 1) * s < a <= ceil_div a s * s.
Proof.
  intros S A. unfold ceil_div. assert (N : s <> 0) by lia.
  pose proof (Nat.div_mod (a + s - 1) s N) as D. pose proof (Nat.mod_upper_bound (a + s - 1) s N) as M.
  set (q := (a + s - 1) / s) in *. assert (1 <= q) by (destruct q; nia). split; [lia|]. nia.
Qed.
Lemma ceil_div_mod a s : 1 <= s -> 1 <= a -> (ceil_div a s - 1) * s + (if a mod s =? 0 then s else a mod s) = a.
Proof.
  intros S A. destruct (ceil_div_bounds a s S A) as (Q & B). set (q := ceil_div a s) in *.
  assert (N : s <> 0) by lia. pose proof (Nat.div_mod a s N) as D. pose proof (Nat.mod_upper_bound a s N) as M.
  destruct (Nat.eqb_spec (a mod s) 0) as [Z|Z].
  - assert (a / s = q) by nia. nia.
  - assert (a / s = q - 1) by nia. nia.
Qed.
(** both documentations give the same total padding *)
Lemma same_total inp k s d : 1 <= s -> 1 <= inp ->
  (if inp mod s =? 0 then eff k d - s else eff k d - inp mod s) = (ceil_div inp s - 1) * s + eff k d - inp.
Proof. intros S I. pose proof (ceil_div_mod inp s S I) as E. destruct (inp mod s =? 0); lia. Qed.
Lemma axis_same_upper i inp k s d out b : 1 <= s -> 1 <= inp -> tf_axis SAME i inp k s d out b -> onnx_axis SAME_UPPER i inp k s d out b.
Proof. intros S I (-> & ->). split; [reflexivity|]. rewrite same_total by auto. reflexivity. Qed.
Lemma axis_same_pads i inp k s d out b bs es : 1 <= s -> 1 <= inp -> 1 <= k -> 1 <= d -> tf_axis SAME i inp k s d out b ->
  nth i bs 0 = ((out - 1) * s + eff k d - inp) / 2 ->
  nth i es 0 = (out - 1) * s + eff k d - inp - ((out - 1) * s + eff k d - inp) / 2 ->
  onnx_axis (PADS bs es) i inp k s d out b.
Proof.
  intros S I K D (Eo & Eb) B E. rewrite same_total in Eb by auto. rewrite <- Eo in Eb. unfold onnx_axis. rewrite B, E.
  set (T := (out - 1) * s + eff k d - inp) in *.
  assert (H2 : T / 2 <= T) by (apply Nat.div_le_upper_bound; lia).
  replace (inp + T / 2 + (T - T / 2)) with (inp + T) by lia.
  destruct (ceil_div_bounds inp s S I) as (Q & Bo). rewrite <- Eo in Q, Bo. assert (1 <= eff k d) by (unfold eff; rewrite Nat.add_comm; apply le_n_S, Nat.le_0_l).
  split; [unfold T; clear; lia|]. split; [|exact Eb].
  assert (N : s <> 0) by lia. assert (X : (out - 1) * s <= inp + T - eff k d < out * s) by (assert (OS : out * s = (out - 1) * s + s) by (destruct out; cbn; nia); unfold T; lia).
  assert (F : (inp + T - eff k d) / s = out - 1); [|lia].
  symmetry. apply Nat.div_unique with (r := inp + T - eff k d - (out - 1) * s); [nia|lia].
Qed.
Lemma axis_valid i inp k s d out b bs es : 1 <= s -> nth i bs 0 = 0 -> nth i es 0 = 0 -> tf_axis VALID i inp k s d out b -> onnx_axis (PADS bs es) i inp k s d out b.
Proof.
  intros S B E (L & -> & ->). unfold onnx_axis. rewrite B, E, !Nat.add_0_r. split; [exact L|]. split; [|reflexivity].
  unfold ceil_div. replace (inp - eff k d + 1 + s - 1) with (inp - eff k d + 1 * s) by lia. rewrite Nat.div_add by lia. reflexivity.
Qed.

(** ** add_padding *)
Lemma traverse_map {A B} (f : A -> option B) g l : (forall a, In a l -> f a = Some (g a)) -> traverse f l = Some (map g l).
Proof. induction l as [|a l IH]; intro H; [reflexivity|]. cbn [traverse map]. rewrite H by (cbn; auto). cbn [bind]. rewrite IH by (intros; apply H; cbn; auto). reflexivity. Qed.
Lemma nth_map_seq {A} (g : nat -> A) n i d : i < n -> nth i (map g (seq 0 n)) d = g i.
Proof.
  intro H. rewrite nth_indep with (d' := g 0) by (now rewrite map_length, seq_length). rewrite map_nth, seq_nth by auto. reflexivity.
Qed.
Lemma describes_nth st sh i : describes st sh -> i < length sh -> exists z, nth_error st i = Some z /\ nth i st 0%Z = z /\ (z = (-1)%Z \/ z = Z.of_nat (nth i sh 0)).
Proof.
  intro F. revert i. induction F as [|z n st sh E F IH]; intros i L; [cbn in L; lia|]. destruct i as [|i]; [exists z; cbn; auto|]. cbn in *. apply IH. lia.
Qed.
Lemma describes_length st sh : describes st sh -> length st = length sh.
Proof. induction 1; cbn; auto. Qed.
Lemma at_layout_length cl b sp c : length (at_layout cl b sp c) = length sp + 2.
Proof. unfold at_layout. destruct cl; cbn; [rewrite app_length; cbn|]; lia. Qed.
(** the statically known shape moved to channels first *)
Lemma describes_cf cl st N sp C : describes st (at_layout cl N sp C) ->
  describes (if cl then make_shape_channels_first st else st) (N :: C :: sp).
Proof.
  destruct cl; cbn [at_layout]; auto. intro F. inversion F; subst. apply Forall2_app_inv_r in H3. destruct H3 as (l1 & l2 & F1 & F2 & ->).
  inversion F2; subst. inversion H4; subst. rewrite shape_cf. constructor; [auto|]. constructor; auto.
Qed.
Lemma nth_error_of_nat l i : i < length l -> nthz (map Z.of_nat l) i = Some (Z.of_nat (nth i l 0)).
Proof. intro H. unfold nthz. rewrite nth_error_map, (nth_error_nth' l 0) by auto. reflexivity. Qed.
Lemma same_pad_of_nat inp out k s d : 1 <= out -> 1 <= k ->
  same_pad (Z.of_nat inp) (Z.of_nat out) (Z.of_nat k) (Z.of_nat s) (Z.of_nat d) = Z.of_nat ((out - 1) * s + eff k d - inp).
Proof.
  intros O K. unfold same_pad, eff. rewrite Nat2Z.inj_sub_max, !Nat2Z.inj_add, !Nat2Z.inj_mul, !Nat2Z.inj_sub by lia.
  rewrite Z.max_comm. f_equal. lia.
Qed.
Lemma flat_explicit_nth bs : forall es i, length bs = length es -> i < length bs ->
  nth_error (flat_map (fun be => [Z.of_nat (fst be); Z.of_nat (snd be)]) (combine bs es)) (i * 2) = Some (Z.of_nat (nth i bs 0)) /\
  nth_error (flat_map (fun be => [Z.of_nat (fst be); Z.of_nat (snd be)]) (combine bs es)) (i * 2 + 1) = Some (Z.of_nat (nth i es 0)).
Proof.
  induction bs as [|b bs IH]; intros [|e es] i L I; cbn in L, I; try lia. destruct i as [|i]; [cbn; auto|].
  cbn [combine flat_map app fst snd Nat.mul Nat.add nth_error nth]. apply IH; lia.
Qed.
Lemma flat_explicit_at cl bs es i : length bs = length es -> i < length bs ->
  nthz (flat_explicit cl bs es) (((if cl then 1 else 2) + i) * 2) = Some (Z.of_nat (nth i bs 0)) /\
  nthz (flat_explicit cl bs es) (((if cl then 1 else 2) + i) * 2 + 1) = Some (Z.of_nat (nth i es 0)).
Proof.
  intros L I. destruct (flat_explicit_nth bs es i L I) as (A & B). unfold nthz, flat_explicit. destruct cl.
  - replace ((1 + i) * 2) with (2 + i * 2) by lia. replace (2 + i * 2 + 1) with (2 + (i * 2 + 1)) by lia. cbn [Nat.add app nth_error].
    rewrite !nth_error_app1 by (apply nth_error_Some; congruence). auto.
  - replace ((2 + i) * 2) with (4 + i * 2) by lia. replace (4 + i * 2 + 1) with (4 + (i * 2 + 1)) by lia. cbn [Nat.add app nth_error]. auto.
Qed.
Lemma map_nth_seq (l : list nat) n : length l = n -> map (fun i => nth i l 0) (seq 0 n) = l.
Proof.
  intros <-. apply list_nth_ext; rewrite map_length, seq_length; auto. intros k K. rewrite (nth_map_seq (fun i => nth i l 0)) by exact K. reflexivity.
Qed.
(** the dilations as add_padding gets them *)
Definition dil_attr (dil : option (list Z)) (ds : list nat) : Prop := dil = Some (map Z.of_nat ds) \/ (dil = None /\ ds = repeat 1 (length ds)).
Lemma dil_nth dil ds i : dil_attr dil ds -> i < length ds ->
  nthz (match dil with Some d => d | None => repeat 1%Z (length ds) end) i = Some (Z.of_nat (nth i ds 0)).
Proof.
  intros [->|(-> & E)] I; [now apply nth_error_of_nat|].
  replace (repeat 1%Z (length ds)) with (map Z.of_nat ds); [now apply nth_error_of_nat|]. rewrite E at 1. clear. induction (length ds) as [|k IH]; [reflexivity|]. cbn. f_equal. exact IH.
Qed.
Lemma Forall_nth1 l i : Forall (fun x => 1 <= x) l -> i < length l -> 1 <= nth i l 0.
Proof. intros F I. rewrite Forall_forall in F. apply F. apply nth_In. exact I. Qed.

Lemma add_padding_spec fmt pad p N C M ins outs ks ss ds begins ist ost kz dil :
  padding_attr (is_channels_last fmt) pad p -> axes tf_axis p ins ks ss ds outs begins ->
  describes ist (at_layout (is_channels_last fmt) N ins C) -> describes ost (at_layout (is_channels_last fmt) N outs M) ->
  (p = SAME -> forall i, i < length ins -> nthz kz i = Some (Z.of_nat (nth i ks 0))) ->
  match p with EXPLICIT bs _ => length bs = length ins | _ => True end ->
  dil_attr dil ds ->
  exists a op, add_padding (length ins) fmt pad (Some ist) (Some ost) kz (Some (map Z.of_nat ss)) dil = Some a /\
    pads_denote (length ins) a op /\ axes onnx_axis op ins ks ss ds outs begins.
Proof.
  intros PA (Lk & Ls & Ld & Lo & Lb & Fi & Fk & Fs & Fd & AX) DI DO K PL DA. set (n := length ins) in *. destruct PA as [| |bs es LE].
  - (* SAME *) unfold add_padding. cbn [bind].
    assert (L1 := describes_length _ _ DI). assert (L2 := describes_length _ _ DO). rewrite at_layout_length in L1, L2.
    fold n in L1. rewrite Lo in L2. rewrite L1, L2, Nat.eqb_refl. cbn [negb].
    apply describes_cf in DI, DO. set (i1 := if is_channels_last fmt then _ else ist) in *. set (o1 := if is_channels_last fmt then _ else ost) in *.
    destruct (existsb _ (seq 0 n)) eqn:EX.
    + exists AutoPadSameUpper, SAME_UPPER. split; [reflexivity|]. split; [constructor|].
      repeat (split; [assumption|]). intros i I. apply axis_same_upper; [apply Forall_nth1; auto; lia|apply Forall_nth1; auto|apply AX; exact I].
    + assert (KN : forall i, i < n -> nthz i1 (i + 2) = Some (Z.of_nat (nth i ins 0)) /\ nthz o1 (i + 2) = Some (Z.of_nat (nth i outs 0))).
      { intros i I. assert (NE : (nth (i + 2) i1 0 =? -1)%Z || (nth (i + 2) o1 0 =? -1)%Z = false).
        { destruct ((nth (i + 2) i1 0 =? -1)%Z || (nth (i + 2) o1 0 =? -1)%Z) eqn:Q; auto.
          assert (X : existsb (fun i => (nth (i + 2) i1 0 =? -1)%Z || (nth (i + 2) o1 0 =? -1)%Z) (seq 0 n) = true); [|congruence].
          apply existsb_exists. exists i. split; [apply in_seq; lia|exact Q]. }
        apply orb_false_iff in NE. destruct NE as [N1 N2]. apply Z.eqb_neq in N1, N2.
        destruct (describes_nth i1 _ (i + 2) DI) as (z & Z1 & Z2 & Z3); [cbn; fold n; lia|].
        destruct (describes_nth o1 _ (i + 2) DO) as (z' & Z1' & Z2' & Z3'); [cbn; lia|].
        replace (i + 2) with (S (S i)) in * by lia. cbn [nth] in Z3, Z3'. unfold nthz. rewrite Z1, Z1'. split; f_equal; [destruct Z3; congruence|destruct Z3'; congruence]. }
      set (T := fun i => (nth i outs 0 - 1) * nth i ss 0 + eff (nth i ks 0) (nth i ds 0) - nth i ins 0).
      rewrite (traverse_map _ (fun i => Z.of_nat (T i))).
      2:{ intros i I. apply in_seq in I. destruct (KN i) as [E1 E2]; [lia|]. rewrite E1, E2. cbn [bind].
          rewrite nth_error_of_nat by lia. cbn [bind]. rewrite K by (auto; lia). cbn [bind]. rewrite <- Ld. rewrite (dil_nth dil ds i DA) by lia. cbn [bind].
          f_equal. apply same_pad_of_nat; [|apply Forall_nth1; auto; lia]. destruct (AX i ltac:(lia)) as [-> _].
          apply ceil_div_bounds; apply Forall_nth1; auto; lia. }
      cbn [bind]. rewrite !map_map.
      set (bs := map (fun i => T i / 2) (seq 0 n)). set (es := map (fun i => T i - T i / 2) (seq 0 n)).
      exists (Pads (map Z.of_nat (bs ++ es))), (PADS bs es). split.
      * do 2 f_equal. rewrite map_app. unfold bs, es. rewrite !map_map. f_equal; apply map_ext; intro i.
        -- rewrite Nat2Z.inj_div. reflexivity.
        -- rewrite Nat2Z.inj_sub by (apply Nat.div_le_upper_bound; lia). rewrite Nat2Z.inj_div. reflexivity.
      * split; [constructor; unfold bs, es; now rewrite map_length, seq_length|]. repeat (split; [assumption|]). intros i I.
        apply axis_same_pads; try (apply Forall_nth1; auto; lia); [apply AX; exact I| |]; unfold bs, es; rewrite nth_map_seq by auto; reflexivity.
  - (* VALID *) exists NoPads, (PADS (repeat 0 n) (repeat 0 n)). split; [reflexivity|]. split; [constructor|]. repeat (split; [assumption|]). intros i I.
    apply axis_valid; [apply Forall_nth1; auto; lia|apply nth_repeat|apply nth_repeat|apply AX; exact I].
  - (* EXPLICIT *) cbn in PL. unfold add_padding. cbn [bind].
    rewrite (traverse_map _ (fun i => Z.of_nat (nth i bs 0))).
    2:{ intros i I. apply in_seq in I. apply (flat_explicit_at _ bs es i LE). lia. }
    cbn [bind]. rewrite (traverse_map _ (fun i => Z.of_nat (nth i es 0))).
    2:{ intros i I. apply in_seq in I. apply (flat_explicit_at _ bs es i LE). lia. }
    cbn [bind]. exists (Pads (map Z.of_nat (bs ++ es))), (PADS bs es). split.
    + do 2 f_equal. rewrite <- (map_map (fun i => nth i bs 0)), <- (map_map (fun i => nth i es 0)). rewrite !map_nth_seq by lia. rewrite map_app. reflexivity.
    + split; [constructor; lia|]. repeat (split; [assumption|]). intros i I. exact (AX i I).
Qed.

(** ** sums *)
Lemma rsum_S n f : rsum (S n) f = (rsum n f + f n)%R.
Proof.
  unfold rsum. rewrite seq_last, fold_right_app. cbn [fold_right Nat.add].
  assert (G : forall l a, fold_right (fun k s => f k + s)%R (a + 0)%R l = (fold_right (fun k s => f k + s) 0 l + a)%R).
  { induction l as [|x l IH]; intro a; cbn; [ring|]. rewrite IH. ring. }
  apply G.
Qed.
Lemma rsum_ext_lt n f g : (forall i, i < n -> f i = g i) -> rsum n f = rsum n g.
Proof. induction n as [|n IH]; intro H; [reflexivity|]. rewrite !rsum_S, IH, H by (auto; intros; apply H; lia). reflexivity. Qed.
Lemma rsum_add n f g : rsum n (fun i => f i + g i)%R = (rsum n f + rsum n g)%R.
Proof. induction n as [|n IH]; [cbn; ring|]. rewrite !rsum_S, IH. ring. Qed.
Lemma rsum_0 n : rsum n (fun _ => 0%R) = 0%R.
Proof. induction n as [|n IH]; [reflexivity|]. rewrite rsum_S, IH. ring. Qed.
Lemma rsum_swap n m f : rsum n (fun i => rsum m (fun j => f i j)) = rsum m (fun j => rsum n (fun i => f i j)).
Proof.
  induction n as [|n IH].
  - cbn. symmetry. apply rsum_0.
  - rewrite rsum_S, IH. rewrite <- rsum_add. apply rsum_ext_lt. intros j _. rewrite rsum_S. reflexivity.
Qed.
Lemma msum_ext sh : forall f g, (forall t, inb t sh -> f t = g t) -> msum sh f = msum sh g.
Proof.
  induction sh as [|n sh IH]; intros f g H; cbn [msum]; [apply H; exact I|]. apply rsum_ext_lt. intros i Hi. apply IH. intros t Ht. apply H. split; auto.
Qed.
Lemma msum_rsum_swap n sh : forall f, msum sh (fun t => rsum n (fun q => f t q)) = rsum n (fun q => msum sh (fun t => f t q)).
Proof.
  induction sh as [|d sh IH]; intro f; cbn [msum]; [reflexivity|]. rewrite rsum_swap. apply rsum_ext_lt. intros i _. apply (IH (fun t q => f (i :: t) q)).
Qed.

(** ** taps and layout *)
Lemma tap_inb ins : forall ss ds bs o t sp, tap ins ss ds bs o t = Some sp -> inb sp ins.
Proof.
  induction ins as [|n ins IH]; intros [|s ss] [|d ds] [|b bs] [|i o] [|k t] sp H; cbn [tap] in H; try discriminate.
  - inversion H. exact I.
  - destruct ((b <=? i * s + k * d) && (i * s + k * d - b <? n)) eqn:E; [|discriminate].
    destruct (tap ins ss ds bs o t) as [sp'|] eqn:T; [|discriminate]. cbn in H. inversion H; subst. apply andb_true_iff in E. destruct E as [_ E].
    apply Nat.ltb_lt in E. split; [exact E|]. eapply IH; eauto.
Qed.
Lemma inb_layout cl b sp c N ins C : b < N -> inb sp ins -> c < C -> inb (at_layout cl b sp c) (at_layout cl N ins C).
Proof.
  intros B S Cc. unfold at_layout. destruct cl; cbn [inb]; [|auto]. split; [exact B|]. apply inb_app; [apply inb_length; exact S|]. cbn. auto.
Qed.
Lemma cf_transpose_get {A} (x xt : tensor A) N ins C b sp c :
  transpose_rel (channels_first_perm (length ins)) x xt -> shape x = at_layout true N ins C -> b < N -> inb sp ins -> c < C ->
  get xt (at_layout false b sp c) = get x (at_layout true b sp c).
Proof.
  intros (_ & _ & _ & _ & G) S B I Cc. rewrite <- (inb_length _ _ I) in G. cbn [at_layout]. rewrite <- (pick_cf b sp c). apply G.
  rewrite S. change (b :: sp ++ [c]) with (at_layout true b sp c). apply inb_layout; auto.
Qed.
(** the transposed data input exists and has the same elements, channels first *)
Lemma in_transposed {A} fmt (x : tensor A) N ins C : wf x -> shape x = at_layout (is_channels_last fmt) N ins C ->
  exists xt, opt_transpose (in_perm_of fmt (length ins)) x xt /\ wf xt /\ shape xt = at_layout false N ins C /\
    (forall b sp c, b < N -> inb sp ins -> c < C -> get xt (at_layout false b sp c) = get x (at_layout (is_channels_last fmt) b sp c)) /\
    opt_transpose (out_perm_of fmt (length ins)) xt x.
Proof.
  intros W S. unfold in_perm_of, out_perm_of. destruct (is_channels_last fmt); cbn [opt_transpose].
  - assert (L : length (shape x) = length ins + 2) by (rewrite S; apply at_layout_length).
    destruct (transpose_exists (channels_first_perm (length ins)) x W) as (xt & T); [rewrite L; apply cf_perm|].
    exists xt. split; [exact T|]. assert (T' := T). destruct T' as (_ & _ & Wt & St & _). split; auto. split; [rewrite St, S; apply pick_cf|]. split.
    + intros b sp c B I Cc. eapply cf_transpose_get; eauto.
    + eapply transpose_back; [exact L|apply cl_perm|apply cl_cf_inverse|exact T].
  - exists x. auto.
Qed.
Lemma pick_map_kernel t q m ks cg M : inb t ks -> q < cg -> m < M -> inb (t ++ [q; m]) (ks ++ [cg; M]).
Proof. intros T Q Mm. apply inb_app; [apply inb_length; exact T|]. cbn. auto. Qed.
Lemma kernel_transposed (w : tensor R) ks cg M : wf w -> shape w = ks ++ [cg; M] ->
  exists wt, transpose_rel (kernel_perm (length ks)) w wt /\ wf wt /\ shape wt = M :: cg :: ks /\
    forall t q m, inb t ks -> q < cg -> m < M -> value wt (m :: q :: t) = value w (t ++ [q; m]).
Proof.
  intros W S. destruct (transpose_exists (kernel_perm (length ks)) w W) as (wt & T); [rewrite S, app_length; apply kernel_perm_perm|].
  exists wt. split; [exact T|]. destruct T as (_ & _ & Wt & St & G). split; auto. split; [rewrite St, S; apply pick_kernel|].
  intros t q m It Q M'. unfold value. rewrite <- (inb_length _ _ It) in G. rewrite <- (pick_kernel t q m). rewrite G; [reflexivity|].
  rewrite S. apply pick_map_kernel; auto.
Qed.

(** ** the convolution handler *)
Lemma parse_dims fmt l : parse_dims_attr fmt (tf_dims (is_channels_last fmt) l) (length l) = map Z.of_nat l.
Proof.
  unfold parse_dims_attr, tf_dims. rewrite map_length, at_layout_length. destruct (Nat.eqb_spec (length l + 2) (length l)); [lia|].
  destruct (is_channels_last fmt); cbn [at_layout map skipn]; [|reflexivity].
  rewrite map_app. replace (length l + 2 - 2) with (length (map Z.of_nat l)) by (rewrite map_length; lia).
  rewrite firstn_app, firstn_all, Nat.sub_diag. cbn. apply app_nil_r.
Qed.
Lemma describes_at st sh i : describes st sh -> i < length sh -> nth i st 0%Z <> (-1)%Z -> nthz st i = Some (Z.of_nat (nth i sh 0)).
Proof. intros D L N. destruct (describes_nth st sh i D L) as (z & E & F & [G|G]); unfold nthz; congruence. Qed.
Lemma describes_firstn st sh n : describes st sh -> describes (firstn n st) (firstn n sh).
Proof. intro F. revert n. induction F; intros [|n]; cbn; constructor; auto. apply IHF. Qed.
Lemma describes_pos st sh : describes st sh -> forallb (fun d => 0 <? d)%Z st = true -> map Z.to_nat st = sh.
Proof.
  induction 1 as [|z n st sh E F IH]; cbn; intro H; [reflexivity|]. apply andb_true_iff in H. destruct H as [H1 H2]. apply Z.ltb_lt in H1.
  rewrite IH by auto. f_equal. destruct E; lia.
Qed.
Lemma conv_groups_spec n ist kst N ins cg groups ks M :
  tf_in_shape n = Some ist -> tf_k_shape n = Some kst -> 1 <= groups -> 1 <= cg ->
  describes ist (at_layout (is_channels_last (tf_fmt n)) N ins (groups * cg)) -> describes kst (ks ++ [cg; M]) ->
  groups = 1 \/ channels_known n -> conv_groups n = Some (Z.of_nat groups).
Proof.
  intros EI EK G1 C1 DI DK GR. unfold conv_groups. rewrite EI, EK. cbn [bind].
  assert (Li := describes_length _ _ DI). assert (Lk := describes_length _ _ DK). rewrite at_layout_length in Li. rewrite app_length in Lk. cbn in Lk.
  set (sd := if String.eqb (tf_fmt n) "NHWC" then _ else _). assert (SD : exists z, sd = Some z /\ (z = (-1)%Z \/ z = Z.of_nat (groups * cg)) /\ (channels_known n -> z <> (-1)%Z)).
  { unfold sd. destruct (String.eqb_spec (tf_fmt n) "NHWC") as [E|NE1]; [|destruct (String.eqb_spec (tf_fmt n) "NCHW") as [E|NE2]].
    - rewrite E in DI. cbn [is_channels_last String.prefix negb at_layout] in DI.
      destruct (describes_nth ist (N :: ins ++ [groups * cg]) (length ist - 1)) as (z & E1 & E2 & E3); [exact DI|cbn; rewrite app_length; cbn; lia|].
      exists z. split; [exact E1|]. split.
      + replace (length ist - 1) with (S (length ins)) in E3 by lia. cbn [nth] in E3. rewrite app_nth2, Nat.sub_diag in E3 by lia. exact E3.
      + intros (ist' & kst' & Ei & Ek & _ & [[_ H]|[H _]]); [|congruence]. assert (ist' = ist) by congruence. subst ist'.
        intro Q. apply H. rewrite <- Q, <- E2. clear - Li. destruct ist as [|a l] using rev_ind; [cbn in Li; lia|].
        rewrite last_last, app_length. cbn. rewrite app_nth2 by lia. replace (length l + 1 - 1 - length l) with 0 by lia. reflexivity.
    - rewrite E in DI. cbn [is_channels_last String.prefix negb at_layout] in DI.
      destruct (describes_nth ist (N :: groups * cg :: ins) 1) as (z & E1 & E2 & E3); [exact DI|cbn; lia|].
      exists z. split; [exact E1|]. split; [exact E3|]. intros (ist' & kst' & Ei & Ek & _ & [[H _]|[_ H]]); [congruence|]. assert (ist' = ist) by congruence. subst ist'. congruence.
    - exists (-1)%Z. split; auto. split; auto. intros (ist' & kst' & Ei & Ek & _ & [[H _]|[H _]]); congruence. }
  destruct SD as (z & -> & Z1 & Z2). cbn [bind]. destruct (Z.eqb_spec z (-1)) as [Ez|Nz].
  - destruct GR as [->|CK]; [reflexivity|]. exfalso. exact (Z2 CK Ez).
  - destruct Z1 as [|Z1]; [contradiction|]. subst z.
    destruct (describes_nth kst (ks ++ [cg; M]) (length kst - 2)) as (f & F1 & F2 & F3); [exact DK|rewrite app_length; cbn; lia|].
    unfold nthz. rewrite F1. cbn [bind]. destruct (Z.eqb_spec f (-1)) as [Ef|Nf].
    + destruct GR as [->|(ist' & kst' & Ei & Ek & H & _)]; [reflexivity|]. exfalso. assert (kst' = kst) by congruence. subst kst'. apply H. congruence.
    + destruct F3 as [|F3]; [contradiction|]. replace (length kst - 2) with (length ks) in F3 by lia. rewrite app_nth2, Nat.sub_diag in F3 by lia. cbn in F3. rewrite F3.
      destruct (Z.eqb_spec (Z.of_nat cg) 0); [lia|]. f_equal. rewrite Nat2Z.inj_mul. apply Z.div_mul. lia.
Qed.

Theorem convert_conv_correct n p ss ds x w y :
  conv_node n p ss ds x w y -> (p = SAME -> kernel_known n) ->
  (channels (is_channels_last (tf_fmt n)) (shape x) = nth (length ss) (shape w) 0 \/ channels_known n) ->
  tf_conv_rel (is_channels_last (tf_fmt n)) p ss ds x w y ->
  exists c, convert_conv n = Some c /\ converted_conv_rel (tf_spatial n) c x w y.
Proof.
  intros (SP & PA & PL & ST & DL & (ist & EI & DI) & (kst & EK & DK) & (ost & EO & DO)) KK GR
    (N & ins & ks & cg & groups & og & outs & begins & Wx & Ww & Wy & G1 & C1 & O1 & Sx & Sw & Sy & AX & V).
  assert (AX' := AX). destruct AX' as (Lk & Ls & Ld & Lo & Lb & _).
  rewrite Sx in DI. rewrite Sw in DK. rewrite Sy in DO.
  assert (GR' : groups = 1 \/ channels_known n).
  { destruct GR as [E|E]; [left|right; exact E]. rewrite Sx, Sw in E.
    rewrite app_nth2 in E by lia. replace (length ss - length ks) with 0 in E by lia. cbn [nth] in E.
    assert (channels (is_channels_last (tf_fmt n)) (at_layout (is_channels_last (tf_fmt n)) N ins (groups * cg)) = groups * cg).
    { unfold channels, at_layout. destruct (is_channels_last (tf_fmt n)); [|reflexivity]. rewrite app_comm_cons. apply last_last. }
    rewrite H in E. nia. }
  unfold convert_conv. rewrite EK. cbn [bind].
  assert (Lks := describes_length _ _ DK). rewrite app_length in Lks. cbn in Lks.
  unfold conv_kernel_shape. rewrite SP, Lks. replace (length ks + 2 =? length ss + 2) with true by (symmetry; apply Nat.eqb_eq; lia). cbn [negb bind fst snd].
  set (kz := firstn (length ss) kst) in *.
  assert (DKz : describes kz ks). { unfold kz. rewrite Ls, <- Lk. assert (H := describes_firstn _ _ (length ks) DK). rewrite firstn_app, firstn_all, Nat.sub_diag in H. cbn in H. rewrite app_nil_r in H. exact H. }
  rewrite ST. cbn [conv_dims_attr option_map]. rewrite parse_dims.
  set (dil := conv_dims_attr (tf_fmt n) (tf_dilations n) (length ss)).
  assert (DA : dil_attr dil ds).
  { unfold dil. destruct DL as [->|(-> & E)]; [left|right]; cbn [conv_dims_attr option_map].
    - f_equal. replace (length ss) with (length ds) by lia. apply parse_dims.
    - split; [reflexivity|]. replace (length ds) with (length ss) by lia. exact E. }
  destruct (add_padding_spec (tf_fmt n) (tf_padding n) p N (groups * cg) (groups * og) ins outs ks ss ds begins ist ost kz dil) as (a & op & EA & PD & AXO); auto.
  { intros -> i Ii. destruct (KK eq_refl) as (kst' & Ek & NK). assert (kst' = kst) by congruence. subst kst'.
    apply describes_at; [exact DKz|lia|]. unfold kz. intro Q. apply (NK i); [rewrite SP; lia|].
    rewrite <- Q. rewrite <- (firstn_skipn (length ss) kst) at 1. rewrite app_nth1; [reflexivity|]. rewrite firstn_length, Lks. lia. }
  { destruct p; auto. lia. }
  rewrite EI, EO, Ls, EA. cbn [bind].
  assert (EG : conv_groups n = Some (Z.of_nat groups)) by exact (conv_groups_spec n ist kst N ins cg groups ks _ EI EK G1 C1 DI DK GR'). rewrite EG. cbn [bind].
  eexists. split; [reflexivity|]. cbn [oc_in_perm oc_k_reshape oc_k_perm oc_kernel oc_strides oc_dilations oc_pads oc_group oc_out_perm].
  destruct (in_transposed (tf_fmt n) x N ins (groups * cg) Wx Sx) as (xt & Tx & Wxt & Sxt & Gxt & _).
  destruct (kernel_transposed w ks cg (groups * og) Ww Sw) as (wt & Tw & Wwt & Swt & Gwt).
  destruct (in_transposed (tf_fmt n) y N outs (groups * og) Wy Sy) as (yt & Ty & Wyt & Syt & Gyt & By).
  exists xt, w, wt, yt, op, ss, ds. cbn [oc_in_perm oc_k_reshape oc_k_perm oc_kernel oc_strides oc_dilations oc_pads oc_group oc_out_perm].
  rewrite <- Ls at 1. split; [rewrite Ls; exact Tx|]. split; [reflexivity|]. split; [rewrite <- Lk; exact Tw|]. split; [exact PD|]. split; [reflexivity|].
  split. { destruct DA as [->|(-> & E)]; [reflexivity|]. rewrite Ld in E. exact E. }
  split; [lia|]. split; [|rewrite Lo in By; exact By].
  rewrite Nat2Z.id. exists N, ins, ks, cg, og, outs, begins. repeat (split; [assumption|]). split.
  { destruct (forallb (fun d => (0 <? d)%Z) kz) eqn:FA; cbn [option_map]; [|exact I]. apply describes_pos; auto. }
  split; [exact AXO|]. intros b m o B M O.
  change (b :: m :: o) with (at_layout false b o m). rewrite Gyt, V by auto. f_equal. rewrite msum_rsum_swap. apply rsum_ext_lt. intros q Q.
  apply msum_ext. intros t T. rewrite Gwt by auto. rewrite Rmult_comm. f_equal. unfold padded_value.
  destruct (tap ins ss ds begins o t) as [sp|] eqn:ET; [|reflexivity]. unfold value. rewrite Gxt; auto; [eapply tap_inb; eauto|].
  assert (m / og < groups) by (apply Nat.div_lt_upper_bound; lia). nia.
Qed.

(** ** pooling *)
Lemma indices_length sh : forall t, In t (indices sh) -> inb t sh.
Proof.
  induction sh as [|n sh IH]; intros t H; cbn [indices] in H; [destruct H as [<-|[]]; exact I|].
  apply in_flat_map in H. destruct H as (i & Hi & H). apply in_map_iff in H. destruct H as (t' & <- & H). apply in_seq in Hi. split; [lia|auto].
Qed.
Lemma flat_map_ext_in' {A B} (f g : A -> list B) l : (forall a, In a l -> f a = g a) -> flat_map f l = flat_map g l.
Proof. induction l as [|a l IH]; intro H; [reflexivity|]. cbn. rewrite H, IH by (cbn; auto; intros; apply H; cbn; auto). reflexivity. Qed.
Theorem convert_pool_correct {A} (agg : list A -> A) n p ks ss x y ist ost :
  let cl := is_channels_last (tp_fmt n) in
  tp_spatial n = length ss -> padding_attr cl (tp_padding n) p -> match p with EXPLICIT bs _ => length bs = length ss | _ => True end ->
  tp_ksize n = tf_dims cl ks -> tp_strides n = tf_dims cl ss ->
  tp_in_shape n = Some ist -> describes ist (shape x) -> tp_out_shape n = Some ost -> describes ost (shape y) ->
  tf_pool_rel agg cl p ks ss (repeat 1 (length ss)) x y ->
  exists c, convert_pool n = Some c /\ converted_pool_rel agg (tp_spatial n) c x y.
Proof.
  cbn zeta. intros SP PA PL EK ES EI DI EO DO (N & ins & C & outs & begins & Wx & Wy & Sx & Sy & AX & V).
  assert (AX' := AX). destruct AX' as (Lk & Ls & Ld & Lo & Lb & _). rewrite Sx in DI. rewrite Sy in DO.
  destruct (add_padding_spec (tp_fmt n) (tp_padding n) p N C C ins outs ks ss (repeat 1 (length ss)) begins ist ost (map Z.of_nat ks) None) as (a & op & EA & PD & AXO); auto.
  { intros _ i I. apply nth_error_of_nat. lia. }
  { destruct p; auto. lia. }
  { right. split; [reflexivity|]. rewrite repeat_length. reflexivity. }
  unfold convert_pool. rewrite EK, ES, SP, EI, EO. assert (PK := parse_dims (tp_fmt n) ks). replace (length ks) with (length ss) in PK by lia. rewrite PK, parse_dims. rewrite Ls, EA. cbn [bind].
  eexists. split; [reflexivity|].
  destruct (in_transposed (tp_fmt n) x N ins C Wx Sx) as (xt & Tx & Wxt & Sxt & Gxt & _).
  destruct (in_transposed (tp_fmt n) y N outs C Wy Sy) as (yt & Ty & Wyt & Syt & Gyt & By).
  exists xt, yt, op, ks, ss, (repeat 1 (length ss)). cbn [op_in_perm op_kernel op_strides op_dilations op_pads op_out_perm].
  split; [exact Tx|]. split; [exact PD|]. split; [reflexivity|]. split; [reflexivity|]. split; [rewrite Ls; reflexivity|]. split; [|rewrite Lo in By; exact By].
  exists N, ins, C, outs, begins. repeat (split; [assumption|]). intros b o c B O Cc. destruct (V b o c B O Cc) as (els & E1 & E2).
  exists els. split; [|rewrite Gyt by auto; exact E2]. rewrite <- E1. unfold window. apply flat_map_ext_in'. intros t T.
  destruct (tap ins ss (repeat 1 (length ss)) begins o t) as [sp|] eqn:ET; [|reflexivity]. rewrite Gxt; auto. eapply tap_inb; eauto.
Qed.

(** ** depthwise convolution *)
Lemma ravel_app a b : forall ix jx, length ix = length a -> ravel (a ++ b) (ix ++ jx) = ravel a ix * size b + ravel b jx.
Proof.
  induction a as [|d a IH]; intros [|i ix] jx L; cbn [length] in L; try discriminate; [reflexivity|]. cbn [app ravel].
  rewrite IH by lia. rewrite size_app. lia.
Qed.
Lemma depth_reshape (w : tensor R) ks C mult : wf w -> shape w = ks ++ [C; mult] -> Forall (fun k => 1 <= k) ks -> 1 <= C -> 1 <= mult ->
  exists w', reshape_rel false (map Z.of_nat (ks ++ [1; C * mult])) w w' /\ wf w' /\ shape w' = ks ++ [1; C * mult] /\
    forall t k q, inb t ks -> k < C -> q < mult -> value w' (t ++ [0; k * mult + q]) = value w (t ++ [k; q]).
Proof.
  intros W S FK C1 M1. exists (Tensor (ks ++ [1; C * mult]) (data w)).
  assert (SZ : size (ks ++ [1; C * mult]) = size (ks ++ [C; mult])) by (rewrite !size_app; cbn; nia).
  assert (W' : wf (Tensor (ks ++ [1; C * mult]) (data w))) by (unfold wf in *; cbn [data shape]; rewrite SZ, <- S; exact W).
  split; [|split; [exact W'|split; [reflexivity|]]].
  - unfold reshape_rel. split; auto. split; auto. cbn [shape]. split.
    { replace (filter (Z.eqb (-1)) (map Z.of_nat (ks ++ [1; C * mult]))) with (@nil Z); [cbn; lia|]. clear. induction (ks ++ [1; C * mult]) as [|a l IH]; [reflexivity|].
      cbn [map filter]. destruct (Z.eqb_spec (-1) (Z.of_nat a)); [lia|exact IH]. }
    split; [rewrite map_length; reflexivity|]. split.
    { intros k t d T D. rewrite nth_error_map, D in T. cbn in T. inversion T; subst t. right. right.
      assert (1 <= d). { assert (F : Forall (fun k => 1 <= k) (ks ++ [1; C * mult])) by (apply Forall_app; split; [exact FK|repeat constructor; nia]).
        rewrite Forall_forall in F. apply F. eapply nth_error_In; eauto. }
      split; lia. }
    split; [rewrite S; exact SZ|]. intros ix jx I J E. unfold get. cbn [data shape]. rewrite <- E. reflexivity.
  - intros t k q T K Q. unfold value, get. cbn [data shape]. rewrite S.
    rewrite !ravel_app by (apply (inb_length _ _ T)). replace (size [1; C * mult]) with (size [C; mult]) by (cbn; lia). cbn [ravel size fold_right].
    replace (0 * (C * mult * 1) + ((k * mult + q) * 1 + 0)) with (k * (mult * 1) + (q * 1 + 0)) by lia. reflexivity.
Qed.
Lemma rsum_1 f : rsum 1 f = f 0.
Proof. cbn. ring. Qed.
Theorem convert_depthwise_correct n p ss ds x w y :
  conv_node n p ss ds x w y -> length ss = 2 -> tf_k_shape n = Some (map Z.of_nat (shape w)) ->
  tf_depthwise_rel (is_channels_last (tf_fmt n)) p ss ds x w y ->
  exists c, convert_depthwise n = Some c /\ converted_conv_rel 2 c x w y.
Proof.
  intros (SP & PA & PL & ST & DL & (ist & EI & DI) & _ & (ost & EO & DO)) L2 EK
    (N & ins & ks & C & mult & outs & begins & Wx & Ww & Wy & C1 & M1 & Sx & Sw & Sy & AX & V).
  assert (AX' := AX). destruct AX' as (Lk & Ls & Ld & Lo & Lb & _ & Fk & _). rewrite Sx in DI. rewrite Sy in DO. rewrite Sw in EK.
  assert (K2 : exists k1 k2, ks = [k1; k2]).
  { destruct ks as [|k1 [|k2 [|? ?]]]; cbn in Lk; try lia. eauto. }
  destruct K2 as (k1 & k2 & Eks).
  unfold convert_depthwise. rewrite EI, EK. cbn [bind]. assert (Li := describes_length _ _ DI). rewrite at_layout_length in Li.
  replace (length ist =? 4) with true by (symmetry; apply Nat.eqb_eq; lia). cbn [negb].
  set (dil := conv_dims_attr (tf_fmt n) (tf_dilations n) 2).
  assert (DA : dil_attr dil ds).
  { unfold dil. destruct DL as [->|(-> & E)]; [left|right]; cbn [conv_dims_attr option_map].
    - f_equal. replace 2 with (length ds) by lia. apply parse_dims.
    - split; [reflexivity|]. replace (length ds) with (length ss) by lia. exact E. }
  destruct (add_padding_spec (tf_fmt n) (tf_padding n) p N C (C * mult) ins outs ks ss ds begins ist ost (map Z.of_nat (ks ++ [C; mult])) dil) as (a & op & EA & PD & AXO); auto.
  { intros _ i Ii. rewrite nth_error_of_nat by (rewrite app_length; cbn; lia). rewrite app_nth1 by lia. reflexivity. }
  { destruct p; auto. lia. }
  assert (Li2 : length ins = 2) by lia. rewrite Li2 in EA, PD. rewrite EO. rewrite Eks in EA. cbn [app map] in EA. rewrite Eks. cbn [app map].
  destruct (Z.ltb_spec (Z.of_nat C) 1); [lia|]. rewrite ST. cbn [conv_dims_attr option_map]. fold dil.
  assert (PS := parse_dims (tf_fmt n) ss). rewrite L2 in PS. rewrite PS, EA. cbn [bind].
  eexists. split; [reflexivity|].
  destruct (in_transposed (tf_fmt n) x N ins C Wx Sx) as (xt & Tx & Wxt & Sxt & Gxt & _).
  destruct (depth_reshape w ks C mult Ww Sw Fk C1 M1) as (w' & Rw & Ww' & Sw' & Gw').
  destruct (kernel_transposed w' ks 1 (C * mult) Ww' Sw') as (wt & Tw & Wwt & Swt & Gwt).
  destruct (in_transposed (tf_fmt n) y N outs (C * mult) Wy Sy) as (yt & Ty & Wyt & Syt & Gyt & By).
  exists xt, w', wt, yt, op, ss, ds. cbn [oc_in_perm oc_k_reshape oc_k_perm oc_kernel oc_strides oc_dilations oc_pads oc_group oc_out_perm].
  replace (length outs) with 2 in By by lia. replace (length ins) with 2 in Tx by lia. replace (length ks) with 2 in Tw by lia.
  split; [exact Tx|]. split. { rewrite Eks in Rw. cbn [app map] in Rw. rewrite Nat2Z.inj_mul in Rw. exact Rw. }
  split; [exact Tw|]. split; [exact PD|]. split; [reflexivity|].
  split. { destruct DA as [->|(-> & E)]; [reflexivity|]. replace (length ds) with 2 in E by lia. exact E. }
  split; [lia|]. split; [|exact By]. rewrite Nat2Z.id. exists N, ins, ks, 1, mult, outs, begins. rewrite Nat.mul_1_r.
  repeat (split; [assumption|]). split. { destruct ((0 <? Z.of_nat k1)%Z && (0 <? Z.of_nat k2)%Z); cbn [option_map map]; [|exact I]. rewrite !Nat2Z.id. symmetry. exact Eks. }
  split; [exact AXO|]. intros b m o B M O. change (b :: m :: o) with (at_layout false b o m). rewrite Gyt by auto.
  assert (Dm := Nat.div_mod m mult ltac:(clear - M1; lia)). assert (Mm := Nat.mod_upper_bound m mult ltac:(clear - M1; lia)).
  assert (Em : m / mult * mult + m mod mult = m) by (rewrite Nat.mul_comm; symmetry; exact Dm).
  assert (K : m / mult < C) by (apply Nat.div_lt_upper_bound; lia).
  assert (E := V b o (m / mult) (m mod mult) B O K Mm). rewrite Em in E. rewrite E. f_equal.
  rewrite rsum_1. apply msum_ext. intros t T. rewrite Gwt by (auto; lia).
  assert (G := Gw' t (m / mult) (m mod mult) T K Mm). rewrite Em in G. rewrite G, Rmult_comm. f_equal.
  rewrite Nat.mul_1_r, Nat.add_0_r. unfold padded_value. destruct (tap ins ss ds begins o t) as [sp|] eqn:ET; [|reflexivity]. unfold value. rewrite Gxt; auto. eapply tap_inb; eauto.
Qed.

(** ** further facts for C32, C33 and the transposed convolution *)
Lemma traverse_length {A B} (f : A -> option B) l : forall r, traverse f l = Some r -> length r = length l.
Proof.
  induction l as [|a l IH]; intros r E; cbn [traverse] in E; [inversion E; reflexivity|]. destruct (f a); [|discriminate]. cbn [bind] in E.
  destruct (traverse f l); [|discriminate]. cbn [bind] in E. inversion E; subst. cbn. f_equal. auto.
Qed.
Lemma traverse_Forall {A B} (P : B -> Prop) (f : A -> option B) l : (forall a b, f a = Some b -> P b) -> forall r, traverse f l = Some r -> Forall P r.
Proof.
  intro H. induction l as [|a l IH]; intros r E; cbn [traverse] in E; [inversion E; constructor|]. destruct (f a) eqn:Fa; [|discriminate]. cbn [bind] in E.
  destruct (traverse f l); [|discriminate]. cbn [bind] in E. inversion E; subst. constructor; eauto.
Qed.
Lemma nth_map_lt {A B} (f : A -> B) l i d d0 : i < length l -> nth i (map f l) d = f (nth i l d0).
Proof. intro I. rewrite nth_indep with (d' := f d0) by (rewrite map_length; exact I). apply map_nth. Qed.
Lemma same_pads_balanced spatial fmt ist ost kz st dil l : add_padding spatial fmt PSame ist ost kz st dil = Some (Pads l) ->
  length l = 2 * spatial /\ forall i, i < spatial -> (0 <= nth i l 0 <= nth (spatial + i) l 0 /\ nth (spatial + i) l 0 <= nth i l 0 + 1)%Z.
Proof.
  unfold add_padding. destruct ist as [i0|]; [|discriminate]. destruct ost as [o0|]; [|discriminate]. cbn [bind].
  destruct (negb (length i0 =? spatial + 2)); [discriminate|]. destruct (negb (length o0 =? spatial + 2)); [discriminate|].
  destruct (existsb _ _); [discriminate|]. destruct (traverse _ (seq 0 spatial)) as [ps|] eqn:T; [|discriminate]. cbn [bind]. intro E. inversion E; subst l. clear E.
  assert (Lp := traverse_length _ _ _ T). rewrite seq_length in Lp.
  assert (FP : Forall (fun p => 0 <= p)%Z ps).
  { eapply traverse_Forall; [|exact T]. intros a b H. cbn beta in H.
    repeat match type of H with context [bind ?o _] => destruct o; [|discriminate H]; cbn [bind] in H end.
    inversion H; subst. unfold same_pad. lia. }
  rewrite app_length, !map_length, Lp. split; [lia|]. intros i I. rewrite Forall_forall in FP.
  assert (P := FP (nth i ps 0%Z) ltac:(apply nth_In; lia)). rewrite app_nth1 by (rewrite map_length; lia).
  rewrite app_nth2 by (rewrite map_length; lia). rewrite map_length, Lp. replace (spatial + i - spatial) with i by lia.
  rewrite !(nth_map_lt _ _ _ _ 0%Z) by lia.
  set (q := nth i ps 0%Z) in *. pose proof (Z.div_mod q 2). pose proof (Z.mod_pos_bound q 2). lia.
Qed.
Lemma shape_cf_perm (s : list nat) n : length s = n + 2 -> make_shape_channels_first s = pick (channels_first_perm n) s.
Proof.
  intro L. destruct s as [|a s]; [cbn in L; lia|]. destruct s as [|c l _] using rev_ind; [cbn in L; lia|].
  cbn [length] in L. rewrite app_length in L. cbn [length] in L. replace n with (length l) by lia. rewrite shape_cf. symmetry. apply pick_cf.
Qed.
Lemma spatial_map_perm (s : list nat) p : (forall i, In i p -> i < length s) -> spatial_map (map Z.of_nat s) p = Some (map Z.of_nat (pick p s)).
Proof.
  intro H. unfold spatial_map, pick. rewrite map_map. apply traverse_map. intros a A. apply nth_error_of_nat. auto.
Qed.
Lemma conv_transpose_same inp k s d out b : 1 <= s -> 1 <= k -> 1 <= d -> 1 <= out -> out <= s * (inp - 1) + eff k d ->
  tf_axis SAME 0 out k s d inp b ->
  let pads := conv_transpose_pads (Z.of_nat inp) (Z.of_nat k) (Z.of_nat s) (Z.of_nat d) (Z.of_nat out) in
  fst pads = Z.of_nat b /\ (0 <= fst pads /\ 0 <= snd pads)%Z /\ onnx_conv_transpose_size inp k s d pads = Z.of_nat out.
Proof.
  intros S K D O T (Ei & Eb). rewrite same_total in Eb by auto. rewrite <- Ei in Eb. cbn zeta.
  destruct (ceil_div_bounds out s S O) as (Q & _). rewrite <- Ei in Q.
  assert (TT : (Z.of_nat s * (Z.of_nat inp - 1) + ((Z.of_nat k - 1) * Z.of_nat d + 1) - Z.of_nat out)%Z = Z.of_nat ((inp - 1) * s + eff k d - out)).
  { rewrite Nat2Z.inj_sub by lia. unfold eff. rewrite !Nat2Z.inj_add, !Nat2Z.inj_mul, !Nat2Z.inj_sub by lia. lia. }
  unfold conv_transpose_pads, onnx_conv_transpose_size. rewrite TT. set (t := (inp - 1) * s + eff k d - out) in *. cbn [fst snd].
  assert (Et : Z.quot (Z.of_nat t) 2 = Z.of_nat (t / 2)) by (rewrite Z.quot_div_nonneg by lia; rewrite Nat2Z.inj_div; reflexivity).
  rewrite Et. split; [rewrite Eb; reflexivity|]. assert (t / 2 <= t) by (apply Nat.div_le_upper_bound; lia). split; [lia|].
  unfold t. rewrite Nat2Z.inj_sub by lia. rewrite Nat2Z.inj_add, Nat2Z.inj_mul, Nat2Z.inj_sub by lia. lia.
Qed.
