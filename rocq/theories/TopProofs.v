(** Proofs about TopModel. *)
From Coq Require Import ZArith Reals List Bool String Sorted Lia Lra Arith.
From Flocq Require Import Core BinarySingleNaN.
From Verif Require Import ElemSpec ElemModel ElemFloat ElemLift RangeSpec TopSpec TopModel.
Import ListNotations.
Local Open Scope list_scope.
Local Notation length := List.length.
Local Notation round := Generic_fmt.round.

(** ** the order *)
Lemma Bltb_asym f (x y : fl f) : Bltb x y = true -> Bltb y x = false.
Proof.
  unfold Bltb, SpecFloat.SFltb. change (SpecFloat.SFcompare (B2SF y) (B2SF x)) with (Bcompare y x). change (SpecFloat.SFcompare (B2SF x) (B2SF y)) with (Bcompare x y).
  rewrite (Bcompare_swap _ _ x y). destruct (Bcompare x y) as [[]|]; cbn; congruence.
Qed.
Lemma as_fl_same f (x : fl f) : as_fl f (VF f x) = Some x.
Proof. destruct f; reflexivity. Qed.
Lemma as_fl_other f g (x : fl g) : f <> g -> as_fl f (VF g x) = None.
Proof. destruct f, g; try congruence; reflexivity. Qed.
Lemma fty_dec (f g : fty) : {f = g} + {f <> g}.
Proof. decide equality. Qed.
Lemma larger_asym v w : larger v w = true -> larger w v = false.
Proof.
  unfold larger, both. destruct v as [a|t a|f x], w as [b|u b|g y]; try discriminate; try reflexivity.
  - destruct t, u; cbn [ity_eqb]; try discriminate; try reflexivity; intro H; apply Z.ltb_lt in H; apply Z.ltb_ge; lia.
  - destruct (fty_dec f g) as [<-|N].
    + rewrite !as_fl_same. apply Bltb_asym.
    + rewrite as_fl_other by auto. discriminate.
Qed.
Lemma before_asym xs i j : before xs i j -> before xs j i -> False.
Proof.
  intros (v & w & A & B & H) (w' & v' & A' & B' & H'). rewrite A in B'. rewrite B in A'. injection B' as <-. injection A' as <-.
  destruct H as [H|[H Hi]], H' as [H'|[H' Hi']]; try congruence; [|lia]. rewrite (larger_asym _ _ H) in H'. discriminate.
Qed.
(** the list of the largest is unique *)
Lemma sorted_unique xs : forall is is' (D : nat -> Prop), length is = length is' -> StronglySorted (before xs) is -> StronglySorted (before xs) is' ->
  (forall i, In i is -> D i) -> (forall i, In i is' -> D i) ->
  (forall i j, In i is -> D j -> ~ In j is -> before xs i j) -> (forall i j, In i is' -> D j -> ~ In j is' -> before xs i j) -> is = is'.
Proof.
  induction is as [|i is IH]; intros [|i' is'] D L S1 S2 D1 D2 T1 T2; try discriminate; [reflexivity|].
  inversion S1 as [|? ? S1' F1]; subst. inversion S2 as [|? ? S2' F2]; subst. rewrite Forall_forall in F1, F2.
  assert (Nd1 : ~ In i is) by (intro K; apply (before_asym xs i i); apply F1; auto).
  assert (Nd2 : ~ In i' is') by (intro K; apply (before_asym xs i' i'); apply F2; auto).
  assert (E : i = i').
  { destruct (Nat.eq_dec i i') as [|N]; [auto|]. exfalso.
    assert (B1 : before xs i i').
    { destruct (in_dec Nat.eq_dec i' is); [now apply F1|]. apply T1; [now left|apply D2; now left|]. intros [K|K]; auto. }
    assert (B2 : before xs i' i).
    { destruct (in_dec Nat.eq_dec i is'); [now apply F2|]. apply T2; [now left|apply D1; now left|]. intros [K|K]; auto. }
    now apply (before_asym xs i i'). }
  subst i'. f_equal. apply (IH is' (fun j => D j /\ j <> i)); auto.
  - intros j Hj. split; [apply D1; now right|]. intros ->. auto.
  - intros j Hj. split; [apply D2; now right|]. intros ->. auto.
  - intros a b Ha [Db Nb] Hb. apply T1; auto; [now right|]. intros [K|K]; congruence || auto.
  - intros a b Ha [Db Nb] Hb. apply T2; auto; [now right|]. intros [K|K]; congruence || auto.
Qed.
Lemma top_unique xs k is is' : top xs k is -> top xs k is' -> is = is'.
Proof.
  intros [L1 I1 S1 T1] [L2 I2 S2 T2]. rewrite Forall_forall in I1, I2. apply (sorted_unique xs is is' (fun i => i < length xs)); auto. congruence.
Qed.
(** only the order of the elements matters *)
Lemma top_order xs ys k is : Forall2 (fun v w => True) xs ys ->
  (forall i j v w v' w', nth_error xs i = Some v -> nth_error xs j = Some w -> nth_error ys i = Some v' -> nth_error ys j = Some w' -> larger v' w' = larger v w) ->
  top xs k is -> top ys k is.
Proof.
  intros F H [L I0 S0 T]. assert (Le : length xs = length ys) by (clear -F; induction F; cbn; congruence).
  assert (Bf : forall i j, before xs i j -> before ys i j).
  { intros i j (v & w & A & B & C). destruct (nth_error ys i) as [v'|] eqn:A'; [|apply nth_error_None in A'; exfalso; assert (i < length xs) by (apply nth_error_Some; congruence); lia].
    destruct (nth_error ys j) as [w'|] eqn:B'; [|apply nth_error_None in B'; exfalso; assert (j < length xs) by (apply nth_error_Some; congruence); lia].
    exists v', w'. repeat split; auto. rewrite (H i j v w v' w'), (H j i w v w' v') by auto. exact C. }
  constructor.
  - exact L.
  - now rewrite <- Le.
  - clear -S0 Bf. induction S0; constructor; auto. revert H. apply Forall_impl. auto.
  - intros i j Hi Hj Nj. rewrite <- Le in Hj. auto.
Qed.
(** ** conversions *)
Definition fits (g : fty) {f} (x : fl f) : Prop := exists y : fl g, is_finite y = true /\ B2R y = B2R x.
Lemma convert_exact f g (x : fl f) : is_finite x = true -> fits g x -> is_finite (convert g x) = true /\ B2R (convert g x) = B2R x.
Proof.
  intros Fx (y & Fy & Ey). destruct x as [s|s| |s m e H]; try discriminate; [split; reflexivity|]. cbn [convert]. unfold round_to.
  assert (C := binary_normalize_correct (prec g) (emax g) _ _ mode_NE (if s then Zneg m else Zpos m) e false). cbv zeta in C.
  replace (F2R (Float radix2 (if s then Zneg m else Zpos m) e)) with (B2R (B754_finite s m e H)) in C by (destruct s; reflexivity).
  assert (Er : round radix2 (SpecFloat.fexp (prec g) (emax g)) (round_mode mode_NE) (B2R (B754_finite s m e H)) = B2R (B754_finite s m e H)).
  { apply round_generic; [typeclasses eauto|]. rewrite <- Ey. apply generic_format_B2R. }
  rewrite Er in C. rewrite Rlt_bool_true in C by (rewrite <- Ey; apply abs_B2R_lt_emax). destruct C as (C1 & C2 & _). auto.
Qed.
Lemma fits_16 (x : fl F16) : is_finite x = true -> fits F32 x.
Proof.
  intro Fx. exists (convert F32 x). destruct x as [s|s| |s m e H]; try discriminate; [split; reflexivity|]. cbn [convert]. unfold round_to.
  assert (C := binary_normalize_correct (prec F32) (emax F32) _ _ mode_NE (if s then Zneg m else Zpos m) e false). cbv zeta in C.
  replace (F2R (Float radix2 (if s then Zneg m else Zpos m) e)) with (B2R (B754_finite s m e H)) in C by (destruct s; reflexivity).
  set (x := B754_finite s m e H : fl F16) in *.
  assert (Er : round radix2 (SpecFloat.fexp (prec F32) (emax F32)) (round_mode mode_NE) (B2R x) = B2R x).
  { apply round_generic; [typeclasses eauto|]. apply (generic_inclusion_mag radix2 (SpecFloat.fexp (prec F16) (emax F16)) (SpecFloat.fexp (prec F32) (emax F32))); [|apply generic_format_B2R].
    intros _. unfold SpecFloat.fexp, SpecFloat.emin. cbn [prec emax]. lia. }
  rewrite Er in C. rewrite Rlt_bool_true in C.
  - destruct C as (C1 & C2 & _). auto.
  - apply Rlt_le_trans with (1 := abs_B2R_lt_emax _ _ x). apply bpow_le. cbn. lia.
Qed.
Lemma fits_self f (x : fl f) : is_finite x = true -> fits f x.
Proof. intro F. now exists x. Qed.
Lemma Bltb_inf f (x : fl f) s : is_finite x = true -> Bltb x (B754_infinity s) = negb s /\ Bltb (B754_infinity s) x = s.
Proof. destruct x as [b|b| |b m e H]; try discriminate; intros _; destruct s; try destruct b; split; reflexivity. Qed.
Lemma lt_convert f g (x y : fl f) : is_nan x = false -> is_nan y = false -> (is_finite x = true -> fits g x) -> (is_finite y = true -> fits g y) ->
  Bltb (convert g x) (convert g y) = Bltb x y.
Proof.
  intros Nx Ny Ex Ey. destruct (is_finite x) eqn:Fx; destruct (is_finite y) eqn:Fy.
  - destruct (convert_exact f g x Fx (Ex eq_refl)) as [A1 A2]. destruct (convert_exact f g y Fy (Ey eq_refl)) as [B1 B2]. rewrite !Bltb_correct by auto. now rewrite A2, B2.
  - destruct (convert_exact f g x Fx (Ex eq_refl)) as [A1 A2]. destruct y as [s|s| |s m e H]; try discriminate. cbn [convert].
    rewrite (proj1 (Bltb_inf g _ s A1)), (proj1 (Bltb_inf f x s Fx)). reflexivity.
  - destruct (convert_exact f g y Fy (Ey eq_refl)) as [A1 A2]. destruct x as [s|s| |s m e H]; try discriminate. cbn [convert].
    rewrite (proj2 (Bltb_inf g _ s A1)), (proj2 (Bltb_inf f y s Fy)). reflexivity.
  - destruct x as [s|s| |s m e H]; try discriminate. destruct y as [s'|s'| |s' m' e' H']; try discriminate. destruct s, s'; reflexivity.
Qed.
Lemma exact_fits f (x : fl f) : exact32 (VF f x) -> is_nan x = false /\ (is_finite x = true -> fits F32 x).
Proof. intros [N E]. split; auto. intro Fx. destruct f; [now apply fits_16|now apply fits_self|now apply E]. Qed.
(** the cast to float32 keeps the order, and the cast back gives the value *)
Lemma cast_exact d v : has_type d v -> d <> BOOL -> exact32 v -> exists w, cast (FLT F32) v = Some w /\ has_type (FLT F32) w /\ exists v', cast d w = Some v' /\ same v v'.
Proof.
  intros [Hd Hr] Nb E. destruct v as [b|t z|f x]; cbn [dt] in Hd; subst d; [congruence| |].
  - cbn [exact32] in E. exists (VF F32 (of_Z F32 z)). split; [reflexivity|]. split; [split; [reflexivity|exact Logic.I]|]. exists (VI t z). split; [|constructor].
    cbn [cast]. rewrite trunc_of_Z by exact E. destruct (of_Z_exact F32 z E) as [_ F]. rewrite F. unfold in_range in Hr.
    destruct (Z.leb_spec (lo t) z); [|lia]. destruct (Z.leb_spec z (hi t)); [|lia]. reflexivity.
  - destruct (exact_fits f x E) as [N Fi]. exists (VF F32 (convert F32 x)). split; [reflexivity|]. split; [split; [reflexivity|exact Logic.I]|]. exists (VF f (convert f (convert F32 x))). split; [reflexivity|].
    destruct (is_finite x) eqn:Fx.
    + destruct (convert_exact f F32 x Fx (Fi eq_refl)) as [A1 A2].
      destruct (convert_exact F32 f (convert F32 x) A1) as [B1 B2]; [exists x; auto|]. apply same_finite; auto. congruence.
    + destruct x as [s|s| |s m e H]; try discriminate. constructor.
Qed.
Lemma larger_cast d v w v' w' : has_type d v -> has_type d w -> exact32 v -> exact32 w -> cast (FLT F32) v = Some v' -> cast (FLT F32) w = Some w' -> larger v' w' = larger v w.
Proof.
  intros [Hv _] [Hw _] Ev Ew Cv Cw. destruct v as [b|t z|f x]; destruct w as [b'|t' z'|f' x']; cbn [dt] in Hv, Hw; subst d; try discriminate; try (destruct Ev; fail).
  - injection Hw as ->. injection Cv as <-. injection Cw as <-. cbn [exact32] in Ev, Ew. unfold larger, both. rewrite as_fl_same. replace (ity_eqb t t) with true by (destruct t; reflexivity). now apply ltb_of_Z.
  - injection Hw as ->. injection Cv as <-. injection Cw as <-. unfold larger, both. rewrite !as_fl_same. destruct (exact_fits _ _ Ev), (exact_fits _ _ Ew). now apply lt_convert.
Qed.
(** one elementwise node *)
Lemma bcast_self sh : bcast_all [sh] = Some sh.
Proof. cbn [bcast_all]. unfold bcast. cbn [rev]. destruct (rev sh) as [|a l] eqn:E; cbn; [|rewrite <- (rev_involutive sh), E; reflexivity]. apply (f_equal (@rev nat)) in E. rewrite rev_involutive in E. now rewrite E. Qed.
Lemma one_node opset op a x : exists t, result opset ([Node op a [In_ 0]], Tmp 0) [x] = Some t /\ tshape t = tshape x /\
  forall ix, inb ix (tshape x) -> telem t ix = match telem x ix with Some v => onnx_op opset op a [v] | None => None end.
Proof.
  unfold result. cbn [fst snd run run_step looks look nth_error]. unfold lift. cbn [map]. rewrite bcast_self. eexists. split; [reflexivity|]. split; [reflexivity|].
  intros ix Hx. cbn [telem]. cbn [map]. rewrite align_self by auto. destruct (telem x ix); reflexivity.
Qed.
Lemma no_node opset x : result opset nothing [x] = Some x.
Proof. reflexivity. Qed.
Lemma row_some x p n xs : row x p n = Some xs -> length xs = n /\ forall i, i < n -> telem x (p ++ [i]) = nth_error xs i.
Proof.
  unfold row. intro H. assert (G : forall m k xs, all_vals (map (fun i => telem x (p ++ [i])) (seq k m)) = Some xs -> length xs = m /\ forall i, i < m -> telem x (p ++ [k + i]) = nth_error xs i).
  { clear. induction m as [|m IH]; intros k xs H; cbn [seq map all_vals] in H.
    - injection H as <-. split; [reflexivity|]. intros i Hi. lia.
    - destruct (telem x (p ++ [k])) as [v|] eqn:E; [|discriminate]. destruct (all_vals _) as [l|] eqn:El in H; [|discriminate]. cbn [option_map] in H. injection H as <-.
      destruct (IH (S k) l El) as [A B]. split; [cbn; congruence|]. intros [|i] Hi; [rewrite Nat.add_0_r; exact E|]. cbn [nth_error]. rewrite <- B by lia. do 3 f_equal. lia. }
  destruct (G n 0 xs H) as [A B]. split; auto.
Qed.
Lemma row_intro x p n xs : length xs = n -> (forall i, i < n -> telem x (p ++ [i]) = nth_error xs i) -> row x p n = Some xs.
Proof.
  intros L H. unfold row. assert (G : forall m k xs, length xs = m -> (forall i, i < m -> telem x (p ++ [k + i]) = nth_error xs i) -> all_vals (map (fun i => telem x (p ++ [i])) (seq k m)) = Some xs).
  { clear. induction m as [|m IH]; intros k [|v xs] L H; try discriminate; [reflexivity|]. cbn [seq map all_vals].
    assert (H0 := H 0 ltac:(lia)). rewrite Nat.add_0_r in H0. rewrite H0. cbn [nth_error]. rewrite (IH (S k) xs); [reflexivity|cbn in L; lia|].
    intros i Hi. specialize (H (S i) ltac:(lia)). cbn [nth_error] in H. rewrite <- H. do 3 f_equal. lia. }
  now apply G.
Qed.
(** ** TopK *)
Definition enc (d : dtype) (v w : val) : Prop := if dtype_eqb d (FLT F32) then v = w else cast (FLT F32) v = Some w.
Lemma dtype_eqb_F32 d : dtype_eqb d (FLT F32) = true -> d = FLT F32.
Proof. destruct d as [|t|[]]; try discriminate; reflexivity. Qed.
Definition cast_in (d : dtype) := if dtype_eqb d (FLT F32) then nothing else made (make "Cast" (To (FLT F32)) [In_ 0]).
Definition cast_out (d : dtype) := if dtype_eqb d (FLT F32) then nothing else made (make "Cast" (To d) [In_ 0]).
Section Rows.
  Variables (opset : nat) (d : dtype) (x : ten).
  Hypothesis Hd : d <> BOOL.
  Hypothesis Tx : typed d x.
  Hypothesis Ex : elements exact32 x.
  Lemma data_ok : exists xd, result opset (cast_in d) [x] = Some xd /\ tshape xd = tshape x /\ typed (FLT F32) xd /\
    forall ix v, inb ix (tshape x) -> telem x ix = Some v -> exists w, telem xd ix = Some w /\ enc d v w.
  Proof.
    unfold cast_in, enc. destruct (dtype_eqb d (FLT F32)) eqn:E.
    - apply dtype_eqb_F32 in E. exists x. rewrite no_node. repeat split; auto; [now rewrite <- E|]. eauto.
    - destruct (one_node opset "Cast" (To (FLT F32)) x) as (t & R & Sh & El). exists t. split; [exact R|]. split; [exact Sh|]. split.
      + intros ix Hx. rewrite Sh in Hx. destruct (Tx ix Hx) as (v & Ev & Hv). destruct (cast_exact d v Hv Hd (Ex ix v Hx Ev)) as (w & C & T & _).
        exists w. rewrite El, Ev by auto. split; [exact C|exact T].
      + intros ix v Hx Ev. destruct (Tx ix Hx) as (v0 & Ev0 & Hv). rewrite Ev in Ev0. injection Ev0 as <-. destruct (cast_exact d v Hv Hd (Ex ix v Hx Ev)) as (w & C & _).
        exists w. rewrite El, Ev by auto. split; [exact C|exact C].
  Qed.
  Lemma back_ok y : exists t, result opset (cast_out d) [y] = Some t /\ tshape t = tshape y /\
    forall ix v w, inb ix (tshape y) -> telem y ix = Some w -> has_type d v -> exact32 v -> enc d v w -> exists v', telem t ix = Some v' /\ same v v'.
  Proof.
    unfold cast_out, enc. destruct (dtype_eqb d (FLT F32)) eqn:E.
    - exists y. rewrite no_node. repeat split; auto. intros ix v w _ Ey _ _ ->. exists w. split; [auto|constructor].
    - destruct (one_node opset "Cast" (To d) y) as (t & R & Sh & El). exists t. split; [exact R|]. split; [exact Sh|].
      intros ix v w Hx Ey Hv Hev C. destruct (cast_exact d v Hv Hd Hev) as (w' & C' & _ & v' & Cb & Sm). rewrite C in C'. injection C' as <-. exists v'. rewrite El, Ey by auto. auto.
  Qed.
  Lemma enc_order v w v' w' : has_type d v -> has_type d w -> exact32 v -> exact32 w -> enc d v v' -> enc d w w' -> larger v' w' = larger v w.
  Proof. unfold enc. destruct (dtype_eqb d (FLT F32)); intros Hv Hw Ev Ew A B; [now subst|]. now apply (larger_cast d). Qed.
  (** the rows of the two tensors have the same largest elements *)
  Lemma rows_ok xd p d0 n xs : tshape x = d0 ++ [n] -> inb p d0 ->
    (forall ix v, inb ix (tshape x) -> telem x ix = Some v -> exists w, telem xd ix = Some w /\ enc d v w) -> row x p n = Some xs ->
    exists ys, row xd p n = Some ys /\ (forall i v, nth_error xs i = Some v -> exists w, nth_error ys i = Some w /\ enc d v w /\ has_type d v /\ exact32 v) /\
      forall k is, top xs k is <-> top ys k is.
  Proof.
    intros Sh Hp El Hr. destruct (row_some x p n xs Hr) as [L Ei].
    assert (Inb : forall i, i < n -> inb (p ++ [i]) (tshape x)).
    { intros i Hi. rewrite Sh. apply inb_app; [now apply inb_length|]. cbn. auto. }
    assert (W : exists ys, length ys = n /\ forall i v, nth_error xs i = Some v -> exists w, nth_error ys i = Some w /\ telem xd (p ++ [i]) = Some w /\ enc d v w /\ has_type d v /\ exact32 v).
    { assert (G : forall m, m <= n -> exists ys, length ys = m /\ forall i v, i < m -> nth_error xs i = Some v -> exists w, nth_error ys i = Some w /\ telem xd (p ++ [i]) = Some w /\ enc d v w /\ has_type d v /\ exact32 v).
      { induction m as [|m IH]; intro Hm; [exists []; split; [reflexivity|]; intros; lia|]. destruct (IH ltac:(lia)) as (ys & Ly & Hy).
        destruct (nth_error xs m) as [v|] eqn:Em; [|apply nth_error_None in Em; lia].
        assert (Ev : telem x (p ++ [m]) = Some v) by (rewrite Ei by lia; exact Em). destruct (El _ v (Inb m ltac:(lia)) Ev) as (w & Ew & Ec).
        exists (ys ++ [w]). split; [rewrite app_length; cbn; lia|]. intros i v0 Hi E0. destruct (Nat.eq_dec i m) as [->|N].
        - rewrite Em in E0. injection E0 as <-. exists w. rewrite nth_error_app2, Ly, Nat.sub_diag by lia. destruct (Tx _ (Inb m ltac:(lia))) as (v1 & E1 & T1). rewrite Ev in E1. injection E1 as <-. repeat split; auto; [apply T1|apply T1|]. apply (Ex _ v (Inb m ltac:(lia)) Ev).
        - destruct (Hy i v0 ltac:(lia) E0) as (w0 & A & B). exists w0. rewrite nth_error_app1 by lia. auto. }
      destruct (G n (le_n n)) as (ys & Ly & Hy). exists ys. split; auto. intros i v Hi. apply Hy; auto. rewrite <- L. apply nth_error_Some. congruence. }
    destruct W as (ys & Ly & Hy). exists ys. split; [|split].
    - apply row_intro; auto. intros i Hi. destruct (nth_error xs i) as [v|] eqn:E; [|apply nth_error_None in E; lia]. destruct (Hy i v E) as (w & A & B & _). congruence.
    - intros i v Hi. destruct (Hy i v Hi) as (w & A & B & C & D & E). eauto.
    - assert (Od : forall i j v w v' w', nth_error xs i = Some v -> nth_error xs j = Some w -> nth_error ys i = Some v' -> nth_error ys j = Some w' -> larger v' w' = larger v w).
      { intros i j v w v' w' A B A' B'. destruct (Hy i v A) as (v1 & A1 & _ & A2 & A3 & A4). destruct (Hy j w B) as (w1 & B1 & _ & B2 & B3 & B4). rewrite A' in A1. rewrite B' in B1. injection A1 as <-. injection B1 as <-. now apply enc_order. }
      assert (F2 : forall (a b : list val), length a = length b -> Forall2 (fun v w => True) a b) by (induction a; intros [|? ?] Hl; try discriminate; constructor; auto).
      intros k is. split; apply top_order; try (apply F2; congruence).
      + exact Od.
      + intros i j v w v' w' A B A' B'. symmetry. now apply (Od i j).
  Qed.
End Rows.
Lemma app_one_inj {A} (a b : list A) x y : a ++ [x] = b ++ [y] -> a = b /\ x = y.
Proof. apply app_inj_tail. Qed.
Lemma inb_snoc ix d k : inb ix (d ++ [k]) -> exists p r, ix = p ++ [r] /\ inb p d /\ r < k.
Proof.
  intro H. assert (L := inb_length _ _ H). rewrite app_length in L. cbn in L. destruct ix as [|a l] using rev_ind; [cbn in L; lia|]. clear IHl. rewrite app_length in L. cbn in L.
  apply inb_app in H; [|lia]. destruct H as [Hp Hr]. exists l, a. cbn in Hr. tauto.
Qed.
Lemma inb_put p r d k : inb p d -> r < k -> inb (p ++ [r]) (d ++ [k]).
Proof. intros Hp Hr. apply inb_app; [now apply inb_length|]. cbn. auto. Qed.
Lemma top_of_data opset d x : d <> BOOL -> typed d x -> elements exact32 x -> forall n tv ti, (forall d0 m, tshape x = d0 ++ [m] -> (Z.of_nat m <= hi I32)%Z) -> top_tensor I32 x n tv ti ->
  exists xd, result opset (cast_in d) [x] = Some xd /\ typed (FLT F32) xd /\
    (exists yv yi, top_tensor I64 xd n yv yi) /\
    forall yv yi, top_tensor I64 xd n yv yi ->
      exists tv' ti', result opset (cast_out d) [yv] = Some tv' /\ result opset ([Node "Cast" (To (INT I32)) [In_ 0]], Tmp 0) [yi] = Some ti' /\ agrees tv tv' /\ agrees ti ti'.
Proof.
  intros Hd Tx Ex n tv ti Hn (d0 & m & Sh & Kn & Sv & Si & Rows). specialize (Hn d0 m Sh).
  destruct (data_ok opset d x Hd Tx Ex) as (xd & Rd & Shd & Td & El). exists xd. split; [exact Rd|]. split; [exact Td|].
  assert (RW : forall p, inb p d0 -> exists xs is ys, row x p m = Some xs /\ top xs n is /\ row xd p m = Some ys /\ top ys n is /\
     (forall i v, nth_error xs i = Some v -> exists w, nth_error ys i = Some w /\ enc d v w /\ has_type d v /\ exact32 v) /\
     (forall r, r < n -> exists i v, nth_error is r = Some i /\ nth_error xs i = Some v /\ i < m /\ telem tv (p ++ [r]) = Some v /\ telem ti (p ++ [r]) = Some (VI I32 (Z.of_nat i)))).
  { intros p Hp. destruct (Rows p Hp) as (xs & is & Rx & Tp & Out). destruct (rows_ok d x Tx Ex xd p d0 m xs Sh Hp El Rx) as (ys & Ry & Ny & Ord). exists xs, is, ys.
    split; [exact Rx|]. split; [exact Tp|]. split; [exact Ry|]. split; [now apply Ord|]. split; [exact Ny|]. destruct Tp as [L In0 _ _].
    intros r Hr. destruct (nth_error is r) as [i|] eqn:E; [|apply nth_error_None in E; lia]. assert (Hi : i < length xs) by (rewrite Forall_forall in In0; apply In0; now apply nth_error_In in E).
    destruct (nth_error xs i) as [v|] eqn:Ev; [|apply nth_error_None in Ev; lia]. destruct (Out r i E) as [O1 O2]. exists i, v. split; [reflexivity|]. split; [exact Ev|]. split; [|split; [now rewrite O1|exact O2]]. destruct (row_some _ _ _ _ Rx) as [<- _]. exact Hi. }
  split.
  - exists (Ten (d0 ++ [n]) (fun ix => match telem tv ix with Some v => if dtype_eqb d (FLT F32) then Some v else cast (FLT F32) v | None => None end)).
    exists (Ten (d0 ++ [n]) (fun ix => match telem ti ix with Some (VI _ z) => Some (VI I64 z) | _ => None end)).
    exists d0, m. split; [now rewrite Shd|]. split; [exact Kn|]. split; [reflexivity|]. split; [reflexivity|]. intros p Hp. destruct (RW p Hp) as (xs & is & ys & Rx & Tp & Ry & Tp' & Ny & Out).
    exists ys, is. split; [exact Ry|]. split; [exact Tp'|]. intros r i Er. assert (Hr : r < n) by (destruct Tp as [<- _ _ _]; apply nth_error_Some; congruence).
    destruct (Out r Hr) as (i' & v & Er' & Ev & Him & Etv & Eti). rewrite Er in Er'. injection Er' as <-. cbn [telem]. rewrite Etv, Eti. split; [|reflexivity].
    destruct (Ny i v Ev) as (w & Ew & Ec & _). rewrite Ew. unfold enc in Ec. destruct (dtype_eqb d (FLT F32)); congruence.
  - intros yv yi (d1 & m1 & Sh1 & Kn1 & Sv1 & Si1 & Rows1). rewrite Shd, Sh in Sh1. apply app_one_inj in Sh1. destruct Sh1 as [<- <-].
    destruct (back_ok opset d Hd yv) as (tv' & Rv & Shv & Bk).
    destruct (one_node opset "Cast" (To (INT I32)) yi) as (ti' & Ri & Shi & Eli). exists tv', ti'. split; [exact Rv|]. split; [exact Ri|].
    assert (PT : forall p r, inb p d0 -> r < n -> exists i v w, telem tv (p ++ [r]) = Some v /\ telem ti (p ++ [r]) = Some (VI I32 (Z.of_nat i)) /\ i < m /\ telem yv (p ++ [r]) = Some w /\ telem yi (p ++ [r]) = Some (VI I64 (Z.of_nat i)) /\ enc d v w /\ has_type d v /\ exact32 v).
    { intros p r Hp Hr. destruct (RW p Hp) as (xs & is & ys & Rx & Tp & Ry & Tp' & Ny & Out). destruct (Rows1 p Hp) as (ys1 & is1 & Ry1 & Tp1 & Out1).
      rewrite Ry in Ry1. injection Ry1 as <-. assert (is1 = is) by (now apply (top_unique ys n)). subst is1.
      destruct (Out r Hr) as (i & v & Er & Ev & Him & Etv & Eti). destruct (Ny i v Ev) as (w & Ew & Ec & Ht & He). destruct (Out1 r i Er) as [O1 O2].
      exists i, v, w. repeat split; auto; [congruence|apply Ht|apply Ht]. }
    split.
    + split; [congruence|]. intros ix Hx v Ev. rewrite Sv in Hx. destruct (inb_snoc _ _ _ Hx) as (p & r & -> & Hp & Hr). destruct (PT p r Hp Hr) as (i & v0 & w & A & B & C & D & E & F & G & H). rewrite Ev in A. injection A as <-.
      destruct (Bk (p ++ [r]) v w) as (v' & Ev' & Sm); auto; [now rewrite Sv1|]. exists v'. auto.
    + split; [congruence|]. intros ix Hx v Ev. rewrite Si in Hx. destruct (inb_snoc _ _ _ Hx) as (p & r & -> & Hp & Hr). destruct (PT p r Hp Hr) as (i & v0 & w & A & B & C & D & E & _). rewrite Ev in B. injection B as ->.
      exists (VI I32 (Z.of_nat i)). split; [|constructor]. rewrite Eli by now rewrite Si1. rewrite E. cbn [onnx_op cast]. do 2 f_equal. 
      unfold wrap, lo, hi in *. cbn [signed bits] in *. rewrite Z.mod_small; lia.
Qed.
(** ** InvertPermutation *)
Fixpoint index_of (z : Z) (xs : list Z) : nat := match xs with [] => 0 | y :: l => if Z.eqb z y then 0 else S (index_of z l) end.
Lemma index_of_nth z xs : In z xs -> nth_error xs (index_of z xs) = Some z.
Proof. induction xs as [|y l IH]; intro H; [destruct H|]. cbn [index_of]. destruct (Z.eqb_spec z y) as [->|N]; [reflexivity|]. cbn [nth_error]. apply IH. destruct H; [congruence|auto]. Qed.
Lemma nodup_nth (xs : list Z) i j z : NoDup xs -> nth_error xs i = Some z -> nth_error xs j = Some z -> i = j.
Proof. intros N A B. apply (proj1 (NoDup_nth_error xs) N); [apply nth_error_Some; congruence|congruence]. Qed.
Lemma permutation_surj xs j : permutation xs -> (j < length xs) -> In (Z.of_nat j) xs.
Proof.
  intros [N F] Hj. assert (I0 : incl (map Z.of_nat (seq 0 (length xs))) xs).
  { apply NoDup_length_incl; auto.
    - now rewrite map_length, seq_length.
    - intros z Hz. rewrite Forall_forall in F. specialize (F z Hz). apply in_map_iff. exists (Z.to_nat z). split; [lia|]. apply in_seq. lia. }
  apply I0. apply in_map. apply in_seq. lia.
Qed.
Definition inv (xs : list Z) : list nat := map (fun j => index_of (Z.of_nat j) xs) (seq 0 (length xs)).
Lemma inv_nth xs j : j < length xs -> nth_error (inv xs) j = Some (index_of (Z.of_nat j) xs).
Proof. intro H. unfold inv. rewrite nth_error_map. rewrite (nth_error_nth' (seq 0 (length xs)) 0) by now rewrite seq_length. cbn [option_map]. now rewrite seq_nth. Qed.
Lemma sorted_by_nth {A} (R : A -> A -> Prop) l : (forall i j a b, i < j -> nth_error l i = Some a -> nth_error l j = Some b -> R a b) -> StronglySorted R l.
Proof.
  induction l as [|x l IH]; intro H; constructor.
  - apply IH. intros i j a b Hij A1 B1. apply (H (S i) (S j)); auto. lia.
  - apply Forall_forall. intros y Hy. apply In_nth_error in Hy. destruct Hy as [j Hj]. apply (H 0 (S j)); auto. lia.
Qed.
Lemma neg_larger t a b : larger (VI t a) (VI t b) = Z.ltb b a.
Proof. unfold larger, both. replace (ity_eqb t t) with true by (destruct t; reflexivity). reflexivity. Qed.
Lemma inv_top t xs : permutation xs -> top (map (fun z => VI t (- z)) xs) (length xs) (inv xs).
Proof.
  intros P. assert (Sx := permutation_surj xs). assert (Ix : forall j, j < length xs -> nth_error xs (index_of (Z.of_nat j) xs) = Some (Z.of_nat j)) by (intros j Hj; apply index_of_nth; auto).
  constructor.
  - unfold inv. now rewrite map_length, seq_length.
  - apply Forall_forall. intros i Hi. unfold inv in Hi. apply in_map_iff in Hi. destruct Hi as (j & <- & Hj). apply in_seq in Hj. rewrite map_length. apply nth_error_Some. rewrite Ix by lia. discriminate.
  - apply sorted_by_nth. intros i j a b Hij A B. assert (Hj : j < length xs) by (replace (length xs) with (length (inv xs)) by (unfold inv; now rewrite map_length, seq_length); apply nth_error_Some; congruence).
    rewrite inv_nth in A, B by lia. injection A as <-. injection B as <-. exists (VI t (- Z.of_nat i)), (VI t (- Z.of_nat j)). rewrite !nth_error_map, !Ix by lia. repeat split. left. rewrite neg_larger. apply Z.ltb_lt. lia.
  - intros i j _ Hj Nj. exfalso. apply Nj. rewrite map_length in Hj. destruct (nth_error xs j) as [z|] eqn:E; [|apply nth_error_None in E; lia].
    destruct P as [N F]. rewrite Forall_forall in F. assert (Bz := F z (nth_error_In _ _ E)). unfold inv. apply in_map_iff. exists (Z.to_nat z). split; [|apply in_seq; lia].
    apply (nodup_nth xs _ _ z N); auto. rewrite <- (Z2Nat.id z) at 2 by lia. rewrite Ix by lia. f_equal.
Qed.
Lemma inv_inverse xs : permutation xs -> inverse xs (map Z.of_nat (inv xs)).
Proof.
  intros P. split; [unfold inv; now rewrite !map_length, seq_length|]. intros i z E. assert (P' := P). destruct P' as [N F]. rewrite Forall_forall in F. assert (Bz := F z (nth_error_In _ _ E)).
  rewrite nth_error_map, inv_nth by lia. cbn [option_map]. do 2 f_equal. apply (nodup_nth xs _ _ z N); auto. rewrite Z2Nat.id by lia. apply index_of_nth. now apply nth_error_In in E.
Qed.
