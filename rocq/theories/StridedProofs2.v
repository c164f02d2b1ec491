(** Proofs about StridedSlice, part 2: the plan of an index expression *)
From Coq Require Import List Arith ZArith Bool Lia.
From Verif Require Import Tensor OnnxSpec TensorProofs PushSpec StridedSpec StridedModel StridedProofs.
Import ListNotations.
Local Open Scope list_scope.

Section Fits.
Variable P : option Z -> option Z -> Z -> nat -> Prop.
Inductive fits : list item -> list cell -> Prop :=
  | fits_nil : fits [] []
  | fits_new its p : fits its p -> fits (New :: its) (Cell 1 0 1 1 true false :: p)
  | fits_at i s its d p k : norm_axis d i = Some k -> (0 < s)%Z -> fits its p -> fits (At i s :: its) (Cell d (Z.of_nat k) 1 1 false true :: p)
  | fits_span b e s its d p : s <> 0%Z -> P b e s d -> fits its p ->
      fits (Span b e s :: its) (Cell d (fst (span_of d b e s)) (snd (span_of d b e s)) s false false :: p)
  | fits_rest_end its p : fits its p -> fits (Rest :: its) p
  | fits_rest its d p : fits (Rest :: its) p -> fits (Rest :: its) (Cell d 0 d 1 false false :: p).
End Fits.
Definition anyP (b e : option Z) (s : Z) (d : nat) : Prop := True.

Lemma div_bound a s i : (0 < s)%Z -> (Z.of_nat i < (a + s - 1) / s)%Z -> (Z.of_nat i * s < a)%Z.
Proof.
  intros H L. assert (Hd := Z.div_mod (a + s - 1) s ltac:(lia)). assert (B := Z.mod_pos_bound (a + s - 1) s H).
  set (q := ((a + s - 1) / s)%Z) in *. assert (Z.of_nat i * s <= (q - 1) * s)%Z by nia. nia.
Qed.
Lemma span_range d b e s i : s <> 0%Z -> i < snd (span_of d b e s) -> (0 <= fst (span_of d b e s) + Z.of_nat i * s < Z.of_nat d)%Z.
Proof.
  intros H. unfold span_of. cbn zeta. cbn [fst snd]. destruct (Z.ltb_spec 0 s) as [U|U]; intro L.
  - set (b' := match b with Some v => _ | None => _ end) in *. set (e' := match e with Some v => _ | None => _ end) in *.
    assert (Bb : (0 <= b' <= Z.of_nat d)%Z) by (destruct b; unfold b'; lia). assert (Be : (0 <= e' <= Z.of_nat d)%Z) by (destruct e; unfold e'; lia).
    assert (K := div_bound (e' - b') s i U ltac:(lia)). nia.
  - set (b' := match b with Some v => _ | None => _ end) in *. set (e' := match e with Some v => _ | None => _ end) in *.
    assert (Bb : (-1 <= b' <= Z.of_nat d - 1)%Z) by (destruct b; unfold b'; lia). assert (Be : (-1 <= e' <= Z.of_nat d - 1)%Z) by (destruct e; unfold e'; lia).
    assert (K := div_bound (b' - e') (- s) i ltac:(lia) ltac:(lia)). nia.
Qed.

Lemma view_plan its ds os f : view its ds os f ->
  exists p, fits anyP its p /\ (forall c, In c p -> cell_ok c) /\ ds = sieve c_fresh p (map c_dim p) /\ os = sieve c_drop p (map c_count p) /\
    forall ix, f ix = sieve c_fresh p (walk p (widen p ix)).
Proof.
  induction 1 as [|its ds os f V (p & F & O & Ed & Eo & G)|i s its d ds os f k N Hs V (p & F & O & Ed & Eo & G)
                  |b e s its d ds os f Hs V (p & F & O & Ed & Eo & G)|its ds os f V (p & F & O & Ed & Eo & G)|its d ds os f V (p & F & O & Ed & Eo & G)].
  - exists []. split; [constructor|]. split; [intros c []|]. auto.
  - exists (Cell 1 0 1 1 true false :: p). split; [now constructor|]. split; [|split; [|split]].
    + intros c [<-|I]; auto. split; [auto|]. split; [auto|]. cbn. intros i Hi. lia.
    + exact Ed.
    + cbn. now f_equal.
    + intro ix. cbn. apply G.
  - exists (Cell d (Z.of_nat k) 1 1 false true :: p). split; [now constructor|]. split; [|split; [|split]].
    + intros c [<-|I]; auto. split; [discriminate|]. split; [auto|]. cbn. intros j Hj. unfold norm_axis in N.
      destruct (0 <=? i)%Z eqn:E1; [destruct (i <? Z.of_nat d)%Z eqn:E2|destruct (- Z.of_nat d <=? i)%Z eqn:E2]; try discriminate; injection N as <-;
        rewrite ?Z.leb_le, ?Z.leb_gt, ?Z.ltb_lt in *; lia.
    + cbn. now f_equal.
    + exact Eo.
    + intro ix. cbn. f_equal; [lia|apply G].
  - exists (Cell d (fst (span_of d b e s)) (snd (span_of d b e s)) s false false :: p). split; [apply fits_span; auto; exact I|]. split; [|split; [|split]].
    + intros c [<-|I]; auto. split; [discriminate|]. split; [discriminate|]. cbn [c_count c_first c_step c_dim]. intros i Hi. apply span_range; auto.
    + cbn. now f_equal.
    + cbn. now f_equal.
    + intro ix. cbn [widen c_drop hd tl walk sieve c_fresh c_first c_step]. f_equal. apply G.
  - exists p. split; [now constructor|auto].
  - exists (Cell d 0 d 1 false false :: p). split; [now constructor|]. split; [|split; [|split]].
    + intros c [<-|I]; auto. split; [discriminate|]. split; [discriminate|]. cbn. intros i Hi. lia.
    + cbn. now f_equal.
    + cbn. now f_equal.
    + intro ix. cbn [widen c_drop hd tl walk sieve c_fresh c_first c_step]. f_equal; [lia|apply G].
Qed.

(** how many axes the entries consume *)
Notation consumes := takes_axis.
Definition rests (its : list item) : nat := length (filter is_rest its).
Lemma rests_cons t its : rests (t :: its) = (if is_rest t then 1 else 0) + rests its.
Proof. unfold rests. cbn [filter]. destruct (is_rest t); reflexivity. Qed.
Lemma fits_length P its p : fits P its p -> rests its = 0 -> length (sieve c_fresh p (map c_dim p)) = length (filter consumes its) /\ length p = length its.
Proof.
  induction 1; intro R; rewrite ?rests_cons in R; cbn in R; try discriminate; cbn in *; auto; destruct (IHfits ltac:(lia)); split; lia.
Qed.
Lemma ranges_length P its ds : ranges P its ds -> rests its = 0 -> length ds = length (filter consumes its).
Proof. induction 1; intro R; rewrite ?rests_cons in R; cbn in R; try discriminate; cbn in *; auto. Qed.
Lemma ranges_rest_length P its ds : ranges P its ds -> forall t, its = Rest :: t -> rests t = 0 -> length ds >= length (filter consumes t).
Proof.
  induction 1; intros t E R; try discriminate; injection E as <-.
  - apply ranges_length in H; auto. lia.
  - specialize (IHranges _ eq_refl R). cbn. lia.
Qed.
Lemma fits_rest_length P its p : fits P its p -> forall t, its = Rest :: t -> rests t = 0 -> length (sieve c_fresh p (map c_dim p)) >= length (filter consumes t).
Proof.
  induction 1; intros t E R; try discriminate; injection E as <-.
  - apply fits_length in H; auto. destruct H; lia.
  - specialize (IHfits _ eq_refl R). cbn. lia.
Qed.
Lemma fits_ranges P its p : fits anyP its p -> rests its <= 1 -> forall ds, ds = sieve c_fresh p (map c_dim p) -> ranges P its ds -> fits P its p.
Proof.
  induction 1 as [|its p F IH|i s its d p k N Hs F IH|b e s its d p Hs _ F IH|its p F IH|its d p F IH]; intros R ds Ed V; rewrite ?rests_cons in R; cbn in R.
  - constructor.
  - inversion V; subst. constructor. eapply IH; eauto; lia.
  - cbn in Ed. subst ds. inversion V; subst. constructor; auto. eapply IH; eauto; lia.
  - cbn in Ed. subst ds. inversion V; subst. apply fits_span; auto. eapply IH; eauto; lia.
  - constructor. inversion V as [| | | |its' ds' V' E1 E2|its' d' ds' V' E1 E2]; subst its'.
    + subst ds'. eapply IH; eauto; lia.
    + exfalso. assert (L := ranges_rest_length _ _ _ V' _ eq_refl ltac:(lia)). assert (L' := fits_length _ _ _ F ltac:(lia)).
      rewrite <- Ed, <- E2 in L'. cbn in L'. lia.
  - cbn in Ed. subst ds. inversion V as [| | | |its' ds' V' E1 E2|its' d' ds' V' E1 E2]; subst its'.
    + exfalso. subst ds'. assert (L := ranges_length _ _ _ V' ltac:(lia)). assert (L' := fits_rest_length _ _ _ F _ eq_refl ltac:(lia)). cbn in L. lia.
    + subst. apply fits_rest. eapply IH; eauto.
Qed.
Lemma dim_in_shape : forall p c, In c p -> c_fresh c = false -> In (c_dim c) (sieve c_fresh p (map c_dim p)).
Proof.
  induction p as [|c p IH]; intros c' I F; [destruct I|]. destruct I as [-> | I]; cbn.
  - rewrite F. now left.
  - destruct (c_fresh c); [auto|right; auto].
Qed.

(** ** the parameters of the Slice, built up from the end *)
Definition realised (c : cell) (s e st : Z) : Prop :=
  st <> 0%Z /\ c_count c = snd (slice_axis (c_dim c) s e st) /\
  forall i, i < c_count c -> (c_first c + Z.of_nat i * c_step c = fst (slice_axis (c_dim c) s e st) + Z.of_nat i * st)%Z.
Definition params_at (k : nat) (params : list (Z * (Z * Z * Z))) (p : list cell) : Prop :=
  exists axs, map fst params = map Z.of_nat axs /\ NoDup axs /\ (forall a, In a axs -> k <= a < k + length p) /\
    (forall q a s e st, nth_error axs q = Some a -> nth_error (map snd params) q = Some (s, e, st) -> realised (nth (a - k) p no_cell) s e st) /\
    forall j, j < length p -> ~ In (k + j) axs -> trivial (nth j p no_cell).
Lemma params_at_0 params p : params_at 0 params p -> params_ok params p.
Proof.
  intros (axs & E & Nd & R & Q & T). exists axs. split; auto. split; auto. split; [intros a Ha; apply R in Ha; lia|]. split; auto.
  intros q a s e st H1 H2. specialize (Q q a s e st H1 H2). now rewrite Nat.sub_0_r in Q.
Qed.
Lemma params_nil k : params_at k [] [].
Proof.
  exists []. split; auto. split; [constructor|]. split; [intros a []|]. split; [intros [|q] a s e st H; discriminate|]. cbn. intros j H. lia.
Qed.
Lemma params_skip k params c p : trivial c -> params_at (S k) params p -> params_at k params (c :: p).
Proof.
  intros T (axs & E & Nd & R & Q & Tr). exists axs. split; auto. split; auto. split; [intros a Ha; apply R in Ha; cbn; lia|]. split.
  - intros q a s e st H1 H2. assert (Ra := R a (nth_error_In _ _ H1)). replace (a - k) with (S (a - S k)) by lia. cbn. eauto.
  - intros [|j] Hj N; cbn; auto. apply Tr; [cbn in Hj; lia|]. intro I. apply N. replace (k + S j) with (S k + j) by lia. auto.
Qed.
Lemma params_cons k s e st params c p : realised c s e st -> params_at (S k) params p -> params_at k ((Z.of_nat k, (s, e, st)) :: params) (c :: p).
Proof.
  intros T (axs & E & Nd & R & Q & Tr). exists (k :: axs). split; [cbn; now f_equal|]. split.
  { constructor; auto. intro I. apply R in I. lia. }
  split; [intros a [<-|Ha]; [cbn; lia|apply R in Ha; cbn; lia]|]. split.
  - intros [|q] a s' e' st' H1 H2; cbn in H1, H2.
    + injection H1 as <-. injection H2 as <- <- <-. rewrite Nat.sub_diag. exact T.
    + assert (Ra := R a (nth_error_In _ _ H1)). replace (a - k) with (S (a - S k)) by lia. cbn. eauto.
  - intros [|j] Hj N; cbn; [exfalso; apply N; left; lia|]. apply Tr; [cbn in Hj; lia|]. intro I. apply N. right. replace (k + S j) with (S k + j) by lia. auto.
Qed.

(** ** arithmetic of one axis *)
Definition fix_sign (d : nat) (v : Z) : Z := if (v <? 0)%Z then (v + Z.of_nat d)%Z else v.
Definition up_pos (d : nat) (v : Z) : Z := Z.max 0 (Z.min (Z.of_nat d) (fix_sign d v)).
Lemma realise_up d b e s v w fr : (0 < s)%Z ->
  match b with Some b0 => v = b0 | None => v = 0%Z end -> match e with Some e0 => w = e0 \/ (w <= - Z.of_nat d /\ e0 <= - Z.of_nat d)%Z | None => (Z.of_nat d <= w)%Z end ->
  realised (Cell d (fst (span_of d b e s)) (snd (span_of d b e s)) s fr false) v w s.
Proof.
  intros H Hb He. unfold realised. cbn [c_count c_dim c_first c_step]. split; [lia|].
  destruct (Nat.eqb_spec d 0) as [->|D].
  - assert (E : snd (span_of 0 b e s) = 0).
    { unfold span_of. cbn zeta. assert (U : (0 <? s)%Z = true) by (apply Z.ltb_lt; auto). rewrite U. cbn [snd].
      match goal with |- Z.to_nat (?N / s) = 0 => replace N with (s - 1)%Z; [rewrite Z.div_small by lia; reflexivity|] end.
      destruct b, e; lia. }
    rewrite E. unfold slice_axis. cbn. split; auto. intros i Hi. lia.
  - assert (E : slice_axis d v w s = span_of d b e s).
    { unfold slice_axis, span_of. cbn zeta. assert (U : (0 <? s)%Z = true) by (apply Z.ltb_lt; auto). rewrite U.
      destruct (Nat.eqb_spec d 0) as [|_]; [lia|].
      assert (Eb : (Z.max 0 (Z.min (Z.of_nat d) (if (v <? 0)%Z then v + Z.of_nat d else v)) = match b with Some v0 => Z.max 0 (Z.min (Z.of_nat d) (if (v0 <? 0)%Z then v0 + Z.of_nat d else v0)) | None => 0 end)%Z).
      { destruct b; [now subst|]. subst v. cbn. lia. }
      assert (Ee : (Z.max 0 (Z.min (Z.of_nat d) (if (w <? 0)%Z then w + Z.of_nat d else w)) = match e with Some v0 => Z.max 0 (Z.min (Z.of_nat d) (if (v0 <? 0)%Z then v0 + Z.of_nat d else v0)) | None => Z.of_nat d end)%Z).
      { destruct e as [e0|]; [destruct He as [-> | He]; [reflexivity|]; destruct (Z.ltb_spec e0 0), (Z.ltb_spec w 0); lia|]. destruct (Z.ltb_spec w 0); lia. }
      rewrite Eb, Ee. reflexivity. }
    rewrite E. split; auto.
Qed.
Lemma realise_down d b e s v w fr : (s < 0)%Z ->
  match b with Some b0 => v = b0 /\ (- Z.of_nat d <= b0)%Z | None => (Z.of_nat d - 1 <= v /\ 0 <= v)%Z end ->
  match e with Some e0 => w = e0 \/ (w < - Z.of_nat d /\ e0 < - Z.of_nat d)%Z | None => (w < - Z.of_nat d)%Z end ->
  realised (Cell d (fst (span_of d b e s)) (snd (span_of d b e s)) s fr false) v w s.
Proof.
  intros H Hb He. unfold realised. cbn [c_count c_dim c_first c_step]. split; [lia|].
  assert (U : (0 <? s)%Z = false) by (apply Z.ltb_ge; lia).
  destruct (Nat.eqb_spec d 0) as [->|D].
  - assert (E : snd (span_of 0 b e s) = 0).
    { unfold span_of. cbn zeta. rewrite U. cbn [snd].
      match goal with |- Z.to_nat (?N / _) = 0 => replace N with (- s - 1)%Z; [rewrite Z.div_small by lia; reflexivity|] end.
      destruct b, e; lia. }
    rewrite E. unfold slice_axis. cbn. split; auto. intros i Hi. lia.
  - assert (E : slice_axis d v w s = span_of d b e s).
    { unfold slice_axis, span_of. cbn zeta. rewrite U.
      destruct (Nat.eqb_spec d 0) as [|_]; [lia|].
      assert (Eb : (Z.max 0 (Z.min (Z.of_nat d - 1) (if (v <? 0)%Z then v + Z.of_nat d else v)) = match b with Some v0 => Z.max (-1) (Z.min (Z.of_nat d - 1) (if (v0 <? 0)%Z then v0 + Z.of_nat d else v0)) | None => Z.of_nat d - 1 end)%Z).
      { destruct b; [destruct Hb as [-> Hb]; destruct (Z.ltb_spec z 0); lia|]. destruct (Z.ltb_spec v 0); lia. }
      assert (Ee : (Z.max (-1) (Z.min (Z.of_nat d - 1) (if (w <? 0)%Z then w + Z.of_nat d else w)) = match e with Some v0 => Z.max (-1) (Z.min (Z.of_nat d - 1) (if (v0 <? 0)%Z then v0 + Z.of_nat d else v0)) | None => -1 end)%Z).
      { destruct e as [e0|]; [destruct He as [-> | He]; [reflexivity|]; destruct (Z.ltb_spec e0 0), (Z.ltb_spec w 0); lia|]. destruct (Z.ltb_spec w 0); lia. }
      rewrite Eb, Ee. reflexivity. }
    rewrite E. split; auto.
Qed.
Lemma realise_at d i k v st : norm_axis d i = Some k -> (0 < st)%Z ->
  ((if (i <? -1)%Z then v = i + 1 else if (i =? -1)%Z then Z.of_nat d <= v else v = i + 1) \/ (Z.of_nat d <= v /\ Z.of_nat d <= st))%Z ->
  realised (Cell d (Z.of_nat k) 1 1 false true) i v st.
Proof.
  intros N Hs H. unfold realised. cbn [c_count c_dim c_first c_step]. split; [lia|].
  assert (K : Z.of_nat k = fix_sign d i /\ k < d).
  { unfold norm_axis in N. unfold fix_sign. destruct (Z.leb_spec 0 i) as [L|L]; [destruct (Z.ltb_spec i (Z.of_nat d)); [|discriminate]|destruct (Z.leb_spec (- Z.of_nat d) i); [|discriminate]];
      injection N as <-; destruct (Z.ltb_spec i 0); lia. }
  destruct K as [K Kd]. assert (U : (0 <? st)%Z = true) by (apply Z.ltb_lt; auto).
  assert (E : slice_axis d i v st = (Z.of_nat k, 1)).
  { unfold slice_axis. cbn zeta. rewrite U. destruct (Nat.eqb_spec d 0) as [|_]; [lia|]. fold (fix_sign d i). rewrite <- K.
    rewrite (Z.max_r 0 (Z.min (Z.of_nat d) (Z.of_nat k))) by lia. rewrite (Z.min_r (Z.of_nat d) (Z.of_nat k)) by lia. f_equal.
    destruct H as [H|[H1 H2]].
    - assert (V : (Z.max 0 (Z.min (Z.of_nat d) (if (v <? 0)%Z then v + Z.of_nat d else v)) = Z.of_nat k + 1)%Z).
      { unfold fix_sign in K. destruct (Z.ltb_spec i (-1)); [|destruct (Z.eqb_spec i (-1))]; destruct (Z.ltb_spec i 0), (Z.ltb_spec v 0); lia. }
      rewrite V. replace (Z.of_nat k + 1 - Z.of_nat k + st - 1)%Z with (1 * st)%Z by lia. rewrite Z.div_mul by lia. reflexivity.
    - destruct (Z.ltb_spec v 0); [lia|]. rewrite (Z.min_l (Z.of_nat d) v), Z.max_r by lia.
      replace ((Z.of_nat d - Z.of_nat k + st - 1) / st)%Z with 1%Z; [reflexivity|]. apply (Z.div_unique _ _ _ (Z.of_nat d - Z.of_nat k - 1)); lia. }
  rewrite E. cbn [fst snd]. split; auto. intros j Hj. lia.
Qed.
