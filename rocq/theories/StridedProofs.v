(** Proofs about StridedSlice, part 1: Unsqueeze, Slice, Squeeze against a plan with one cell for each axis of the
    unsqueezed tensor *)
From Coq Require Import List Arith ZArith Bool Lia.
From Verif Require Import Tensor OnnxSpec FoldModel TensorProofs FoldProofs FoldFunProofs NNSpec PushSpec PushModel PushProofs StridedSpec StridedModel.
Import ListNotations.
Local Open Scope list_scope.

Record cell := Cell { c_dim : nat; c_first : Z; c_count : nat; c_step : Z; c_fresh : bool; c_drop : bool }.
Definition trivial (c : cell) : Prop := c_first c = 0%Z /\ c_count c = c_dim c /\ c_step c = 1%Z.
Definition cell_ok (c : cell) : Prop :=
  (c_fresh c = true -> c_dim c = 1) /\ (c_drop c = true -> c_count c = 1) /\
  forall i, i < c_count c -> (0 <= c_first c + Z.of_nat i * c_step c < Z.of_nat (c_dim c))%Z.
Definition no_cell := Cell 0 0 0 1 false false.

Fixpoint pos (f : cell -> bool) (k : nat) (p : list cell) : list nat :=
  match p with [] => [] | c :: p' => (if f c then [k] else []) ++ pos f (S k) p' end.
Fixpoint sieve (f : cell -> bool) (p : list cell) (l : list nat) : list nat :=
  match p, l with c :: p', i :: l' => if f c then sieve f p' l' else i :: sieve f p' l' | _, _ => [] end.
Fixpoint widen (p : list cell) (ix : list nat) : list nat :=
  match p with [] => [] | c :: p' => if c_drop c then 0 :: widen p' ix else hd 0 ix :: widen p' (tl ix) end.
Fixpoint walk (p : list cell) (ix : list nat) : list nat :=
  match p, ix with c :: p', i :: ix' => Z.to_nat (c_first c + Z.of_nat i * c_step c) :: walk p' ix' | _, _ => [] end.

Lemma pos_range f : forall p k a, In a (pos f k p) -> k <= a < k + length p.
Proof.
  induction p as [|c p IH]; intros k a H; cbn in H; [tauto|]. apply in_app_iff in H. cbn [length].
  destruct H as [H|H]; [destruct (f c); cbn in H; lia|]. apply IH in H. lia.
Qed.
Lemma pos_NoDup f : forall p k, NoDup (pos f k p).
Proof.
  induction p as [|c p IH]; intro k; cbn; [constructor|]. destruct (f c); cbn; auto. constructor; auto.
  intro H. apply pos_range in H. lia.
Qed.
Lemma pos_in f : forall p k a, In a (pos f k p) -> f (nth (a - k) p no_cell) = true.
Proof.
  induction p as [|c p IH]; intros k a H; cbn in H; [tauto|]. apply in_app_iff in H. destruct H as [H|H].
  - destruct (f c) eqn:E; cbn in H; [|tauto]. destruct H as [<-|[]]. now rewrite Nat.sub_diag.
  - assert (R := pos_range _ _ _ _ H). apply IH in H. replace (a - k) with (S (a - S k)) by lia. exact H.
Qed.
Lemma drop_from_skip ax : forall l j k, k < j -> drop_from j (k :: ax) l = drop_from j ax l.
Proof.
  induction l as [|x l IH]; intros j k H; auto. cbn [drop_from existsb].
  assert (E : Nat.eqb j k = false) by (apply Nat.eqb_neq; lia). rewrite E. cbn. rewrite !IH by lia. reflexivity.
Qed.
Lemma drop_pos f : forall p l k, length l = length p -> drop_from k (pos f k p) l = sieve f p l.
Proof.
  induction p as [|c p IH]; intros [|x l] k L; try discriminate; auto. cbn [drop_from pos sieve]. cbn in L.
  destruct (f c) eqn:E; cbn [app].
  - cbn [existsb]. rewrite Nat.eqb_refl. cbn. rewrite drop_from_skip by lia. apply IH. lia.
  - assert (X : existsb (Nat.eqb k) (pos f (S k) p) = false).
    { apply Bool.not_true_is_false. intro H. apply existsb_exists in H. destruct H as (a & Ia & Ea). apply Nat.eqb_eq in Ea. subst a.
      apply pos_range in Ia. lia. }
    rewrite X. f_equal. apply IH. lia.
Qed.
Lemma sieve_inb f : forall p sh ix, inb ix sh -> inb (sieve f p ix) (sieve f p sh).
Proof.
  induction p as [|c p IH]; intros [|d sh] [|i ix] I; cbn in *; try tauto. destruct (f c); [apply IH; tauto|]. cbn. split; [tauto|apply IH; tauto].
Qed.
Lemma sieve_length f : forall p l, length l = length p -> length (sieve f p l) + length (pos f 0 p) = length p.
Proof.
  intros p l L. assert (G : forall p l k, length l = length p -> length (sieve f p l) + length (pos f k p) = length p); [|auto].
  clear. induction p as [|c p IH]; intros [|x l] k L; try discriminate; auto. cbn in *. destruct (f c); cbn; specialize (IH l (S k) ltac:(lia)); lia.
Qed.
Lemma widen_length p : forall ix, length (widen p ix) = length p.
Proof. induction p as [|c p IH]; intro ix; cbn; auto. destruct (c_drop c); cbn; auto. Qed.
Lemma widen_inb : forall p ix, (forall c, In c p -> cell_ok c) -> inb ix (sieve c_drop p (map c_count p)) -> inb (widen p ix) (map c_count p).
Proof.
  induction p as [|c p IH]; intros ix O I; cbn in *; auto. assert (Oc := O c (or_introl eq_refl)). destruct Oc as (_ & D & _).
  destruct (c_drop c) eqn:E; cbn.
  - rewrite D by auto. split; [lia|]. apply IH; auto.
  - destruct ix as [|i ix]; cbn in *; [tauto|]. split; [tauto|]. apply IH; [auto|tauto].
Qed.
Lemma sieve_widen : forall p ix, inb ix (sieve c_drop p (map c_count p)) -> sieve c_drop p (widen p ix) = ix.
Proof.
  induction p as [|c p IH]; intros ix I; cbn in *; [destruct ix; [auto|destruct I]|]. destruct (c_drop c) eqn:E; cbn; auto.
  destruct ix as [|i ix]; cbn in *; [destruct I|]. f_equal. apply IH. apply I.
Qed.
Lemma widen_sieve : forall p ix, (forall c, In c p -> cell_ok c) -> inb ix (map c_count p) -> widen p (sieve c_drop p ix) = ix.
Proof.
  induction p as [|c p IH]; intros [|i ix] O I; cbn in *; try tauto. destruct I as [I J].
  destruct (c_drop c) eqn:E; cbn.
  - assert (Oc := O c (or_introl eq_refl)). destruct Oc as (_ & D & _). rewrite D in I by auto. f_equal; [lia|]. apply IH; auto.
  - f_equal. apply IH; auto.
Qed.
Lemma walk_inb : forall p ix, (forall c, In c p -> cell_ok c) -> inb ix (map c_count p) -> inb (walk p ix) (map c_dim p).
Proof.
  induction p as [|c p IH]; intros [|i ix] O I; cbn in *; try tauto. destruct I as [I J]. split; [|apply IH; auto].
  assert (Oc := O c (or_introl eq_refl)). destruct Oc as (_ & _ & D). specialize (D i I). lia.
Qed.
Lemma walk_nth : forall p ix k, k < length p -> length ix = length p ->
  nth k (walk p ix) 0 = Z.to_nat (c_first (nth k p no_cell) + Z.of_nat (nth k ix 0) * c_step (nth k p no_cell)).
Proof. induction p as [|c p IH]; intros [|i ix] [|k] H L; cbn in *; try lia; auto. apply IH; lia. Qed.

(** the parameters of the Slice do what the plan says *)
Definition params_ok (params : list (Z * (Z * Z * Z))) (p : list cell) : Prop :=
  exists axs, map fst params = map Z.of_nat axs /\ NoDup axs /\ (forall a, In a axs -> a < length p) /\
    (forall q a s e st, nth_error axs q = Some a -> nth_error (map snd params) q = Some (s, e, st) ->
       let c := nth a p no_cell in st <> 0%Z /\ c_count c = snd (slice_axis (c_dim c) s e st) /\
       forall i, i < c_count c -> (c_first c + Z.of_nat i * c_step c = fst (slice_axis (c_dim c) s e st) + Z.of_nat i * st)%Z) /\
    forall k, k < length p -> ~ In k axs -> trivial (nth k p no_cell).

Section Plan.
Context {A : Type}.
Variable p : list cell.
Hypothesis OK : forall c, In c p -> cell_ok c.

Lemma cell_at k : k < length p -> cell_ok (nth k p no_cell).
Proof. intro H. apply OK, nth_In. auto. Qed.
Lemma nth_dim k : k < length p -> nth k (map c_dim p) 0 = c_dim (nth k p no_cell).
Proof. intro H. change 0 with (c_dim no_cell). apply map_nth. Qed.
Lemma nth_count k : k < length p -> nth k (map c_count p) 0 = c_count (nth k p no_cell).
Proof. intro H. change 0 with (c_count no_cell). apply map_nth. Qed.

Lemma unsq_made (x : tensor A) : wf x -> shape x = sieve c_fresh p (map c_dim p) ->
  exists u, unsqueeze_rel (map Z.of_nat (pos c_fresh 0 p)) x u /\ shape u = map c_dim p /\ wf u /\
    forall ix, inb ix (map c_dim p) -> get u ix = get x (sieve c_fresh p ix).
Proof.
  intros W E. destruct (build_total (map c_dim p) (fun ix => get x (sieve c_fresh p ix))) as [u B].
  { intros ix I. apply (sieve_inb c_fresh p) in I. rewrite <- E in I. destruct (get_wf x _ W I) as [v ->]. discriminate. }
  apply build_spec in B. destruct B as (Sh & Wu & G). exists u. split; [|auto]. unfold unsqueeze_rel. split; auto. split; auto.
  rewrite Sh, map_length. split.
  { rewrite E, map_length. assert (H := sieve_length c_fresh p (map c_dim p) ltac:(now rewrite map_length)). lia. }
  exists (pos c_fresh 0 p). split; [|split; [|split; [|split]]].
  - apply norm_axes_of_nat. intros a Ha. apply pos_range in Ha. lia.
  - apply pos_NoDup.
  - intros a Ha. assert (R := pos_range _ _ _ _ Ha). rewrite nth_dim by lia. apply cell_at; [lia|]. apply pos_in in Ha. now rewrite Nat.sub_0_r in Ha.
  - unfold drop_axes. rewrite drop_pos; auto. now rewrite map_length.
  - intros ix I. unfold drop_axes. rewrite drop_pos; auto. apply inb_length in I. now rewrite map_length in I.
Qed.

Lemma slice_means params (u s : tensor A) : params_ok params p -> shape u = map c_dim p -> slice_rel params u s ->
  shape s = map c_count p /\ wf s /\ forall ix, inb ix (map c_count p) -> get s ix = get u (walk p ix).
Proof.
  intros (axs & Ea & Nd & Lt & P & T) Su (Wu & Ws & Ls & _ & ax & Na & _ & Sh & Shk & Pl).
  rewrite Su, map_length in *. rewrite Ea, norm_axes_of_nat in Na by auto. injection Na as <-.
  assert (Lp : length (map snd params) = length axs) by (apply (f_equal (@length _)) in Ea; rewrite !map_length in *; auto).
  assert (E : shape s = map c_count p).
  { apply list_nth_ext; [now rewrite map_length|]. intros k Hk. rewrite Ls in Hk. rewrite nth_count by auto.
    destruct (in_dec Nat.eq_dec k axs) as [I|I].
    - apply In_nth_error in I. destruct I as [q Q]. destruct (nth_error (map snd params) q) as [[[s' e'] st']|] eqn:Q'.
      + rewrite (Sh _ _ _ _ _ Q Q'), nth_dim by auto. symmetry. apply (P _ _ _ _ _ Q Q').
      + apply nth_error_None in Q'. assert (q < length axs) by (apply nth_error_Some; congruence). lia.
    - rewrite Shk, nth_dim by auto. symmetry. apply T; auto. }
  split; auto. split; auto. intros ix I. apply Pl.
  - now rewrite E.
  - rewrite Su. apply walk_inb; auto.
  - intros k Hk. rewrite Su, map_length in Hk. assert (Li : length ix = length p) by (apply inb_length in I; now rewrite map_length in I).
    assert (Ik : nth k ix 0 < c_count (nth k p no_cell)).
    { apply inb_nth in I. destruct I as [_ I]. specialize (I k ltac:(now rewrite map_length)). now rewrite nth_count in I. }
    rewrite walk_nth by auto. assert (R := proj2 (proj2 (cell_at k Hk)) _ Ik). split.
    + intro N. destruct (T k Hk N) as (F & _ & S1). rewrite F, S1. lia.
    + intros q s' e' st' Q Q'. destruct (P _ _ _ _ _ Q Q') as (_ & _ & V). rewrite nth_dim by auto. rewrite <- V by auto. lia.
Qed.
Lemma slice_made params (u : tensor A) : params_ok params p -> wf u -> shape u = map c_dim p -> exists s, slice_rel params u s.
Proof.
  intros (axs & Ea & Nd & Lt & P & T) W Su. destruct (build_total (map c_count p) (fun ix => get u (walk p ix))) as [s B].
  { intros ix I. apply (walk_inb p ix OK) in I. rewrite <- Su in I. destruct (get_wf u _ W I) as [v ->]. discriminate. }
  apply build_spec in B. destruct B as (Sh & Ws & G). exists s.
  assert (Lp : length (map snd params) = length axs) by (apply (f_equal (@length _)) in Ea; rewrite !map_length in *; auto).
  unfold slice_rel. rewrite Su, Sh, !map_length. split; auto. split; auto. split; auto. split.
  { intros a s' e' st' I. apply In_nth_error in I. destruct I as [q Q].
    destruct (nth_error axs q) as [b|] eqn:Q'.
    - assert (V := P q b s' e' st' Q' ltac:(now rewrite nth_error_map, Q)). apply V.
    - apply nth_error_None in Q'. assert (q < length params) by (apply nth_error_Some; congruence). rewrite map_length in Lp. lia. }
  exists axs. rewrite Ea, norm_axes_of_nat by auto. split; auto. split; auto. split; [|split].
  - intros q k s' e' st' Q Q'. assert (k < length p) by (apply Lt; eapply nth_error_In; eauto). rewrite nth_count, nth_dim by auto. apply (P _ _ _ _ _ Q Q').
  - intros k Hk N. rewrite nth_count, nth_dim by auto. apply T; auto.
  - intros ix jx I J H. rewrite Sh in I. rewrite G by auto. f_equal. rewrite Su in J, H.
    assert (Li : length ix = length p) by (apply inb_length in I; now rewrite map_length in I).
    assert (Lj : length jx = length p) by (apply inb_length in J; now rewrite map_length in J).
    assert (Lw := inb_length _ _ (walk_inb p ix OK I)). rewrite map_length in Lw.
    apply list_nth_ext; [lia|]. intros k Hk. rewrite Lw in Hk. rewrite walk_nth by auto.
    assert (Ik : nth k ix 0 < c_count (nth k p no_cell)).
    { apply inb_nth in I. destruct I as [_ I]. specialize (I k ltac:(now rewrite map_length)). now rewrite nth_count in I. }
    rewrite map_length in H. destruct (H k Hk) as [H1 H2]. destruct (in_dec Nat.eq_dec k axs) as [M|M].
    + apply In_nth_error in M. destruct M as [q Q]. destruct (nth_error (map snd params) q) as [[[s' e'] st']|] eqn:Q'.
      * specialize (H2 _ _ _ _ Q Q'). destruct (P _ _ _ _ _ Q Q') as (_ & _ & V). rewrite V by auto. rewrite nth_dim in H2 by auto. rewrite <- H2. lia.
      * apply nth_error_None in Q'. assert (q < length axs) by (apply nth_error_Some; congruence). lia.
    + specialize (H1 M). destruct (T k Hk M) as (F & _ & S1). rewrite F, S1. lia.
Qed.

Lemma squeeze_plan (s y : tensor A) : wf s -> shape s = map c_count p ->
  squeeze_rel (map Z.of_nat (pos c_drop 0 p)) s y <->
  wf y /\ shape y = sieve c_drop p (map c_count p) /\ forall ix, inb ix (shape y) -> get y ix = get s (widen p ix).
Proof.
  intros W Ss. assert (Na : norm_axes (length (shape s)) (map Z.of_nat (pos c_drop 0 p)) = Some (pos c_drop 0 p)).
  { rewrite Ss, map_length. apply norm_axes_of_nat. intros a Ha. apply pos_range in Ha. lia. }
  assert (Lc : length (map c_count p) = length p) by now rewrite map_length.
  split.
  - intros (_ & Wy & ax & Na' & Nd & One & Sh & G). rewrite Na in Na'. injection Na' as <-. unfold drop_axes in *.
    rewrite Ss, drop_pos in Sh by auto. split; auto. split; auto. intros ix I. rewrite Sh in I.
    assert (I' := widen_inb p ix OK I). rewrite <- G by now rewrite Ss. rewrite drop_pos by apply widen_length. now rewrite sieve_widen.
  - intros (Wy & Sh & G). split; auto. split; auto. exists (pos c_drop 0 p). split; auto. split; [apply pos_NoDup|]. split; [|split].
    + intros a Ha. assert (R := pos_range _ _ _ _ Ha). rewrite Ss, nth_count by lia. apply cell_at; [lia|]. apply pos_in in Ha. now rewrite Nat.sub_0_r in Ha.
    + unfold drop_axes. rewrite Ss, drop_pos; auto.
    + intros ix I. rewrite Ss in I. unfold drop_axes. rewrite drop_pos by (apply inb_length in I; lia).
      rewrite G by (rewrite Sh; now apply sieve_inb). now rewrite widen_sieve.
Qed.

(** together *)
Lemma plan_ok params (x y : tensor A) : params_ok params p -> wf x -> wf y ->
  shape x = sieve c_fresh p (map c_dim p) -> shape y = sieve c_drop p (map c_count p) ->
  (forall ix, inb ix (shape y) -> get y ix = get x (sieve c_fresh p (walk p (widen p ix)))) ->
  forall y', (exists u s, unsqueeze_rel (map Z.of_nat (pos c_fresh 0 p)) x u /\ slice_rel params u s /\ squeeze_rel (map Z.of_nat (pos c_drop 0 p)) s y') <-> y' = y.
Proof.
  intros P Wx Wy Sx Sy G y'. destruct (unsq_made x Wx Sx) as (u & U & Su & Wu & Gu). destruct (slice_made params u P Wu Su) as [s Hs].
  destruct (slice_means params u s P Su Hs) as (Ss & Ws & Gs).
  assert (Y : forall z, squeeze_rel (map Z.of_nat (pos c_drop 0 p)) s z <-> z = y).
  { intro z. rewrite squeeze_plan by auto. split.
    - intros (Wz & Sz & Gz). apply tensor_ext; auto; [congruence|]. intros ix I. rewrite Gz by auto. rewrite Sz in I. rewrite G by congruence.
      assert (I' := widen_inb p ix OK I). rewrite Gs by auto. apply Gu. apply walk_inb; auto.
    - intros ->. split; auto. split; auto. intros ix I. rewrite G by auto. rewrite Sy in I. assert (I' := widen_inb p ix OK I). rewrite Gs by auto.
      symmetry. apply Gu. apply walk_inb; auto. }
  split.
  - intros (u' & s' & U' & S' & Q). assert (u' = u) by (eapply unsqueeze_fun; eauto). subst u'.
    destruct (slice_means params u s' P Su S') as (Ss' & Ws' & Gs').
    assert (s' = s). { apply tensor_ext; auto; [congruence|]. intros ix I. rewrite Ss' in I. now rewrite Gs', Gs. }
    subst s'. now apply Y.
  - intros ->. exists u, s. split; auto. split; auto. now apply Y.
Qed.
End Plan.

(** operators with nothing to do *)
Lemma unsqueeze_nil {A} (x u : tensor A) : wf x -> unsqueeze_rel [] x u <-> u = x.
Proof.
  intro W. split.
  - intros (_ & Wu & _ & ax & Na & _ & _ & Sh & G). cbn in Na. injection Na as <-. unfold drop_axes in *.
    assert (D : forall l k, drop_from k [] l = l) by (induction l; intro; cbn; f_equal; auto). rewrite D in Sh. apply tensor_ext; auto.
    intros ix I. rewrite G by auto. now rewrite D.
  - intros ->. split; auto. split; auto. split; [cbn; lia|]. exists []. assert (D : forall l k, drop_from k [] l = l) by (induction l; intro; cbn; f_equal; auto).
    split; auto. split; [constructor|]. split; [intros a []|]. unfold drop_axes. split; [now rewrite D|]. intros ix I. now rewrite D.
Qed.
Lemma squeeze_nil {A} (x u : tensor A) : wf x -> squeeze_rel [] x u <-> u = x.
Proof.
  intro W. assert (D : forall l k, drop_from k [] l = l) by (induction l; intro; cbn; f_equal; auto). split.
  - intros (_ & Wu & ax & Na & _ & _ & Sh & G). cbn in Na. injection Na as <-. unfold drop_axes in *. rewrite D in Sh. apply tensor_ext; auto.
    intros ix I. rewrite Sh in I. specialize (G ix I). now rewrite D in G.
  - intros ->. split; auto. split; auto. exists []. split; auto. split; [constructor|]. split; [intros a []|]. unfold drop_axes. split; [now rewrite D|].
    intros ix I. now rewrite D.
Qed.
Lemma slice_nil {A} (x u : tensor A) : wf x -> slice_rel [] x u <-> u = x.
Proof.
  intro W. split.
  - intros (_ & Wu & L & _ & ax & Na & _ & _ & Sh & G). cbn in Na. injection Na as <-. assert (E : shape u = shape x).
    { apply list_nth_ext; auto. intros k Hk. rewrite L in Hk. apply Sh; auto. }
    apply tensor_ext; auto. intros ix I. apply G; [auto|congruence|]. intros k Hk. split; auto. intros [|q] s e st Q; discriminate.
  - intros ->. unfold slice_rel. split; auto. split; auto. split; auto. split; [intros a s e st []|]. exists []. split; auto. split; [constructor|].
    split; [intros [|q] k s e st Q; discriminate|]. split; auto. intros ix jx I J H. f_equal. apply list_nth_ext; [apply inb_length in I, J; congruence|].
    intros k Hk. symmetry. apply H; auto. apply inb_length in I. congruence.
Qed.
Lemma unsqueeze_wf {A} axes (x u : tensor A) : unsqueeze_rel axes x u -> wf u. Proof. now intros (_ & W & _). Qed.
Lemma slice_wf {A} ps (x u : tensor A) : slice_rel ps x u -> wf u. Proof. now intros (_ & W & _). Qed.
Lemma onnx_slices_all {A} un ps sq (x y : tensor A) : wf x ->
  onnx_slices un ps sq x y <-> exists u s, unsqueeze_rel un x u /\ slice_rel ps u s /\ squeeze_rel sq s y.
Proof.
  intro W. unfold onnx_slices. split.
  - intros (u & s & U & S' & Q). exists u, s.
    assert (U' : unsqueeze_rel un x u) by (destruct un; [now apply unsqueeze_nil|auto]). assert (Wu := unsqueeze_wf _ _ _ U').
    assert (S2 : slice_rel ps u s) by (destruct ps; [now apply slice_nil|auto]). assert (Ws := slice_wf _ _ _ S2).
    split; auto. split; auto. destruct sq; [now apply squeeze_nil|auto].
  - intros (u & s & U & S' & Q). exists u, s. assert (Wu := unsqueeze_wf _ _ _ U). assert (Ws := slice_wf _ _ _ S').
    split; [destruct un; [now apply unsqueeze_nil in U|auto]|]. split; [destruct ps; [now apply slice_nil in S'|auto]|].
    destruct sq; [now apply squeeze_nil in Q|auto].
Qed.
