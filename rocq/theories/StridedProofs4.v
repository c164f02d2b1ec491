(** Proofs about StridedSlice, part 4: the conversion from opset 10 *)
From Coq Require Import List Arith ZArith Bool Lia.
From Verif Require Import Tensor OnnxSpec TensorProofs PushSpec StridedSpec StridedModel StridedProofs StridedProofs2 StridedProofs3.
Import ListNotations.
Local Open Scope list_scope.

Lemma to_float32_id z : (Z.abs z <= 2 ^ 24)%Z -> to_float32 z = z.
Proof.
  intro H. unfold to_float32. cbn zeta. destruct (Z.eq_dec (Z.abs z) (2 ^ 24)) as [E|E].
  { rewrite E. cbn. assert (z = 16777216 \/ z = -16777216)%Z as [-> | ->] by (cbn in E; lia); reflexivity. }
  assert (L : (Z.log2 (Z.abs z) - 23 <= 0)%Z).
  { destruct (Z.eq_dec z 0) as [->|Nz]; [cbn; lia|]. assert (Z.log2 (Z.abs z) < 24)%Z; [|lia]. apply Z.log2_lt_pow2; lia. }
  rewrite Z.max_l by lia. change (2 ^ 0)%Z with 1%Z. rewrite Z.div_1_r, Z.mod_1_r. change (1 <? 2 * 0)%Z with false. change (2 * 0 =? 1)%Z with false. cbn [orb andb].
  rewrite Z.add_0_r, Z.mul_1_l. apply Z.sgn_abs || (rewrite Z.mul_comm; apply Z.abs_sgn).
Qed.
Lemma float_max : to_float32 max_size = max_size. Proof. reflexivity. Qed.
Lemma float_min : to_float32 min_size = min_size. Proof. reflexivity. Qed.

Lemma max_masked c v : (c = false -> Z.abs v <= 2 ^ 24)%Z -> maximum c v max_size = Z.max v max_size.
Proof. intro H. unfold maximum. destruct c; auto. now rewrite float_max, to_float32_id by auto. Qed.
Lemma max_unmasked c v : (c = false -> Z.abs v <= 2 ^ 24)%Z -> maximum c v min_size = Z.max v min_size.
Proof. intro H. unfold maximum. destruct c; auto. now rewrite float_min, to_float32_id by auto. Qed.

Lemma end_up_masked c any e v s : e_end_masked e = true -> any = true -> (0 < s)%Z -> (c = false -> Z.abs v <= 2 ^ 24)%Z -> (max_size <= masked_end c any e v s)%Z.
Proof.
  intros E -> S V. unfold masked_end. rewrite E, max_masked by auto. cbn zeta.
  destruct (Z.eqb_spec (Z.max v max_size) max_size) as [->|]; [|lia]. rewrite Z.sgn_pos by auto. destruct (Z.ltb_spec s 0); [lia|]. destruct c; lia.
Qed.
Lemma end_up c any e v s : e_end_masked e = false -> (0 < s)%Z -> (c = false -> Z.abs v <= 2 ^ 24)%Z ->
  masked_end c any e v s = v \/ (masked_end c any e v s = min_size /\ v < min_size)%Z.
Proof.
  intros E S V. unfold masked_end. destruct any; auto. rewrite E, max_unmasked by auto. cbn zeta.
  destruct (Z.eqb_spec (Z.max v min_size) max_size) as [H|H].
  - rewrite Z.sgn_pos by auto. destruct (Z.ltb_spec s 0); [lia|]. left. unfold max_size, min_size in *. destruct c; lia.
  - unfold min_size in *. lia.
Qed.
Lemma end_down_masked c any e v s : e_end_masked e = true -> any = true -> (s < 0)%Z -> (v < max_size)%Z -> (c = false -> Z.abs v <= 2 ^ 24)%Z -> masked_end c any e v s = min_size.
Proof.
  intros E -> S L V. unfold masked_end. rewrite E, max_masked by auto. cbn zeta. rewrite Z.max_r by lia. rewrite Z.eqb_refl.
  rewrite Z.sgn_neg by auto. destruct (Z.ltb_spec s 0); [|lia]. destruct c; reflexivity.
Qed.
Lemma end_down c any e v s : e_end_masked e = false -> (s < 0)%Z -> (v < max_size)%Z -> (c = false -> Z.abs v <= 2 ^ 24)%Z ->
  masked_end c any e v s = v \/ (masked_end c any e v s = min_size /\ v < min_size)%Z.
Proof.
  intros E S L V. unfold masked_end. destruct any; auto. rewrite E, max_unmasked by auto. cbn zeta.
  destruct (Z.eqb_spec (Z.max v min_size) max_size) as [H|H]; [unfold max_size, min_size in *; lia|]. unfold min_size in *. lia.
Qed.
Lemma stride_kept c any e s : e_stride_masked e = false -> (min_size <= s)%Z -> (c = false -> Z.abs s <= 2 ^ 24)%Z -> masked_stride c any e s = s.
Proof. intros E L V. unfold masked_stride. destruct any; auto. rewrite E, max_unmasked by auto. lia. Qed.
Lemma stride_masked c any e s : e_stride_masked e = true -> any = true -> (c = false -> Z.abs s <= 2 ^ 24)%Z -> (max_size <= masked_stride c any e s)%Z.
Proof. intros E -> V. unfold masked_stride. rewrite E, max_masked by auto. lia. Qed.

Lemma realise_triv c w : trivial c -> (Z.of_nat (c_dim c) <= w)%Z -> realised c 0 w 1.
Proof.
  intros (T1 & T2 & T3) H. destruct c as [d f n s fr dr]. cbn in *. subst f n s. unfold realised. cbn. split; [lia|].
  destruct (Nat.eqb_spec d 0) as [->|D]; [cbn; split; [auto|intros; lia]|].
  unfold slice_axis. cbn zeta. destruct (Nat.eqb_spec d 0) as [|_]; [lia|]. change (0 <? 1)%Z with true. change (0 <? 0)%Z with false. cbn iota.
  destruct (Z.ltb_spec w 0); [lia|]. cbn [fst snd]. rewrite Z.div_1_r. split; [lia|]. intros i Hi. lia.
Qed.

Section V10.
Variables (m : masks) (ce cs : bool) (any_e any_s : bool) (R len : nat).
Definition param_of (p : entry * (Z * (Z * Z))) : Z * (Z * Z * Z) :=
  match p with (e, (b, (v, s))) => (e_axis e, (masked_begin e b s, masked_end (ce && cs) any_e e v s, masked_stride cs any_s e s)) end.
Definition params10 (es : list entry) (bs vs ss : list Z) := map param_of (combine es (combine bs (combine vs ss))).
Notation P := starts_inside.
Notation bound p := (forall c, In c p -> (Z.of_nat (c_dim c) < max_size)%Z).

(** one entry that is not an ellipsis *)
Lemma entry_step idx gap k b v s its p (bs vs ss : list Z) es :
  bit (ellipsis_mask m) idx = false -> fine_10 m ce cs idx b v s -> Z.of_nat k = (Z.of_nat idx + gap)%Z ->
  (forall e, In e es -> (e_end_masked e = true -> any_e = true) /\ (e_stride_masked e = true -> any_s = true)) ->
  bound p -> fits P (item_of m idx b v s :: its) p ->
  forall e1 rest, es = e1 :: rest ->
  e1 = (if bit (shrink_axis_mask m) idx then Entry (Z.of_nat idx + gap) false true true true
        else Entry (Z.of_nat idx + gap) (bit (begin_mask m) idx || bit (new_axis_mask m) idx) (bit (end_mask m) idx || bit (new_axis_mask m) idx) false false) ->
  exists c p', p = c :: p' /\ fits P its p' /\
    (params_at (S k) (params10 rest bs vs ss) p' -> params_at k (params10 es (b :: bs) (v :: vs) (s :: ss)) p) /\
    (map e_axis (filter e_squeeze rest) = map Z.of_nat (pos c_drop (S k) p') -> map e_axis (filter e_squeeze es) = map Z.of_nat (pos c_drop k p)).
Proof.
  intros El Hf Hk An HB F e1 rest -> E1. destruct (An e1 (or_introl eq_refl)) as [Ae As]. unfold item_of in F. rewrite El in F. rewrite <- Hk in E1.
  unfold params10. cbn [combine map param_of]. destruct Hf as [Fd Fe Fn Fb Fv Fs Fde Fds].
  assert (Fv' : (s < 0 -> v < max_size)%Z) by exact Fv. assert (Fs' : (min_size <= s)%Z) by exact Fs.
  destruct (bit (new_axis_mask m) idx) eqn:Nw.
  - inversion F as [|its' p' F'| | | |]; subst its'. exists (Cell 1 0 1 1 true false), p'. split; auto. split; auto. rewrite (Fd eq_refl) in E1.
    destruct (Fn eq_refl) as [-> ->]. rewrite !orb_true_r in E1. split.
    + intro Q. subst e1. cbn [e_axis]. apply params_cons; [|exact Q].
      unfold masked_begin. cbn [e_begin_masked]. change (1 <? 0)%Z with false. cbn [andb]. rewrite stride_kept by (auto; unfold min_size; lia).
      apply realise_triv; [now repeat split|]. assert (H := end_up_masked (ce && cs) any_e (Entry (Z.of_nat k) true true false false) v 1 eq_refl (Ae eq_refl) ltac:(lia) Fde). cbn [c_dim]. unfold max_size in *. lia.
    + intro Q. subst e1. cbn. exact Q.
  - destruct (bit (shrink_axis_mask m) idx) eqn:Sh.
    + inversion F as [| |i s0 its' d p' j Nj Hp F' Ei Ep| | |]; subst i s0 its'. exists (Cell d (Z.of_nat j) 1 1 false true), p'. split; auto. split; auto. subst p.
      assert (Hd := HB _ (or_introl eq_refl)). cbn [c_dim] in Hd. split.
      * intro Q. subst e1. cbn [e_axis]. apply params_cons; [|exact Q]. unfold masked_begin. cbn [e_begin_masked andb].
        assert (Hm := stride_masked cs any_s (Entry (Z.of_nat k) false true true true) s eq_refl (As eq_refl) Fds).
        assert (He := end_up_masked (ce && cs) any_e (Entry (Z.of_nat k) false true true true) v s eq_refl (Ae eq_refl) Hp Fde).
        apply realise_at; auto; [unfold max_size in *; lia|]. right. split; lia.
      * intro Q. subst e1. cbn. f_equal. exact Q.
    + inversion F as [| | |b' e' s' its' d p' Hs HP F' Ei Ep| |]; subst b' e' s' its'. eexists _, p'. split; [reflexivity|]. split; auto. subst p.
      assert (Hd := HB _ (or_introl eq_refl)). cbn [c_dim] in Hd. rewrite !orb_false_r in E1. split.
      * intro Q. subst e1. cbn [e_axis]. apply params_cons; [|exact Q]. rewrite stride_kept by auto.
        unfold masked_begin. cbn [e_begin_masked]. set (e1 := Entry _ _ _ _ _) in *. destruct (Z.ltb_spec s 0) as [Sn|Sn].
        -- rewrite andb_true_r. apply realise_down; auto.
           ++ destruct (bit (begin_mask m) idx); [unfold max_size in *; lia|]. split; auto.
           ++ destruct (bit (end_mask m) idx) eqn:Em.
              ** rewrite end_down_masked by auto. unfold min_size, max_size in *. lia.
              ** destruct (end_down (ce && cs) any_e e1 v s eq_refl Sn (Fv' Sn) Fde) as [-> | [-> H]]; auto. right. unfold min_size, max_size in *. lia.
        -- rewrite andb_false_r. assert (Sp : (0 < s)%Z) by lia. apply realise_up; auto.
           ++ destruct (bit (begin_mask m) idx) eqn:Bm; auto.
           ++ destruct (bit (end_mask m) idx) eqn:Em.
              ** assert (H := end_up_masked (ce && cs) any_e e1 v s eq_refl (Ae eq_refl) Sp Fde). lia.
              ** destruct (end_up (ce && cs) any_e e1 v s eq_refl Sp Fde) as [-> | [-> H]]; auto. right. unfold min_size, max_size in *. lia.
      * intro Q. subst e1. cbn. exact Q.
Qed.

Lemma after10 : forall bs vs ss idx gap k tail p, length vs = length bs -> length ss = length bs ->
  rests (items_from m idx bs vs ss) = 0 -> tail = [] \/ tail = [Rest] -> Z.of_nat k = (Z.of_nat idx + gap)%Z ->
  (forall j, j < length bs -> fine_10 m ce cs (idx + j) (nth j bs 0%Z) (nth j vs 0%Z) (nth j ss 0%Z)) ->
  let es := entries m R len (length bs) idx gap in
  (forall e, In e es -> (e_end_masked e = true -> any_e = true) /\ (e_stride_masked e = true -> any_s = true)) ->
  bound p -> fits P (items_from m idx bs vs ss ++ tail) p ->
  params_at k (params10 es bs vs ss) p /\ map e_axis (filter e_squeeze es) = map Z.of_nat (pos c_drop k p).
Proof.
  induction bs as [|b bs IH]; intros [|v vs] [|s ss] idx gap k tail p L1 L2 Rs Ht Hk Hf es An HB F; try discriminate.
  - cbn in *. assert (T : Forall (fun c => trivial c /\ c_drop c = false /\ c_fresh c = false) p).
    { destruct Ht as [-> | ->]; [inversion F; constructor|now apply fits_tail in F]. }
    destruct (params_trivial p k T) as (A & B & C). rewrite B. auto.
  - cbn [items_from] in Rs, F. rewrite rests_cons, item_of_rest in Rs. subst es. cbn [length entries] in *. cbn zeta in *.
    destruct (bit (ellipsis_mask m) idx) eqn:El; [discriminate|]. cbn in Rs. cbn [app] in F.
    assert (F0 := Hf 0 ltac:(lia)). rewrite Nat.add_0_r in F0. cbn [nth] in F0.
    destruct (entry_step idx gap k b v s _ p bs vs ss _ El F0 Hk An HB F _ _ eq_refl eq_refl) as (c & p' & -> & F' & Q1 & Q2).
    destruct (IH vs ss (S idx) gap (S k) tail p' ltac:(lia) ltac:(lia) Rs Ht ltac:(lia)) as (A & B); auto.
    + intros j Hj. specialize (Hf (S j) ltac:(lia)). replace (S idx + j) with (idx + S j) by lia. exact Hf.
    + intros e He. apply An. cbn. auto.
    + intros c' Hc. apply HB. cbn. auto.
Qed.

Lemma main10 : forall bs vs ss idx tail p, length vs = length bs -> length ss = length bs -> len = idx + length bs -> R = idx + length p ->
  rests (items_from m idx bs vs ss ++ tail) = 1 -> tail = [] \/ tail = [Rest] ->
  (forall j, j < length bs -> fine_10 m ce cs (idx + j) (nth j bs 0%Z) (nth j vs 0%Z) (nth j ss 0%Z)) ->
  let es := entries m R len (length bs) idx 0%Z in
  (forall e, In e es -> (e_end_masked e = true -> any_e = true) /\ (e_stride_masked e = true -> any_s = true)) ->
  (rests (items_from m idx bs vs ss) = 1 -> length bs <= length p) ->
  bound p -> fits P (items_from m idx bs vs ss ++ tail) p ->
  params_at idx (params10 es bs vs ss) p /\ map e_axis (filter e_squeeze es) = map Z.of_nat (pos c_drop idx p).
Proof.
  induction bs as [|b bs IH]; intros [|v vs] [|s ss] idx tail p L1 L2 HL HR Rs Ht Hf es An Cov HB F; try discriminate.
  - apply (after10 [] [] [] idx 0%Z idx tail p); auto. lia.
  - destruct Ht as [-> | ->].
    2: { apply (after10 (b :: bs) (v :: vs) (s :: ss) idx 0%Z idx [Rest] p); auto; [|lia]. rewrite rests_app in Rs. change (rests [Rest]) with 1 in Rs. lia. }
    rewrite app_nil_r in *. specialize (Cov Rs). cbn [items_from] in Rs, F. rewrite rests_cons, item_of_rest in Rs. subst es. cbn [length entries] in *. cbn zeta in *.
    assert (Fr : forall j, j < length bs -> fine_10 m ce cs (S idx + j) (nth j bs 0%Z) (nth j vs 0%Z) (nth j ss 0%Z)).
    { intros j Hj. specialize (Hf (S j) ltac:(lia)). replace (S idx + j) with (idx + S j) by lia. exact Hf. }
    assert (F0 := Hf 0 ltac:(lia)). rewrite Nat.add_0_r in F0. cbn [nth] in F0.
    destruct (bit (ellipsis_mask m) idx) eqn:El.
    + unfold item_of in F. rewrite El in F. destruct (fits_rest_split _ _ _ F) as (t & p' & -> & T & F2).
      assert (Lp := proj2 (fits_length _ _ _ F2 ltac:(lia))). rewrite items_from_length in Lp by lia. rewrite app_length in HR, Cov.
      assert (Fe := f_ellipsis _ _ _ _ _ _ _ F0 El). destruct Fe as [-> ->]. assert (Fde := f_dynamic_end _ _ _ _ _ _ _ F0).
      set (es := entries m R len (length bs) (S idx) (Z.of_nat R - Z.of_nat len)) in *.
      destruct (after10 bs vs ss (S idx) (Z.of_nat R - Z.of_nat len) (idx + length t) [] p' ltac:(lia) ltac:(lia) ltac:(lia) (or_introl eq_refl) ltac:(lia) Fr) as (A & B).
      { intros e He. apply An. right. exact He. } { intros c Hc. apply HB, in_app_iff. auto. } { now rewrite app_nil_r. }
      destruct t as [|c t]; [cbn in Cov; lia|]. inversion T as [|c' t' (Tc & Td & Tf) Tt]; subst c' t'. split.
      * unfold params10. cbn [combine map param_of]. cbn [e_axis app]. unfold masked_begin. change (1 <? 0)%Z with false. rewrite andb_false_r.
        rewrite stride_kept by (auto; unfold min_size; lia). apply params_cons; [|].
        -- apply realise_triv; auto. destruct (An _ (or_introl eq_refl)) as [Ae _].
           assert (He := end_up_masked (ce && cs) any_e (Entry (Z.of_nat idx) true true false false) v 1 eq_refl (Ae eq_refl) ltac:(lia) Fde).
           assert (Hd := HB c ltac:(cbn; auto)). lia.
        -- apply params_over; auto. replace (S idx + length t) with (idx + length (c :: t)) by (cbn; lia). exact A.
      * cbn [filter e_squeeze]. rewrite pos_over by (apply triv_drop; auto). exact B.
    + cbn in Rs. destruct (entry_step idx 0%Z idx b v s _ p bs vs ss _ El F0 ltac:(lia) An HB F _ _ eq_refl eq_refl) as (c & p' & -> & F' & Q1 & Q2).
      destruct (IH vs ss (S idx) [] p' ltac:(lia) ltac:(lia) ltac:(lia) ltac:(cbn in HR; lia) ltac:(now rewrite app_nil_r) (or_introl eq_refl) Fr) as (A & B); auto.
      * intros e He. apply An. right. exact He.
      * intros _. cbn in Cov. lia.
      * intros c' Hc. apply HB. cbn. auto.
      * now rewrite app_nil_r.
Qed.
End V10.

(** ** the axes of the Unsqueeze *)
Definition is_new (t : item) : bool := match t with New => true | _ => false end.
Lemma fits_new_count P its p : fits P its p -> forall k, length (pos c_fresh k p) = length (filter is_new its).
Proof. induction 1; intro k'; cbn; auto. Qed.
Lemma item_of_new m idx b e s : is_new (item_of m idx b e s) = negb (bit (ellipsis_mask m) idx) && bit (new_axis_mask m) idx.
Proof. unfold item_of. destruct (bit (ellipsis_mask m) idx), (bit (new_axis_mask m) idx), (bit (shrink_axis_mask m) idx); reflexivity. Qed.
Lemma count_items m : forall bs vs ss idx n, length vs = length bs -> length ss = length bs -> length bs <= n ->
  (forall i, bit (new_axis_mask m) i = true -> i < idx + length bs) ->
  length (filter is_new (items_from m idx bs vs ss)) = length (filter (fun i => negb (bit (ellipsis_mask m) i) && bit (new_axis_mask m) i) (seq idx n)).
Proof.
  induction bs as [|b bs IH]; intros [|v vs] [|s ss] idx n L1 L2 Ln H; try discriminate.
  - cbn [items_from filter length]. assert (E : filter (fun i => negb (bit (ellipsis_mask m) i) && bit (new_axis_mask m) i) (seq idx n) = []); [|now rewrite E].
    assert (G : forall l, (forall i, In i l -> idx <= i) -> filter (fun i => negb (bit (ellipsis_mask m) i) && bit (new_axis_mask m) i) l = []).
    { induction l as [|a l IHl]; intro Hl; auto. cbn [filter]. destruct (bit (new_axis_mask m) a) eqn:E; [exfalso; apply H in E; specialize (Hl a (or_introl eq_refl)); cbn in E; lia|].
      rewrite andb_false_r. apply IHl. intros. apply Hl. cbn. auto. }
    apply G. intros i Hi. apply in_seq in Hi. lia.
  - destruct n as [|n]; [cbn in Ln; lia|]. cbn [items_from filter seq length] in *. rewrite item_of_new.
    assert (IH' := IH vs ss (S idx) n ltac:(lia) ltac:(lia) ltac:(lia) ltac:(intros i Hi; apply H in Hi; lia)).
    destruct (negb (bit (ellipsis_mask m) idx) && bit (new_axis_mask m) idx); cbn [length]; lia.
Qed.
Lemma plain_none m : forall n idx, (forall i, idx <= i -> bit (new_axis_mask m) i = false) -> unsqueeze_plain m n idx = [].
Proof. induction n as [|n IH]; intros idx H; auto. cbn. rewrite H by lia. cbn. apply IH. intros. apply H. lia. Qed.
Lemma ellipsis_none m cov : forall n idx gap, (forall i, idx <= i -> bit (new_axis_mask m) i = false) -> unsqueeze_ellipsis m cov n idx gap = [].
Proof.
  induction n as [|n IH]; intros idx gap H; auto. cbn. destruct (bit (ellipsis_mask m) idx); [apply IH; intros; apply H; lia|].
  rewrite H by lia. cbn. apply IH. intros. apply H. lia.
Qed.
Section Un.
Variable m : masks.
Variable P : option Z -> option Z -> Z -> nat -> Prop.
Lemma bits_off idx n : (forall i, bit (new_axis_mask m) i = true -> i < n) -> n <= idx -> forall i, idx <= i -> bit (new_axis_mask m) i = false.
Proof. intros H L i Hi. destruct (bit (new_axis_mask m) i) eqn:E; auto. apply H in E. lia. Qed.
Lemma step_fresh idx b v s its p k : fits P (item_of m idx b v s :: its) p -> bit (ellipsis_mask m) idx = false ->
  exists c p', p = c :: p' /\ fits P its p' /\ pos c_fresh k p = (if bit (new_axis_mask m) idx then [k] else []) ++ pos c_fresh (S k) p'.
Proof.
  intros F El. unfold item_of in F. rewrite El in F. destruct (bit (new_axis_mask m) idx) eqn:N; [|destruct (bit (shrink_axis_mask m) idx)]; inversion F; subst; eexists _, _; split; eauto; split; auto; reflexivity.
Qed.
Lemma plain_ok : forall bs vs ss idx n tail p, length vs = length bs -> length ss = length bs -> length bs <= n ->
  (forall i, bit (new_axis_mask m) i = true -> i < idx + length bs) -> (forall i, bit (ellipsis_mask m) i = false) -> tail = [] \/ tail = [Rest] ->
  fits P (items_from m idx bs vs ss ++ tail) p -> unsqueeze_plain m n idx = map Z.of_nat (pos c_fresh idx p).
Proof.
  induction bs as [|b bs IH]; intros [|v vs] [|s ss] idx n tail p L1 L2 Ln H He Ht F; try discriminate.
  - rewrite plain_none by (apply (bits_off idx (idx + 0)); auto; lia). cbn in F.
    assert (T : Forall (fun c => trivial c /\ c_drop c = false /\ c_fresh c = false) p) by (destruct Ht as [-> | ->]; [inversion F; constructor|now apply fits_tail in F]).
    destruct (params_trivial p idx T) as (_ & _ & ->). reflexivity.
  - destruct n as [|n]; [cbn in Ln; lia|]. cbn [items_from app length] in *. destruct (step_fresh idx b v s _ p idx F (He idx)) as (c & p' & -> & F' & E). rewrite E.
    cbn [unsqueeze_plain]. rewrite map_app. f_equal; [destruct (bit (new_axis_mask m) idx); reflexivity|].
    apply (IH vs ss (S idx) n tail p'); auto; try lia. intros i Hi. apply H in Hi. lia.
Qed.
Lemma ell_after cov : forall bs vs ss idx n gap k tail p, length vs = length bs -> length ss = length bs -> length bs <= n ->
  (forall i, bit (new_axis_mask m) i = true -> i < idx + length bs) -> rests (items_from m idx bs vs ss) = 0 -> tail = [] \/ tail = [Rest] ->
  Z.of_nat k = (if (gap =? 0)%Z then Z.of_nat idx else (Z.of_nat idx + gap - 1)%Z) ->
  fits P (items_from m idx bs vs ss ++ tail) p -> unsqueeze_ellipsis m cov n idx gap = map Z.of_nat (pos c_fresh k p).
Proof.
  induction bs as [|b bs IH]; intros [|v vs] [|s ss] idx n gap k tail p L1 L2 Ln H Rs Ht Hk F; try discriminate.
  - rewrite ellipsis_none by (apply (bits_off idx (idx + 0)); auto; lia). cbn in F.
    assert (T : Forall (fun c => trivial c /\ c_drop c = false /\ c_fresh c = false) p) by (destruct Ht as [-> | ->]; [inversion F; constructor|now apply fits_tail in F]).
    destruct (params_trivial p k T) as (_ & _ & ->). reflexivity.
  - destruct n as [|n]; [cbn in Ln; lia|]. cbn [items_from app length] in *. rewrite rests_cons, item_of_rest in Rs. cbn [unsqueeze_ellipsis].
    destruct (bit (ellipsis_mask m) idx) eqn:El; [discriminate|].
    destruct (step_fresh idx b v s _ p k F El) as (c & p' & -> & F' & E). rewrite E. rewrite map_app. f_equal.
    + destruct (bit (new_axis_mask m) idx); cbn; [now rewrite Hk|reflexivity].
    + apply (IH vs ss (S idx) n gap (S k) tail p'); auto; try lia; [intros i Hi; apply H in Hi; lia|]. destruct (gap =? 0)%Z; lia.
Qed.
Lemma ell_main cov : forall bs vs ss idx n tail p, length vs = length bs -> length ss = length bs -> length bs <= n ->
  (forall i, bit (new_axis_mask m) i = true -> i < idx + length bs) -> rests (items_from m idx bs vs ss ++ tail) = 1 -> tail = [] \/ tail = [Rest] ->
  (rests (items_from m idx bs vs ss) = 1 -> (cov = Z.of_nat (length p) - Z.of_nat (length bs) + 1)%Z /\ length bs <= length p) ->
  fits P (items_from m idx bs vs ss ++ tail) p -> unsqueeze_ellipsis m cov n idx 0 = map Z.of_nat (pos c_fresh idx p).
Proof.
  induction bs as [|b bs IH]; intros [|v vs] [|s ss] idx n tail p L1 L2 Ln H Rs Ht Cov F; try discriminate.
  - apply (ell_after cov [] [] [] idx n 0%Z idx tail p); auto.
  - destruct Ht as [-> | ->].
    2: { apply (ell_after cov (b :: bs) (v :: vs) (s :: ss) idx n 0%Z idx [Rest] p); auto. rewrite rests_app in Rs. change (rests [Rest]) with 1 in Rs. lia. }
    rewrite app_nil_r in *. destruct (Cov Rs) as [Cv Lb]. destruct n as [|n]; [cbn in Ln; lia|].
    cbn [items_from length] in *. rewrite rests_cons, item_of_rest in Rs. cbn [unsqueeze_ellipsis].
    destruct (bit (ellipsis_mask m) idx) eqn:El.
    + unfold item_of in F. rewrite El in F. destruct (fits_rest_split _ _ _ F) as (t & p' & -> & T & F2).
      assert (Lp := proj2 (fits_length _ _ _ F2 ltac:(lia))). rewrite items_from_length in Lp by lia. rewrite app_length in Lb, Cv.
      rewrite pos_over by (apply triv_fresh; auto). apply (ell_after cov bs vs ss (S idx) n cov (idx + length t) [] p'); auto; try lia.
      * intros i Hi. apply H in Hi. lia.
      * destruct (Z.eqb_spec cov 0); lia.
      * now rewrite app_nil_r.
    + cbn in Rs. destruct (step_fresh idx b v s _ p idx F El) as (c & p' & -> & F' & E). rewrite E. rewrite map_app. change (0 =? 0)%Z with true. cbn iota. f_equal.
      * destruct (bit (new_axis_mask m) idx); reflexivity.
      * apply (IH vs ss (S idx) n [] p'); auto; try lia; [intros i Hi; apply H in Hi; lia|now rewrite app_nil_r| |now rewrite app_nil_r].
        intros _. cbn [length] in Cv, Lb. lia.
Qed.
End Un.

Lemma filter_length_split {A} (f g h : A -> bool) l : (forall a, In a l -> (if f a then 1 else 0) + (if g a then 1 else 0) + (if h a then 1 else 0) = 1) ->
  length (filter f l) + length (filter g l) + length (filter h l) = length l.
Proof.
  induction l as [|a l IH]; intro H; auto. cbn [filter]. assert (Ha := H a (or_introl eq_refl)). specialize (IH (fun b Hb => H b (or_intror Hb))).
  destruct (f a), (g a), (h a); cbn [length] in *; lia.
Qed.

Theorem slice_10_ok {A} m ce cs bs es ss (x y : tensor A) :
  (forall i, i < length bs -> fine_10 m ce cs i (nth i bs 0%Z) (nth i es 0%Z) (nth i ss 0%Z)) ->
  (forall d, In d (shape x) -> (Z.of_nat d < max_size)%Z) ->
  length bs <= 32 -> (forall i, bit (new_axis_mask m) i = true -> i < length bs) ->
  (existsb is_rest (items m bs es ss) = true -> length (filter takes_axis (items m bs es ss)) < length (shape x)) ->
  ranges starts_inside (with_rest (items m bs es ss)) (shape x) ->
  strided_slice m bs es ss x y ->
  let r := slice_10 m ce cs (length (shape x)) bs es ss in
  forall y', onnx_slices (s_unsqueeze r) (s_slice r) (s_squeeze r) x y' <-> y' = y.
Proof.
  intros Hf HM L32 Hn Cov Rg (L1 & L2 & R & f & Vw & Wx & Wy & G). fold (rests (items m bs es ss)) in R.
  destruct (view_plan _ _ _ _ Vw) as (p & F0 & OK & Ed & Eo & Ef). 
  destruct (with_rest_tail _ R) as (tail & Ht & Et & R1).
  assert (F := fits_ranges _ _ _ F0 ltac:(rewrite Et, R1; lia) _ Ed Rg). rewrite Et in F.
  rewrite (items_eq m bs es ss L1 L2) in *. set (its := items_from m 0 bs es ss) in *.
  assert (Lsv := sieve_length c_fresh p (map c_dim p) ltac:(now rewrite map_length)). rewrite <- Ed in Lsv.
  assert (Nc : length (pos c_fresh 0 p) = length (filter is_new its)).
  { rewrite (fits_new_count _ _ _ F). rewrite filter_app, app_length. destruct Ht as [-> | ->]; cbn; lia. }
  assert (Cn : length (filter is_new its) = count_new m).
  { unfold its, count_new. apply count_items; auto; lia. }
  assert (Sp := filter_length_split is_rest is_new takes_axis its ltac:(intros [| |? ?|? ? ?] _; reflexivity)). fold (rests its) in Sp.
  assert (Lits : length its = length bs) by (apply items_from_length; auto).
  assert (Cov' : rests its = 1 -> length bs <= length p).
  { intro E. assert (X : existsb is_rest its = true) by (destruct (existsb is_rest its) eqn:X; auto; apply rests_0 in X; lia). specialize (Cov X). lia. }
  assert (Un : unsqueeze_at m (length (shape x)) (length bs) = map Z.of_nat (pos c_fresh 0 p)).
  { unfold unsqueeze_at. destruct (Z.eqb_spec (new_axis_mask m) 0) as [N0|N0].
    - assert (E : length (filter is_new its) = 0).
      { rewrite Cn. unfold count_new. rewrite N0. assert (X : forall l, filter (fun i => negb (bit (ellipsis_mask m) i) && bit 0 i) l = []); [|now rewrite X].
        induction l as [|a l IH]; auto. cbn [filter]. unfold bit at 2. rewrite Z.testbit_0_l, andb_false_r. exact IH. }
      rewrite E in Nc. destruct (pos c_fresh 0 p); [reflexivity|discriminate].
    - destruct (Z.eqb_spec (ellipsis_mask m) 0) as [E0|E0].
      + apply (plain_ok m starts_inside bs es ss 0 32 tail p); auto. intro i. rewrite E0. unfold bit. apply Z.testbit_0_l.
      + apply (ell_main m starts_inside _ bs es ss 0 32 tail p); auto. intro E. fold its in E. specialize (Cov' E). split; auto. lia. }
  cbn zeta. unfold slice_10. cbn zeta. cbn [s_unsqueeze s_slice s_squeeze]. rewrite Un, map_length.
  replace (length (shape x) + length (pos c_fresh 0 p)) with (length p) by lia.
  set (ens := entries m (length p) (length bs) (length bs) 0 0%Z).
  destruct (main10 m ce cs (existsb e_end_masked ens) (existsb e_stride_masked ens) (length p) (length bs) bs es ss 0 tail p) as (A2 & A3); auto.
  - intros e He. split; intro Q; apply existsb_exists; exists e; auto.
  - intros c Hc. destruct (c_fresh c) eqn:Fc; [rewrite (proj1 (OK c Hc) Fc); reflexivity|]. apply HM. rewrite Ed. apply dim_in_shape; auto.
  - fold ens in A2, A3. intro y'. rewrite onnx_slices_all by auto. rewrite A3.
    rewrite <- (plan_ok p OK _ x y (params_at_0 _ _ A2) Wx Wy Ed Eo); [reflexivity|]. intros ix I. rewrite G by auto. now rewrite Ef.
Qed.
