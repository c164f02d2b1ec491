(** Proofs about StridedSlice, part 3: version_1 *)
From Coq Require Import List Arith ZArith Bool Lia.
From Verif Require Import Tensor OnnxSpec TensorProofs PushSpec StridedSpec StridedModel StridedProofs StridedProofs2.
Import ListNotations.
Local Open Scope list_scope.

Definition item_of (m : masks) (idx : nat) (b e s : Z) : item :=
  if bit (ellipsis_mask m) idx then Rest
  else if bit (new_axis_mask m) idx then New
  else if bit (shrink_axis_mask m) idx then At b s
  else Span (if bit (begin_mask m) idx then None else Some b) (if bit (end_mask m) idx then None else Some e) s.
Fixpoint items_from (m : masks) (idx : nat) (bs es ss : list Z) : list item :=
  match bs, es, ss with
  | b :: bs', e :: es', s :: ss' => item_of m idx b e s :: items_from m (S idx) bs' es' ss'
  | _, _, _ => []
  end.
Lemma items_from_spec m : forall bs es ss idx pb pe ps, length es = length bs -> length ss = length bs ->
  length pb = idx -> length pe = idx -> length ps = idx ->
  map (item_at m (pb ++ bs) (pe ++ es) (ps ++ ss)) (seq idx (length bs)) = items_from m idx bs es ss.
Proof.
  induction bs as [|b bs IH]; intros [|e es] [|s ss] idx pb pe ps L1 L2 Lb Le Ls; try discriminate; auto.
  cbn [length seq map items_from]. f_equal.
  - unfold item_at, item_of. rewrite !app_nth2 by lia. rewrite Lb, Le, Ls, Nat.sub_diag. reflexivity.
  - rewrite <- (IH es ss (S idx) (pb ++ [b]) (pe ++ [e]) (ps ++ [s])); try (rewrite ?app_length; cbn in *; lia). rewrite <- !app_assoc. reflexivity.
Qed.
Lemma items_eq m bs es ss : length es = length bs -> length ss = length bs -> items m bs es ss = items_from m 0 bs es ss.
Proof. intros. unfold items. now rewrite <- (items_from_spec m bs es ss 0 [] [] []). Qed.
Lemma items_from_length m : forall bs es ss idx, length es = length bs -> length ss = length bs -> length (items_from m idx bs es ss) = length bs.
Proof. induction bs as [|b bs IH]; intros [|e es] [|s ss] idx L1 L2; try discriminate; auto. cbn in *. f_equal. apply IH; lia. Qed.
Lemma item_of_rest m idx b e s : is_rest (item_of m idx b e s) = bit (ellipsis_mask m) idx.
Proof. unfold item_of. destruct (bit (ellipsis_mask m) idx), (bit (new_axis_mask m) idx), (bit (shrink_axis_mask m) idx); reflexivity. Qed.
Lemma rests_app a b : rests (a ++ b) = rests a + rests b.
Proof. unfold rests. now rewrite filter_app, app_length. Qed.
Lemma rests_0 its : rests its = 0 <-> existsb is_rest its = false.
Proof. induction its as [|t its IH]; [now cbn|]. rewrite rests_cons. cbn [existsb]. destruct (is_rest t); cbn; [split; [lia|discriminate]|exact IH]. Qed.

Lemma fits_tail P p : fits P [Rest] p -> Forall (fun c => trivial c /\ c_drop c = false /\ c_fresh c = false) p.
Proof.
  intro F. remember [Rest] as l eqn:E. induction F; try discriminate.
  - injection E as ->. inversion F. constructor.
  - injection E as ->. constructor; auto. now repeat split.
Qed.
Lemma params_trivial : forall p k, Forall (fun c => trivial c /\ c_drop c = false /\ c_fresh c = false) p -> params_at k [] p /\ pos c_drop k p = [] /\ pos c_fresh k p = [].
Proof.
  induction p as [|c p IH]; intros k H; [split; [apply params_nil|auto]|]. inversion H as [|c' p' (T & D & F) H' E]; subst. destruct (IH (S k) H') as (A & B & C).
  split; [now apply params_skip|]. cbn. rewrite D, F, B, C. auto.
Qed.
(** an ellipsis covers some axes with trivial cells *)
Lemma fits_rest_split P its p : fits P (Rest :: its) p ->
  exists t p', p = t ++ p' /\ Forall (fun c => trivial c /\ c_drop c = false /\ c_fresh c = false) t /\ fits P its p'.
Proof.
  intro F. remember (Rest :: its) as l eqn:E. revert E. induction F; intro E; try discriminate.
  - injection E as ->. exists [], p. split; auto.
  - injection E as ->. destruct (IHF eq_refl) as (t & p' & -> & H & H'). exists (Cell d 0 d 1 false false :: t), p'. split; auto. split; auto.
    constructor; auto. now repeat split.
Qed.
Lemma params_over : forall t k params p, Forall (fun c => trivial c /\ c_drop c = false /\ c_fresh c = false) t ->
  params_at (k + length t) params p -> params_at k params (t ++ p).
Proof.
  induction t as [|c t IH]; intros k params p H Q; cbn in *; [now rewrite Nat.add_0_r in Q|]. inversion H as [|c' p' (T & D & F) H' E]; subst.
  apply params_skip; auto. apply IH; auto. now replace (S k + length t) with (k + S (length t)) by lia.
Qed.
Lemma pos_over f : forall t k p, Forall (fun c => f c = false) t -> pos f k (t ++ p) = pos f (k + length t) p.
Proof.
  induction t as [|c t IH]; intros k p H; cbn in *; [now rewrite Nat.add_0_r|]. inversion H as [|c' p' D H' E]; subst. rewrite D. cbn. rewrite IH by auto. f_equal. lia.
Qed.
Lemma triv_drop t : Forall (fun c => trivial c /\ c_drop c = false /\ c_fresh c = false) t -> Forall (fun c => c_drop c = false) t.
Proof. intro H. eapply Forall_impl; [|exact H]. now intros c (_ & D & _). Qed.
Lemma triv_fresh t : Forall (fun c => trivial c /\ c_drop c = false /\ c_fresh c = false) t -> Forall (fun c => c_fresh c = false) t.
Proof. intro H. eapply Forall_impl; [|exact H]. now intros c (_ & _ & D). Qed.

Section V1.
Variables (m : masks) (M : Z) (rank len : nat).
Hypothesis NoNew : new_axis_mask m = 0%Z.
Lemma no_new idx : bit (new_axis_mask m) idx = false. Proof. rewrite NoNew. unfold bit. apply Z.testbit_0_l. Qed.

Lemma v1_after : forall bs es ss idx gap k tail p, length es = length bs -> length ss = length bs ->
  rests (items_from m idx bs es ss) = 0 -> tail = [] \/ tail = [Rest] -> Z.of_nat k = (Z.of_nat idx + gap)%Z -> Forall (fun s => s = 1%Z) ss ->
  (forall j, j < length bs -> fine_1 m (idx + j) (nth j bs 0%Z) (nth j es 0%Z)) ->
  (forall c, In c p -> (Z.of_nat (c_dim c) <= M)%Z) ->
  fits anyP (items_from m idx bs es ss ++ tail) p ->
  let r := v1_loop m M rank len idx gap bs es in
  s_unsqueeze r = [] /\ params_at k (s_slice r) p /\ s_squeeze r = map Z.of_nat (pos c_drop k p) /\ pos c_fresh k p = [].
Proof.
  induction bs as [|b bs IH]; intros [|e es] [|s ss] idx gap k tail p L1 L2 R Ht Hk Hs Hf HM F; try discriminate.
  - cbn in *. assert (T : Forall (fun c => trivial c /\ c_drop c = false /\ c_fresh c = false) p).
    { destruct Ht as [-> | ->]; [inversion F; constructor|now apply fits_tail in F]. }
    destruct (params_trivial p k T) as (A & B & C). rewrite B, C. auto.
  - cbn [items_from] in R, F. rewrite rests_cons, item_of_rest in R. cbn [v1_loop]. cbn zeta.
    destruct (bit (ellipsis_mask m) idx) eqn:El; [discriminate|]. cbn in R.
    assert (F0 := Hf 0 ltac:(cbn; lia)). rewrite Nat.add_0_r in F0. cbn [nth] in F0. unfold fine_1 in F0.
    assert (Fr : forall j, j < length bs -> fine_1 m (S idx + j) (nth j bs 0%Z) (nth j es 0%Z)).
    { intros j Hj. specialize (Hf (S j) ltac:(cbn; lia)). replace (S idx + j) with (idx + S j) by lia. exact Hf. }
    inversion Hs as [|s' ss' Hs1 Hss]; subst s' ss' s. unfold item_of in F. rewrite El, no_new in F. cbn [app] in F.
    rewrite <- Hk. destruct (bit (shrink_axis_mask m) idx) eqn:Sh.
    + inversion F as [| |i s its d p' k' Nk Hp F' E1 E2| | |]; subst.
      destruct (IH es ss (S idx) gap (S k) tail p' ltac:(cbn in L1; lia) ltac:(cbn in L2; lia) R Ht ltac:(lia) Hss Fr ltac:(intros; apply HM; cbn; auto) F') as (A & B & C & D).
      cbn [add_squeeze add_param s_unsqueeze s_slice s_squeeze]. split; auto. split; [|split].
      * apply params_cons; auto. apply realise_at; auto. left. assert (Hd := HM _ (or_introl eq_refl)). cbn [c_dim] in Hd.
        destruct (Z.ltb_spec b (-1)), (Z.eqb_spec b (-1)); lia.
      * cbn. f_equal. exact C.
      * cbn. exact D.
    + inversion F as [| | |b' e' s' its d p' Hp _ F' E1 E2| |]; subst.
      destruct (IH es ss (S idx) gap (S k) tail p' ltac:(cbn in L1; lia) ltac:(cbn in L2; lia) R Ht ltac:(lia) Hss Fr ltac:(intros; apply HM; cbn; auto) F') as (A & B & C & D).
      cbn [add_squeeze add_param s_unsqueeze s_slice s_squeeze]. split; auto. split; [|split].
      * apply params_cons; auto. assert (Hd := HM _ (or_introl eq_refl)). cbn [c_dim] in Hd. apply realise_up; [lia| |].
        -- destruct (bit (begin_mask m) idx); auto.
        -- destruct (bit (end_mask m) idx) eqn:Em; auto. left. destruct (Z.ltb_spec b 0), (Z.eqb_spec e 0); cbn [andb]; auto.
           exfalso. apply F0; auto.
      * exact C.
      * exact D.
Qed.

Lemma v1_main : forall bs es ss idx tail p, length es = length bs -> length ss = length bs -> len = idx + length bs -> rank = idx + length p ->
  rests (items_from m idx bs es ss ++ tail) = 1 -> tail = [] \/ tail = [Rest] -> Forall (fun s => s = 1%Z) ss ->
  (forall j, j < length bs -> fine_1 m (idx + j) (nth j bs 0%Z) (nth j es 0%Z)) ->
  (forall c, In c p -> (Z.of_nat (c_dim c) <= M)%Z) ->
  fits anyP (items_from m idx bs es ss ++ tail) p ->
  let r := v1_loop m M rank len idx 0%Z bs es in
  s_unsqueeze r = [] /\ params_at idx (s_slice r) p /\ s_squeeze r = map Z.of_nat (pos c_drop idx p) /\ pos c_fresh idx p = [].
Proof.
  induction bs as [|b bs IH]; intros [|e es] [|s ss] idx tail p L1 L2 HL HR R Ht Hs Hf HM F; try discriminate.
  - apply (v1_after [] [] [] idx 0%Z idx tail p); auto. lia.
  - destruct Ht as [-> | ->].
    2: { apply (v1_after (b :: bs) (e :: es) (s :: ss) idx 0%Z idx [Rest] p); auto; [|lia]. rewrite rests_app in R. change (rests [Rest]) with 1 in R. lia. }
    rewrite app_nil_r in *. assert (R' := R). assert (F' := F). cbn [items_from] in R, F. rewrite rests_cons, item_of_rest in R. cbn [v1_loop]. cbn zeta.
    assert (Fr : forall j, j < length bs -> fine_1 m (S idx + j) (nth j bs 0%Z) (nth j es 0%Z)).
    { intros j Hj. specialize (Hf (S j) ltac:(cbn; lia)). replace (S idx + j) with (idx + S j) by lia. exact Hf. }
    assert (F0 := Hf 0 ltac:(cbn; lia)). rewrite Nat.add_0_r in F0. cbn [nth] in F0. unfold fine_1 in F0.
    inversion Hs as [|s' ss' Hs1 Hss]; subst s' ss' s. cbn in L1, L2.
    destruct (bit (ellipsis_mask m) idx) eqn:El.
    + unfold item_of in F. rewrite El in F. destruct (fits_rest_split _ _ _ F) as (t & p' & -> & T & F2).
      assert (Lp := proj2 (fits_length _ _ _ F2 ltac:(lia))). rewrite items_from_length in Lp by lia. rewrite app_length in HR. cbn [length] in HL.
      destruct (v1_after bs es ss (S idx) (Z.of_nat rank - Z.of_nat len) (idx + length t) [] p' ltac:(lia) ltac:(lia) ltac:(lia) (or_introl eq_refl) ltac:(lia) Hss Fr) as (A & B & C & D).
      { intros c Hc. apply HM, in_app_iff. auto. } { now rewrite app_nil_r. }
      split; auto. split; [now apply params_over|]. rewrite !pos_over by (try apply triv_drop; try apply triv_fresh; auto). auto.
    + cbn in R. unfold item_of in F. rewrite El, no_new in F. rewrite Z.add_0_r. cbn [length] in HL. destruct (bit (shrink_axis_mask m) idx) eqn:Sh.
      * inversion F as [| |i s its d p' k' Nk Hp F2 E1 E2| | |]; subst p i s its.
        destruct (IH es ss (S idx) [] p' ltac:(lia) ltac:(lia) ltac:(lia) ltac:(cbn in HR; lia) ltac:(now rewrite app_nil_r) (or_introl eq_refl) Hss Fr ltac:(intros; apply HM; cbn; auto) ltac:(now rewrite app_nil_r)) as (A & B & C & D).
        cbn [add_squeeze add_param s_unsqueeze s_slice s_squeeze]. split; auto. split; [|split].
        -- apply params_cons; auto. apply realise_at; auto. left. assert (Hd := HM _ (or_introl eq_refl)). cbn [c_dim] in Hd.
           destruct (Z.ltb_spec b (-1)), (Z.eqb_spec b (-1)); lia.
        -- cbn. f_equal. exact C.
        -- cbn. exact D.
      * inversion F as [| | |b' e' s' its d p' Hp _ F2 E1 E2| |]; subst p b' e' s' its.
        destruct (IH es ss (S idx) [] p' ltac:(lia) ltac:(lia) ltac:(lia) ltac:(cbn in HR; lia) ltac:(now rewrite app_nil_r) (or_introl eq_refl) Hss Fr ltac:(intros; apply HM; cbn; auto) ltac:(now rewrite app_nil_r)) as (A & B & C & D).
        cbn [add_squeeze add_param s_unsqueeze s_slice s_squeeze]. split; auto. split; [|split].
        -- apply params_cons; auto. assert (Hd := HM _ (or_introl eq_refl)). cbn [c_dim] in Hd. apply realise_up; [lia| |].
           ++ destruct (bit (begin_mask m) idx); auto.
           ++ destruct (bit (end_mask m) idx) eqn:Em; auto. left. destruct (Z.ltb_spec b 0), (Z.eqb_spec e 0); cbn [andb]; auto.
              exfalso. apply F0; auto.
        -- exact C.
        -- exact D.
Qed.
End V1.

Lemma pos_nil f : forall p k, pos f k p = [] -> forall c, In c p -> f c = false.
Proof. induction p as [|c p IH]; intros k H c' I; cbn in *; [tauto|]. destruct (f c) eqn:E; [discriminate|]. destruct I as [<-|I]; eauto. Qed.
Lemma with_rest_tail its : rests its <= 1 -> exists tail, (tail = [] \/ tail = [Rest]) /\ with_rest its = its ++ tail /\ rests (its ++ tail) = 1.
Proof.
  intro R. unfold with_rest. destruct (existsb is_rest its) eqn:E.
  - exists []. rewrite app_nil_r. split; auto. split; auto. assert (rests its <> 0) by (intro H; apply rests_0 in H; congruence). lia.
  - exists [Rest]. apply rests_0 in E. rewrite rests_app, E. auto.
Qed.

Lemma no_fresh_v1 m bs es ss : new_axis_mask m = 0%Z -> length es = length bs -> length ss = length bs -> ~ In New (items m bs es ss).
Proof.
  intros N _ _ I. unfold items in I. apply in_map_iff in I. destruct I as (i & H & _). unfold item_at in H. rewrite (no_new m N) in H.
  destruct (bit (ellipsis_mask m) i); [discriminate|]. destruct (bit (shrink_axis_mask m) i); discriminate.
Qed.
Lemma fits_no_fresh P its p : fits P its p -> ~ In New its -> forall c, In c p -> c_fresh c = false.
Proof. induction 1; intros N c' I; cbn in *; try tauto; try (destruct I as [<-|I]; [reflexivity|]); apply IHfits; tauto. Qed.
Lemma sieve_none : forall p l, (forall c, In c p -> c_fresh c = false) -> length l = length p -> sieve c_fresh p l = l.
Proof.
  induction p as [|c p IH]; intros [|x l] H L; try discriminate; auto. cbn. rewrite H by (cbn; auto). f_equal. apply IH; [intros; apply H; cbn; auto|]. cbn in L. lia.
Qed.

Theorem version_1_ok {A} m M bs es ss r (x y : tensor A) :
  version_1 m M (length (shape x)) bs es ss = Some r ->
  (forall i, i < length bs -> fine_1 m i (nth i bs 0%Z) (nth i es 0%Z)) ->
  (forall d, In d (shape x) -> (Z.of_nat d <= M)%Z) ->
  strided_slice m bs es ss x y ->
  forall y', onnx_slices (s_unsqueeze r) (s_slice r) (s_squeeze r) x y' <-> y' = y.
Proof.
  intros V Hf HM (L1 & L2 & R & f & Vw & Wx & Wy & G) y'. unfold version_1 in V. destruct (Z.eqb_spec (new_axis_mask m) 0) as [N|]; [|discriminate]. cbn [negb] in V.
  destruct (forallb _ ss) eqn:Fs; [|discriminate]. injection V as <-.
  destruct (view_plan _ _ _ _ Vw) as (p & F & OK & Ed & Eo & Ef). fold (rests (items m bs es ss)) in R.
  destruct (with_rest_tail _ R) as (tail & Ht & Et & R1). rewrite Et in F.
  assert (Fr : forall c, In c p -> c_fresh c = false).
  { apply (fits_no_fresh _ _ _ F). rewrite in_app_iff. intros [I|I]; [now apply (no_fresh_v1 m bs es ss) in I|]. destruct Ht as [-> | ->]; cbn in I; [tauto|]. destruct I as [I|[]]. discriminate. }
  rewrite (items_eq m bs es ss L1 L2) in *. 
  destruct (v1_main m M (length (shape x)) (length bs) N bs es ss 0 tail p) as (A1 & A2 & A3 & A4); auto.
  - rewrite Ed, sieve_none, map_length; auto. now rewrite map_length.
  - apply Forall_forall. intros s Hs. rewrite forallb_forall in Fs. now apply Z.eqb_eq, Fs.
  - intros c Hc. apply HM. rewrite Ed. apply dim_in_shape; auto.
  - rewrite onnx_slices_all by auto. rewrite A1, A3. rewrite <- (plan_ok p OK _ x y (params_at_0 _ _ A2) Wx Wy Ed Eo).
    + rewrite A4. reflexivity.
    + intros ix I. rewrite G by auto. now rewrite Ef.
Qed.
