(** One node, and the whole run, of the symbolic executor. *)
From Coq Require Import String List Arith ZArith Bool Lia.
From Verif Require Import Tensor FGraph OnnxSpec PushSpec NNSpec FoldModel TensorProofs FoldProofs FoldFunProofs ReshapeSpec ReshapeModel QdqProofs3 ReshapeProofs ReshapeProofs2 ReshapeRaw.
Import ListNotations.
Local Open Scope string_scope.
Local Open Scope list_scope.

Lemma get_ints_attr k at_ : get_ints k at_ = attr_ints k at_.
Proof. reflexivity. Qed.
Lemma get_int_attr k at_ d : match get_int k at_ with Some a => a | None => d end = attr_int k at_ d.
Proof. unfold get_int, attr_int. destruct (find _ at_) as [[? []]|]; reflexivity. Qed.
Lemma bind_inv {X Y} (o : option X) (f : X -> option Y) y : bind o f = Some y -> exists x, o = Some x /\ f x = Some y.
Proof. destruct o; intro H; [eauto|discriminate]. Qed.
Lemma scalar_vals a : vals (np_scalar a) = vals a.
Proof. unfold np_scalar. destruct a as [o [sh d]]. cbn [vals]. destruct sh; [|reflexivity]. destruct d as [|[] []]; reflexivity. Qed.
Lemma raws_spec v l m : sequence (map (fun e => match e with Raw z => Some z | Obj _ => None end) l) = Some m -> map (eeval v) l = m.
Proof.
  intro E. apply sequence_spec in E. revert m E. induction l as [|e l IH]; intros [|z m] E; try discriminate; auto. cbn [map] in *.
  injection E as E1 E2. destruct e; [|discriminate]. cbn [eeval]. f_equal; [congruence|auto].
Qed.
Lemma as_ints_spec v a l x : as_ints a = Some l -> x = tmap (eeval v) (vals a) -> forall l', vector x l' -> l' = l.
Proof.
  unfold as_ints, vector. destruct (shape (vals a)) as [|? [|? ?]]; try discriminate. intros E -> l' H. apply (raws_spec v) in E.
  apply (f_equal data) in H. cbn in H. congruence.
Qed.
Lemma as_ints_data v a l : as_ints a = Some l -> data (tmap (eeval v) (vals a)) = l.
Proof. unfold as_ints. destruct (shape (vals a)) as [|? [|? ?]]; try discriminate. apply raws_spec. Qed.

Section Step.
Variable opset : nat.
Variable cval : list (string * attr) -> option (tensor Z).
Variable cast : Z -> Z -> Z.
Variable v : nat -> Z.
(** the values xs of the names ins are those the results predict *)
Definition predicts (res : results) (ins : list string) (xs : list (tensor Z)) : Prop :=
  Forall2 (fun t x => forall a, lookup res t = Some a -> wf (vals a) /\ x = tmap (eeval v) (vals a)) ins xs.
Lemma input_spec n res xs k a : predicts res (f_in n) xs -> input n res k = Some a ->
  wf (vals a) /\ nth_error xs k = Some (tmap (eeval v) (vals a)).
Proof.
  unfold input, predicts. intros F E. destruct (nth_error (f_in n) k) as [t|] eqn:Et; [|discriminate]. destruct (String.eqb t ""); [discriminate|].
  revert k Et. induction F as [|t' x ins xs' H F IH]; intros k Et; [destruct k; discriminate|]. destruct k as [|k]; cbn in *.
  - injection Et as ->. apply H in E. destruct E as [W ->]. auto.
  - apply IH. auto.
Qed.
Lemma predicts_len res ins xs : predicts res ins xs -> length xs = length ins.
Proof. induction 1; cbn; congruence. Qed.

Lemma as_ints_opt n res xs k l x : predicts res (f_in n) xs -> bind (input n res k) as_ints = Some l -> nth_error xs k = Some x -> data x = l /\ forall l', vector x l' -> l' = l.
Proof.
  intros P E X. apply bind_inv in E. destruct E as (a & E & A). destruct (input_spec _ _ _ _ _ P E) as [_ E']. rewrite X in E'. injection E' as E'.
  split; [rewrite E'; now apply as_ints_data|]. intros l' H. eapply as_ints_spec; eauto.
Qed.
Lemma optional_spec n res xs k o : predicts res (f_in n) xs -> optional_ints n res k = Some o ->
  (nth_error xs k = None /\ o = None) \/ exists x l, nth_error xs k = Some x /\ o = Some l /\ data x = l /\ forall l', vector x l' -> l' = l.
Proof.
  intros P E. unfold optional_ints in E. assert (L := predicts_len _ _ _ P). destruct (Nat.ltb_spec k (length (f_in n))) as [H|H].
  - right. destruct (nth_error xs k) as [x|] eqn:X; [|apply nth_error_None in X; lia]. apply option_map_inv in E. destruct E as (l & E & ->).
    exists x, l. destruct (as_ints_opt _ _ _ _ _ _ P E X) as [A B]. auto.
  - left. split; [apply nth_error_None; lia|congruence].
Qed.

Lemma squeeze_unsqueeze_step b axes inp a y : wf (vals inp) -> compute_squeeze_unsqueeze b axes inp = Some a ->
  (b = false -> Forall (fun a => 0 <= a)%Z axes) ->
  (if b then unsqueeze_rel axes (tmap (eeval v) (vals inp)) y else squeeze_rel axes (tmap (eeval v) (vals inp)) y) ->
  wf (vals a) /\ y = tmap (eeval v) (vals a).
Proof.
  intros W E P R. unfold compute_squeeze_unsqueeze in E. assert (Wt := tmap_wf (eeval v) _ W).
  destruct b.
  - destruct (unsqueeze_shape (shape (vals inp)) axes) as [sh|] eqn:U; [|discriminate]. apply option_map_inv in E. destruct E as (z & E & ->). cbn [vals].
    split; [apply (np_reshape_spec _ _ _ W E)|]. eapply unsqueeze_ok; eauto. rewrite np_reshape_tmap, E. reflexivity.
  - apply option_map_inv in E. destruct E as (z & E & ->). cbn [vals]. split; [apply (np_reshape_spec _ _ _ W E)|].
    eapply (squeeze_ok _ axes); eauto. change (shape (tmap (eeval v) (vals inp))) with (shape (vals inp)). rewrite np_reshape_tmap, E. reflexivity.
Qed.
Lemma gather_step axis inp idx a y : wf (vals inp) -> wf (vals idx) -> compute_gather axis inp idx = Some a ->
  gather_axis_rel axis (tmap (eeval v) (vals inp)) (tmap (eeval v) (vals idx)) y -> wf (vals a) /\ y = tmap (eeval v) (vals a).
Proof.
  intros W Wi E R. unfold compute_gather in E. destruct (is_object idx); [discriminate|]. destruct (sequence _) as [l|] eqn:Q; [|discriminate].
  apply option_map_inv in E. destruct E as (z & E & ->). rewrite scalar_vals. cbn [vals]. apply (raws_spec v) in Q.
  assert (Ei : Tensor (shape (vals idx)) l = tmap (eeval v) (vals idx)) by (unfold tmap; congruence). rewrite Ei in E.
  assert (T := f_equal (option_map (tmap (eeval v))) E). rewrite <- np_take_tmap in T. cbn [option_map] in T.
  assert (G := take_ok _ _ _ _ (tmap_wf (eeval v) _ W) (tmap_wf (eeval v) _ Wi) T). split; [|exact (gather_fun _ _ _ _ _ R G)].
  unfold np_take in E. destruct (py_index _ axis); [|discriminate]. apply build_spec in E. apply E.
Qed.
Lemma mul_step a1 a2 a y : wf (vals a1) -> wf (vals a2) -> compute_mul a1 a2 = Some a ->
  elementwise_rel Z.mul (tmap (eeval v) (vals a1)) (tmap (eeval v) (vals a2)) y -> wf (vals a) /\ y = tmap (eeval v) (vals a).
Proof.
  intros W1 W2 E R. unfold compute_mul in E. apply option_map_inv in E. destruct E as (z & E & ->). rewrite scalar_vals. cbn [vals].
  assert (T := f_equal (option_map (tmap (eeval v))) E). rewrite <- (np_binary_tmap _ elt_mul Z.mul) in T by (apply eeval_mul). cbn [option_map] in T.
  split.
  - unfold np_binary in E. destruct (bcast_dims _ _); [|discriminate]. apply build_spec in E. apply E.
  - assert (F : fold_binary Z.mul (tmap (eeval v) (vals a1)) (tmap (eeval v) (vals a2)) = Some [tmap (eeval v) z]) by (unfold fold_binary; rewrite T; reflexivity).
    apply fold_binary_spec in F; try (now apply tmap_wf). destruct F as (z' & [=<-] & F). exact (elementwise_fun _ _ _ _ _ R F).
Qed.
Lemma np_prod_wf t axes keep z : wf t -> np_prod t axes keep = Some z -> wf z.
Proof.
  intros W N. destruct (prod_ok (fun _ => 0%Z) t axes keep z W N) as (ax & u & _ & _ & R & E). assert (wf (tmap (eeval (fun _ => 0%Z)) z)) as X.
  { destruct keep; [rewrite E; apply R|apply E]. } unfold wf in *. cbn [tmap shape data] in X. rewrite map_length in X. exact X.
Qed.
Lemma reduceprod_step axes k inp a y : wf (vals inp) -> compute_reduceprod axes k inp = Some a ->
  reduce_rel product axes (negb (k =? 0)%Z) (tmap (eeval v) (vals inp)) y -> wf (vals a) /\ y = tmap (eeval v) (vals a).
Proof.
  intros W E R. unfold compute_reduceprod in E. apply option_map_inv in E. destruct E as (z & E & ->). rewrite scalar_vals. cbn [vals].
  split; [eapply np_prod_wf; eauto|]. exact (reduce_fun _ _ _ _ _ _ R (prod_ok v _ _ _ _ W E)).
Qed.
Lemma slice_step starts ends axes steps axes' steps' inp a y : wf (vals inp) -> compute_slice starts ends axes steps inp = Some a ->
  axes' = match axes with Some l => l | None => map Z.of_nat (seq 0 (length starts)) end ->
  steps' = match steps with Some l => l | None => repeat 1%Z (length starts) end ->
  length ends = length starts -> length axes' = length starts -> length steps' = length starts ->
  (forall q s st a k, nth_error starts q = Some s -> nth_error steps' q = Some st -> nth_error axes' q = Some a ->
     norm_axis (length (shape (vals inp))) a = Some k -> (0 < st \/ - Z.of_nat (nth k (shape (vals inp)) 0%nat) <= s)%Z) ->
  slice_rel (combine axes' (combine (combine starts ends) steps')) (tmap (eeval v) (vals inp)) y -> wf (vals a) /\ y = tmap (eeval v) (vals a).
Proof.
  intros W E -> -> L1 L2 L3 Pl R. unfold compute_slice in E. set (axes' := match axes with Some l => l | None => _ end) in *. set (steps' := match steps with Some l => l | None => _ end) in *.
  destruct (set_slices _ _) as [sl|] eqn:Q; [|discriminate]. apply option_map_inv in E. destruct E as (z & E & ->). rewrite scalar_vals. cbn [vals].
  split.
  { unfold np_slice in E. destruct (sequence _); [|discriminate]. apply build_spec in E. apply E. }
  assert (T := f_equal (option_map (tmap (eeval v))) E). rewrite <- np_slice_tmap in T. cbn [option_map] in T.
  refine (slice_fun _ _ _ _ R _). destruct R as (_ & _ & _ & _ & ax & Na & Nd & _).
  eapply slice_ok; [now apply tmap_wf|exact Q|exact T|exact Na|exact Nd|].
  intros q k s e st Eq Ep. rewrite nth_error_map, combine_nth_error in Ep.
  destruct (nth_error axes' q) as [b|] eqn:Eb; [|discriminate]. rewrite !combine_nth_error in Ep.
  destruct (nth_error starts q) as [s'|] eqn:E1; [|discriminate]. destruct (nth_error ends q) as [e'|] eqn:E2; [|discriminate]. destruct (nth_error steps' q) as [st'|] eqn:E3; [|discriminate].
  cbn in Ep. injection Ep as -> -> ->. cbn [tmap shape] in *. eapply Pl; eauto.
  apply norm_axes_spec in Na. clear -Na Eq Eb L1 L2 L3.
  assert (Em : map fst (combine axes' (combine (combine starts ends) steps')) = axes').
  { assert (L : length axes' = length (combine (combine starts ends) steps')) by (rewrite !combine_length; lia). revert L. generalize (combine (combine starts ends) steps'). clear.
    induction axes' as [|x l IH]; intros [|y m] L; try discriminate; auto. cbn in *. f_equal. apply IH. lia. }
  rewrite Em in Na. clear -Na Eq Eb. revert q Eq Eb. induction Na as [|x k' l m H _ IH]; intros [|q] Eq Eb; try discriminate; cbn in *; [congruence|eauto].
Qed.
Lemma cast_step to inp a y : wf (vals inp) -> compute_cast cast to inp = Some a -> raw inp ->
  (is_object inp = true -> forall z, In z (data (tmap (eeval v) (vals inp))) -> cast (match to with Some t => t | None => 0%Z end) z = z) ->
  map_rel (cast (match to with Some t => t | None => 0%Z end)) (tmap (eeval v) (vals inp)) y -> wf (vals a) /\ y = tmap (eeval v) (vals a).
Proof.
  intros W E Ra Id R. unfold compute_cast in E. destruct (is_object inp) eqn:Ob.
  - injection E as <-. split; auto. eapply map_rel_fun; eauto. split; [now apply tmap_wf|]. split; [now apply tmap_wf|]. split; auto. intros ix _.
    destruct (get _ ix) as [z|] eqn:G; cbn; [|reflexivity]. rewrite Id; auto. eapply get_in; eauto.
  - destruct to as [t|]; [|discriminate]. injection E as <-. cbn [vals]. split; [now apply tmap_wf|]. eapply map_rel_fun; eauto. split; [now apply tmap_wf|].
    split; [now do 2 apply tmap_wf|]. split; [reflexivity|]. intros ix _. rewrite !get_tmap. destruct (get (vals inp) ix) as [e|] eqn:G; [|reflexivity].
    destruct (Ra Ob e (get_in _ _ _ G)) as [z ->]. reflexivity.
Qed.
Lemma concat_step axis inps a y : Forall (fun i => wf (vals i)) inps -> compute_concat axis inps = Some a ->
  concat_rel axis (map (fun i => tmap (eeval v) (vals i)) inps) y -> wf (vals a) /\ y = tmap (eeval v) (vals a).
Proof.
  intros W E R. unfold compute_concat in E. apply option_map_inv in E. destruct E as (z & E & ->). cbn [vals].
  assert (T := f_equal (option_map (tmap (eeval v))) E). rewrite <- np_concatenate_tmap in T. cbn [option_map] in T. rewrite map_map in T.
  split.
  - unfold np_concatenate in E. destruct (map vals inps) as [|t ts]; [discriminate|]. destruct (py_index _ axis); [|discriminate].
    destruct (forallb _ _); [|discriminate]. apply build_spec in E. apply E.
  - assert (F : fold_concat (map (fun i => tmap (eeval v) (vals i)) inps) axis = Some [tmap (eeval v) z]) by (unfold fold_concat; rewrite T; reflexivity).
    apply fold_concat_spec in F.
    + destruct F as (z' & [=<-] & F). exact (concat_fun _ _ _ _ R F).
    + intros t I. apply in_map_iff in I. destruct I as (i & <- & I). apply tmap_wf. rewrite Forall_forall in W. auto.
Qed.

Lemma one_input (x x' : tensor Z) : nth_error [x] 0 = Some x' -> x = x'.
Proof. cbn. congruence. Qed.
Lemma compute_node_ok n res xs a y (constants : Prop) : predicts res (f_in n) xs -> plain opset cast constants (f_op n) (f_attrs n) xs ->
  (forall k i, input n res k = Some i -> raw i) -> (constants -> forall k i, input n res k = Some i -> is_object i = false) ->
  compute_node opset cval cast n res = Some a -> shape_op opset cval cast (f_attrs n) (f_op n) xs y -> wf (vals a) /\ y = tmap (eeval v) (vals a).
Proof.
  intros P (P1 & P2 & P3 & P4) Ra Co E H. unfold compute_node in E. set (op := f_op n) in *. set (at_ := f_attrs n) in *.
  unfold opset_below in E. clearbody op. inversion H; subst; cbn [String.eqb orb Ascii.eqb Bool.eqb] in E.
  - (* Unsqueeze *) apply bind_inv in E. destruct E as (inp & Ei & E). destruct (input_spec _ _ _ _ _ P Ei) as [W X]. apply one_input in X. subst x.
    apply bind_inv in E. destruct E as (ax & Ea & E). destruct (Nat.ltb_spec opset 13); [|lia]. rewrite get_ints_attr in Ea. assert (ax = axes) by congruence. subst ax.
    eapply squeeze_unsqueeze_step in E; eauto. discriminate.
  - apply bind_inv in E. destruct E as (inp & Ei & E). destruct (input_spec _ _ _ _ _ P Ei) as [W X]. cbn in X. injection X as ->.
    apply bind_inv in E. destruct E as (ax & Ea & E). destruct (Nat.ltb_spec opset 13); [lia|].
    destruct (as_ints_opt _ _ _ _ _ _ P Ea (eq_refl : nth_error [_; a0] 1 = Some a0)) as [_ V]. rewrite (V _ H1) in *.
    eapply squeeze_unsqueeze_step in E; eauto. discriminate.
  - (* Squeeze *) apply bind_inv in E. destruct E as (inp & Ei & E). destruct (input_spec _ _ _ _ _ P Ei) as [W X]. apply one_input in X. subst x.
    apply bind_inv in E. destruct E as (ax & Ea & E). destruct (Nat.ltb_spec opset 13) as [L|]; [|lia]. rewrite get_ints_attr in Ea. assert (ax = axes) by congruence. subst ax.
    eapply squeeze_unsqueeze_step in E; eauto. intros _. specialize (P1 eq_refl). unfold axes_value in P1. apply Nat.ltb_lt in L. rewrite L, Ea in P1. exact P1.
  - apply bind_inv in E. destruct E as (inp & Ei & E). destruct (input_spec _ _ _ _ _ P Ei) as [W X]. cbn in X. injection X as ->.
    apply bind_inv in E. destruct E as (ax & Ea & E). destruct (Nat.ltb_spec opset 13) as [|L]; [lia|].
    destruct (as_ints_opt _ _ _ _ _ _ P Ea (eq_refl : nth_error [_; a0] 1 = Some a0)) as [D V]. rewrite (V _ H1) in *.
    eapply squeeze_unsqueeze_step in E; eauto. intros _. specialize (P1 eq_refl). unfold axes_value in P1. apply Nat.ltb_ge in L. rewrite L, D in P1. exact P1.
  - (* Gather *) apply bind_inv in E. destruct E as (inp & Ei & E). apply bind_inv in E. destruct E as (idx & Ej & E). rewrite get_int_attr in E.
    destruct (input_spec _ _ _ _ _ P Ei) as [W X]. destruct (input_spec _ _ _ _ _ P Ej) as [Wj Xj]. cbn in X, Xj. injection X as ->. injection Xj as ->.
    exact (gather_step _ _ _ _ _ W Wj E H0).
  - (* Mul *) apply bind_inv in E. destruct E as (inp & Ei & E). apply bind_inv in E. destruct E as (idx & Ej & E).
    destruct (input_spec _ _ _ _ _ P Ei) as [W X]. destruct (input_spec _ _ _ _ _ P Ej) as [Wj Xj]. cbn in X, Xj. injection X as ->. injection Xj as ->.
    exact (mul_step _ _ _ _ W Wj E H0).
  - (* ReduceProd *) apply bind_inv in E. destruct E as (inp & Ei & E). destruct (input_spec _ _ _ _ _ P Ei) as [W X]. apply one_input in X. subst x.
    apply bind_inv in E. destruct E as (ax & Ea & E). destruct (Nat.ltb_spec opset 18) as [L|]; [|lia]. rewrite get_ints_attr in Ea. assert (ax = axes) by congruence. subst ax.
    rewrite get_int_attr in E. specialize (P2 eq_refl). unfold axes_value in P2. apply Nat.ltb_lt in L. rewrite L, Ea in P2.
    unfold reduced in *. destruct axes as [|a1 axes]; [congruence|]. eapply reduceprod_step in E; eauto.
  - apply bind_inv in E. destruct E as (inp & Ei & E). destruct (input_spec _ _ _ _ _ P Ei) as [W X]. cbn in X. injection X as ->.
    apply bind_inv in E. destruct E as (ax & Ea & E). destruct (Nat.ltb_spec opset 18) as [|L]; [lia|].
    destruct (as_ints_opt _ _ _ _ _ _ P Ea (eq_refl : nth_error [_; a0] 1 = Some a0)) as [D V]. rewrite (V _ H1) in *.
    rewrite get_int_attr in E. specialize (P2 eq_refl). unfold axes_value in P2. apply Nat.ltb_ge in L. rewrite L, D in P2.
    unfold reduced in *. destruct ax as [|a1 ax]; [congruence|]. eapply reduceprod_step in E; eauto.
  - (* Slice *) apply bind_inv in E. destruct E as (inp & Ei & E). destruct (input_spec _ _ _ _ _ P Ei) as [W X]. cbn in X. injection X as ->.
    specialize (P4 eq_refl). destruct (Nat.ltb opset 10).
    + destruct H3 as (-> & As & Ae & Ax & Est). apply bind_inv in E. destruct E as (s & Es & E). apply bind_inv in E. destruct E as (e & Ee & E). rewrite get_ints_attr in *.
      assert (s = starts) by congruence. assert (e = ends) by congruence. subst s e.
      refine (slice_step _ _ _ _ axes steps _ _ _ W E _ Est H0 H1 H2 _ H4).
      * destruct Ax as [->|[-> ->]]; reflexivity.
      * intros q s st b k _ Eq. rewrite Est in Eq. apply nth_error_In, repeat_spec in Eq. lia.
    + destruct H3 as (s & e & opt & -> & Vs & Ve & O). apply bind_inv in E. destruct E as (s' & Es & E). apply bind_inv in E. destruct E as (e' & Ee & E).
      apply bind_inv in E. destruct E as (oa & Ea & E). apply bind_inv in E. destruct E as (ot & Et & E).
      destruct (as_ints_opt _ _ _ _ _ _ P Es (eq_refl : nth_error (_ :: s :: e :: opt) 1 = Some s)) as [Ds V1]. assert (Qs : s' = starts) by (symmetry; auto). rewrite Qs in *. clear Qs.
      destruct (as_ints_opt _ _ _ _ _ _ P Ee (eq_refl : nth_error (_ :: s :: e :: opt) 2 = Some e)) as [_ V2]. assert (Qe : e' = ends) by (symmetry; auto). rewrite Qe in *. clear Qe.
      destruct (optional_spec _ _ _ _ _ P Ea) as [[Q1 ->]|(xa & la & Q1 & -> & Da & Va)]; destruct (optional_spec _ _ _ _ _ P Et) as [[Q2 ->]|(xt & lt_ & Q2 & -> & Dt & Vt)];
        destruct opt as [|o1 [|o2 [|o3 opt]]]; cbn in Q1, Q2; try discriminate; try tauto.
      * destruct O as [Oa Ot]. refine (slice_step _ _ _ _ axes steps _ _ _ W E Oa Ot H0 H1 H2 _ H4). rewrite Ot. intros q z st b k _ Eq. apply nth_error_In, repeat_spec in Eq. lia.
      * destruct O as [O1 Ot]. injection Q1 as <-. apply Va in O1. refine (slice_step _ _ _ _ axes steps _ _ _ W E O1 Ot H0 H1 H2 _ H4). rewrite Ot. intros q z st b k _ Eq. apply nth_error_In, repeat_spec in Eq. lia.
      * destruct O as [O1 O2]. injection Q1 as <-. injection Q2 as <-. apply Va in O1. apply Vt in O2.
        refine (slice_step _ _ _ _ axes steps _ _ _ W E O1 O2 H0 H1 H2 _ H4). intros q z st b k G1 G2 G3 G4. apply (P4 q z st b k); [rewrite Ds|rewrite Dt, <- O2|rewrite Da, <- O1|]; auto.
  - (* Cast *) apply bind_inv in E. destruct E as (inp & Ei & E). destruct (input_spec _ _ _ _ _ P Ei) as [W X]. apply one_input in X. subst x.
    rewrite <- get_int_attr in P3, H0. refine (cast_step _ _ _ _ W E (Ra _ _ Ei) _ H0). intro Ob.
    destruct (P3 eq_refl) as [C|P3']; [rewrite (Co C _ _ Ei) in Ob; discriminate|]. intros z I. apply (P3' _ z (or_introl eq_refl) I).
  - (* Concat *) apply bind_inv in E. destruct E as (axis & Ea & E). apply bind_inv in E. destruct E as (inps & Es & E).
    assert (Ax : attr_int "axis" at_ 0 = axis) by (rewrite <- get_int_attr, Ea; reflexivity). rewrite Ax in H0. apply sequence_spec in Es.
    assert (Q : forall k i, nth_error inps k = Some i -> input n res k = Some i).
    { intros k i Ek. assert (Lk := f_equal (@length _) Es). rewrite !map_length, seq_length in Lk. assert (k < length (f_in n)) by (rewrite Lk; apply nth_error_Some; congruence).
      assert (X := f_equal (fun l => nth_error l k) Es). cbv beta in X. rewrite nth_error_map_seq in X by auto. rewrite nth_error_map, Ek in X. cbn in X. congruence. }
    assert (Hx : xs = map (fun i => tmap (eeval v) (vals i)) inps).
    { apply nth_error_ext. intro k. rewrite nth_error_map. destruct (nth_error inps k) as [i|] eqn:Ek.
      - apply (input_spec _ _ _ _ _ P (Q k i Ek)).
      - cbn. apply nth_error_None. apply nth_error_None in Ek. assert (Lk := f_equal (@length _) Es). rewrite !map_length, seq_length in Lk. rewrite (predicts_len _ _ _ P). lia. }
    rewrite Hx in H0. eapply concat_step in E; eauto. apply Forall_forall. intros i I. apply In_nth_error in I. destruct I as [k Ek]. apply (input_spec _ _ _ _ _ P (Q k i Ek)).
  - (* Const *) apply option_map_inv in E. destruct E as (t & E & ->). cbn [vals]. assert (t = y) by congruence. subst t. split; [now apply tmap_wf|].
    unfold tmap. cbn [shape data]. rewrite map_map. cbn [eeval]. rewrite map_id. destruct y; reflexivity.
Qed.
End Step.
