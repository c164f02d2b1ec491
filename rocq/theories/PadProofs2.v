(** Pad: the expressions of the handler. *)
From Coq Require Import List Arith ZArith Bool Lia.
From Verif Require Import Tensor FoldModel OnnxSpec TensorProofs TOps TOpsProofs TOpsProofs2 SpaceModel SpaceProofs2 PushProofs RollProofs IdxProofs PadModel PadSpec PadProofs.
Import ListNotations.
Local Open Scope list_scope.

Definition zrow (r : nat * nat) : Z * Z := (Z.of_nat (fst r), Z.of_nat (snd r)).
Definition zrows (rows : list (nat * nat)) : list (Z * Z) := map zrow rows.
Lemma flat_zrows rows : flat_pads (zrows rows) = map Z.of_nat (map fst rows ++ map snd rows).
Proof. unfold flat_pads, zrows. rewrite map_app, !map_map. reflexivity. Qed.

Section Eval.
Context {A : Type} (zero : A) (opset : nat) (x : tensor A) (rows : list (nat * nat)) (others : list (value A)).
Let paddings := Tensor [length rows; 2] (flat2 (zrows rows)).
Let env := D x :: I paddings :: others.
Notation ev := (eval zero opset env).
Let P := map Z.of_nat (map fst rows ++ map snd rows).

Lemma ev_dyn_pads : ev dyn_pads = Some (I (tvec P)).
Proof.
  unfold dyn_pads. assert (E1 : ev (Op (Transpose None) [Op Cast [Inp 1]]) = Some (I (Tensor [2; length (zrows rows)] (map fst (zrows rows) ++ map snd (zrows rows))))).
  { assert (Ec : ev (Op Cast [Inp 1]) = Some (I paddings)) by reflexivity. rewrite (ev1 _ _ _ _ _ _ Ec). cbn [apply lift]. unfold paddings.
    replace (length rows) with (length (zrows rows)) by (apply map_length). now rewrite transpose_rows. }
  rewrite (ev2 _ _ _ _ _ _ _ _ E1 (ev_vec zero opset env [(-1)%Z])). cbn [apply ints]. rewrite as_vec_tvec. cbn [obind lift].
  rewrite reshape_flat.
  - cbn [option_map data]. do 3 f_equal. apply (flat_zrows rows).
  - unfold wf. cbn [shape data]. rewrite app_length, !map_length, !size_cons. change (size []) with 1. lia.
Qed.
(** the constant paddings, if they are known to the converter *)
Variable pads : option (list (Z * Z)).
Hypothesis Hpads : pads = Some (zrows rows) \/ pads = None.
Notation cp := (option_map flat_pads pads).
Lemma ev_reflect e e' t : ev e' = Some (D t) -> pad_node opset true false cp None e' = Some e -> ev e = option_map D (f_pad_reflect P t).
Proof.
  intros E H. unfold pad_node in H. destruct (Nat.ltb opset 11) eqn:O.
  - destruct Hpads as [-> | ->]; [|discriminate]. cbn [option_map] in H. injection H as <-. rewrite (ev1 _ _ _ _ _ _ E). cbn [apply]. rewrite O. cbn [lift]. now rewrite flat_zrows.
  - injection H as <-. assert (Ep : ev (match cp with Some p => vec p | None => dyn_pads end) = Some (I (tvec P))).
    { destruct Hpads as [-> | ->]; [|apply ev_dyn_pads]. cbn [option_map]. rewrite flat_zrows. apply ev_vec. }
    rewrite (ev2 _ _ _ _ _ _ _ _ E Ep). cbn [apply]. rewrite O. cbn [ints]. rewrite as_vec_tvec. reflexivity.
Qed.
Lemma ev_constant e has_value value v : pad_node opset false has_value cp value (Inp 0) = Some e ->
  (if has_value then value = Some (Tensor [] [v]) \/ value = None else v = zero) ->
  (has_value = true -> nth_error others 0 = Some (D (Tensor [] [v]))) ->
  ev e = option_map D (f_pad v P x).
Proof.
  intros H Hv Ho. assert (E : ev (Inp 0) = Some (D x)) by reflexivity. unfold pad_node in H. destruct (Nat.ltb opset 11) eqn:O.
  - destruct Hpads as [-> | ->]; [|discriminate]. cbn [option_map] in H. rewrite flat_zrows in H. fold P in H. destruct has_value.
    + destruct Hv as [-> | ->]; [|discriminate]. injection H as <-. assert (Ec : ev (CD (Tensor [] [v])) = Some (D (Tensor [] [v]))) by reflexivity.
      rewrite (ev2 _ _ _ _ _ _ _ _ E Ec). cbn [apply shape data]. now rewrite O.
    + injection H as <-. subst v. rewrite (ev1 _ _ _ _ _ _ E). cbn [apply]. now rewrite O.
  - injection H as <-. assert (Ep : ev (match cp with Some p => vec p | None => dyn_pads end) = Some (I (tvec P))).
    { destruct Hpads as [-> | ->]; [|apply ev_dyn_pads]. cbn [option_map]. rewrite flat_zrows. apply ev_vec. }
    destruct has_value.
    + assert (E2 : ev (Inp 2) = Some (D (Tensor [] [v]))) by (apply (Ho eq_refl)). rewrite (ev3 _ _ _ _ _ _ _ _ _ _ E Ep E2). cbn [apply shape data]. rewrite O. cbn [ints]. now rewrite as_vec_tvec.
    + subst v. rewrite (ev2 _ _ _ _ _ _ _ _ E Ep). cbn [apply]. rewrite O. cbn [ints]. now rewrite as_vec_tvec.
Qed.

(** ** the symmetric mode *)
Hypothesis W : wf x.
Hypothesis Lr : length rows = length (shape x).
Notation r := (length (shape x)).
Notation b_ k := (nth k (map fst rows) 0).
Notation a_ k := (nth k (map snd rows) 0).
Notation d_ k := (nth k (shape x) 0).
Hypothesis Ok : forall k, k < r -> b_ k <= d_ k /\ a_ k <= d_ k.
Let axes := non_zero_axes r cp.
Let inc k := if existsb (Nat.eqb k) axes then 1 else 0.
Let incs := map inc (seq 0 r).
Lemma P_nth k : k < r -> nth k P 0%Z = Z.of_nat (b_ k) /\ nth (k + r) P 0%Z = Z.of_nat (a_ k).
Proof.
  intro H. unfold P. change 0%Z with (Z.of_nat 0). rewrite !map_nth. split; f_equal.
  - rewrite app_nth1 by (rewrite map_length; lia). reflexivity.
  - rewrite app_nth2 by (rewrite map_length; lia). f_equal. rewrite map_length. lia.
Qed.
Lemma axes_lt k : In k axes -> k < r.
Proof. unfold axes, non_zero_axes. intro H. destruct cp; [apply filter_In in H; destruct H as [H _]|]; apply in_seq in H; lia. Qed.
Lemma axes_not k : k < r -> ~ In k axes -> b_ k = 0 /\ a_ k = 0.
Proof.
  intros H N. unfold axes, non_zero_axes in N. destruct Hpads as [-> | ->]; cbn [option_map] in N.
  - rewrite flat_zrows in N. fold P in N. rewrite filter_In in N. destruct (P_nth k H) as [E1 E2]. rewrite E1, E2 in N.
    destruct (Z.eqb_spec (Z.of_nat (b_ k)) 0); [destruct (Z.eqb_spec (Z.of_nat (a_ k)) 0)|]; [lia| |]; exfalso; apply N; (split; [apply in_seq; lia|reflexivity]).
  - exfalso. apply N. apply in_seq. lia.
Qed.
Lemma axes_nodup : NoDup axes.
Proof. unfold axes, non_zero_axes. destruct cp; [apply NoDup_filter|]; apply seq_NoDup. Qed.
Lemma inc_in k : In k axes -> inc k = 1.
Proof. intro H. unfold inc. replace (existsb (Nat.eqb k) axes) with true; auto. symmetry. apply existsb_exists. exists k. split; auto. apply Nat.eqb_refl. Qed.
Lemma existsb_out k l : ~ In k l -> existsb (Nat.eqb k) l = false.
Proof. intro N. destruct (existsb (Nat.eqb k) l) eqn:E; auto. apply existsb_exists in E. destruct E as (j & Hj & E). apply Nat.eqb_eq in E. subst j. contradiction. Qed.
Lemma existsb_in k l : In k l -> existsb (Nat.eqb k) l = true.
Proof. intro N. apply existsb_exists. exists k. split; auto. apply Nat.eqb_refl. Qed.
Lemma inc_out k : ~ In k axes -> inc k = 0.
Proof. intro N. unfold inc. now rewrite existsb_out. Qed.

Lemma padded_inp_ok : exists t, ev (padded_inp opset r axes) = Some (D t) /\ wf t /\ length (shape t) = r /\ (forall k, k < r -> nth k (shape t) 0 = d_ k + 2 * inc k) /\
  forall ix, inb ix (shape t) -> get t ix = match pad_src (shape x) incs ix with Some jx => get x jx | None => Some zero end.
Proof.
  assert (Li : length incs = r) by (unfold incs; now rewrite map_length, seq_length).
  destruct (pad_spec zero incs incs x W Li Li) as (t & Dt & Wt & St & Gt). exists t. split.
  - assert (E : inc_pads r axes = map Z.of_nat (incs ++ incs)).
    { unfold inc_pads. cbv zeta. rewrite map_app. unfold incs. rewrite map_map. unfold inc. f_equal; apply map_ext; intro k; destruct (existsb (Nat.eqb k) axes); reflexivity. }
    unfold padded_inp. rewrite E. assert (E0 : ev (Inp 0) = Some (D x)) by reflexivity. destruct (Nat.ltb opset 11) eqn:O.
    + rewrite (ev1 _ _ _ _ _ _ E0). cbn [apply]. rewrite O, Dt. reflexivity.
    + rewrite (ev2 _ _ _ _ _ _ _ _ E0 (ev_vec zero opset env _)). cbn [apply]. rewrite O. cbn [ints]. rewrite as_vec_tvec. cbn [obind]. now rewrite Dt.
  - split; auto. assert (L2 : length (addix (shape x) incs) = r) by (now rewrite addix_length). split; [rewrite St, addix_length; lia|]. split; auto. intros k Hk. rewrite St, !addix_nth by lia.
    unfold incs. rewrite nth_map_seq by auto. lia.
Qed.

Let src S ix := map (fun k => if existsb (Nat.eqb k) S then keepf (b_ k) (d_ k) (nth k ix 0) else nth k ix 0) (seq 0 r).
Let shp S := map (fun k => b_ k + d_ k + a_ k + (if existsb (Nat.eqb k) S then 0 else 2 * inc k)) (seq 0 r).
Lemma shp_len S : length (shp S) = r. Proof. unfold shp. now rewrite map_length, seq_length. Qed.

Section Loop.
Variables (padded : expr A) (R : tensor A).
Hypothesis ER : ev padded = Some (D R).
Hypothesis SR : shape R = shp [].
Lemma ev_mask k : 9 <= opset -> In k axes -> ev (Op ScatterElements [Op (ConstantOfShape true) [Op (Split 0 r k) [Op Shape [padded]]]; to_remove r cp k; CB (Tensor [2] [false; false])]) =
  Some (B (tvec (mask (b_ k) (d_ k) (a_ k)))).
Proof.
  intros O Hk. assert (Kr := axes_lt k Hk). assert (O9 : Nat.leb 9 opset = true) by (apply Nat.leb_le; lia).
  assert (E1 : ev (Op (Split 0 r k) [Op Shape [padded]]) = Some (I (tvec [Z.of_nat (b_ k + (d_ k + 2) + a_ k)]))).
  { rewrite (ev1 _ _ _ _ _ _ (ev1 zero opset env Shape padded _ ER)). cbn [apply]. change (neg_axis opset 0) with false. cbv iota. cbn [lift dims]. rewrite zvec_tvec.
    assert (Ls : length (map Z.of_nat (shape R)) = r) by (now rewrite map_length, SR, shp_len).
    destruct (split_vec (map Z.of_nat (shape R)) k ltac:(lia)) as (v & Hv & Hs). rewrite Ls in Hs. rewrite Hs. cbn [option_map].
    assert (Q : v = Z.of_nat (b_ k + (d_ k + 2) + a_ k)); [|now rewrite Q].
    apply (nth_error_nth _ _ 0%Z) in Hv. rewrite <- Hv. change 0%Z with (Z.of_nat 0). rewrite map_nth. f_equal. rewrite SR. unfold shp. rewrite nth_map_seq by auto. cbn [existsb]. rewrite inc_in by auto. lia. }
  assert (E2 : ev (Op (ConstantOfShape true) [Op (Split 0 r k) [Op Shape [padded]]]) = Some (B (tvec (repeat true (b_ k + (d_ k + 2) + a_ k))))).
  { rewrite (ev1 _ _ _ _ _ _ E1). cbn [apply ints]. rewrite as_vec_tvec. cbn [obind]. rewrite O9. cbn [forallb andb]. rewrite (proj2 (Z.leb_le 0 _)) by lia. cbn [andb map]. rewrite Nat2Z.id.
    unfold tvec. rewrite repeat_length. rewrite size_cons. change (size []) with 1. rewrite Nat.mul_1_r. reflexivity. }
  assert (E3 : ev (to_remove r cp k) = Some (I (tvec [Z.of_nat (b_ k); (-1 - Z.of_nat (a_ k))%Z]))).
  { destruct (P_nth k Kr) as [P1 P2]. unfold to_remove. destruct Hpads as [-> | ->]; cbn [option_map].
    - rewrite flat_zrows. fold P. rewrite P1, P2. apply ev_vec.
    - assert (Eg : ev (Op (Gather 0) [dyn_pads; vec [Z.of_nat k; Z.of_nat (k + r)]]) = Some (I (tvec [Z.of_nat (b_ k); Z.of_nat (a_ k)]))).
      { rewrite (ev2 _ _ _ _ _ _ _ _ ev_dyn_pads (ev_vec zero opset env _)). cbn [apply lift]. change [Z.of_nat k; Z.of_nat (k + r)] with (map Z.of_nat [k; k + r]).
        change (tvec (map Z.of_nat [k; k + r])) with (zvec (map Z.of_nat [k; k + r])). rewrite (gather_vec 0%Z).
        - cbn [map option_map]. now rewrite P1, P2.
        - assert (LP : length P = r + r) by (unfold P; rewrite map_length, app_length, !map_length; lia). repeat constructor; lia. }
      assert (Em := ev2 zero opset env Mul _ _ _ _ Eg (ev_vec zero opset env [1%Z; (-1)%Z])). cbn [apply] in Em. rewrite binary_vec in Em by reflexivity. cbn [option_map zip2] in Em.
      rewrite (ev2 zero opset env Sub _ _ _ _ Em (ev_vec zero opset env [0%Z; 1%Z])). cbn [apply]. rewrite binary_vec by reflexivity. cbn [option_map zip2]. do 3 f_equal. repeat (f_equal; try lia). }
  assert (E4 : ev (CB (Tensor [2] [false; false])) = Some (B (tvec [false; false]))) by reflexivity.
  rewrite (ev3 _ _ _ _ _ _ _ _ _ _ E2 E3 E4). cbn [apply]. rewrite O9. unfold f_scatter. rewrite !as_vec_tvec. rewrite mask_scatter. cbn [option_map]. unfold tvec. cbn [shape].
  do 3 f_equal. f_equal. rewrite repeat_length. unfold mask. rewrite app_length. cbn [length]. rewrite app_length. cbn [length]. rewrite !repeat_length. lia.
Qed.
Lemma step_ok k S output t : 9 <= opset -> In k axes -> ~ In k S -> ev output = Some (D t) -> wf t -> shape t = shp S ->
  exists t', ev (remove_step r cp padded output k) = Some (D t') /\ wf t' /\ shape t' = shp (S ++ [k]) /\
    forall ix, inb ix (shp (S ++ [k])) -> get t' ix = get t (set_dim k (keepf (b_ k) (d_ k) (nth k ix 0)) ix).
Proof.
  intros O Hk N E Wt St. assert (Kr := axes_lt k Hk). unfold remove_step. cbv zeta. rewrite (ev2 _ _ _ _ _ _ _ _ E (ev_mask k O Hk)). cbn [apply].
  replace (Nat.leb 9 opset) with true by (symmetry; apply Nat.leb_le; lia). rewrite as_vec_tvec. cbn [obind lift]. unfold f_compress.
  assert (Lm : length (mask (b_ k) (d_ k) (a_ k)) = b_ k + d_ k + a_ k + 2) by (unfold mask; rewrite app_length; cbn [length]; rewrite app_length; cbn [length]; rewrite !repeat_length; lia).
  assert (Nk : nth k (shape t) 0 = b_ k + d_ k + a_ k + 2) by (rewrite St; unfold shp; rewrite nth_map_seq by auto; rewrite existsb_out, inc_in by auto; lia).
  rewrite Lm, Nk, Nat.leb_refl. rewrite (proj2 (Nat.ltb_lt k (length (shape t)))) by (rewrite St, shp_len; auto). cbn [andb]. rewrite mask_keep, map_length, seq_length.
  assert (Sh : set_dim k (b_ k + d_ k + a_ k) (shape t) = shp (S ++ [k])).
  { apply list_nth_ext; [now rewrite set_dim_len, St, !shp_len|]. intro j. rewrite set_dim_len, St, shp_len. intro Hj. rewrite set_dim_nth by (rewrite shp_len; auto).
    unfold shp. rewrite !nth_map_seq by auto. rewrite existsb_app. cbn [existsb]. destruct (Nat.eqb_spec j k) as [->|Nj].
    - cbn [orb]. rewrite orb_true_r. lia.
    - cbn [orb]. rewrite !orb_false_r. reflexivity. }
  rewrite Sh.
  assert (Q : forall ix, inb ix (shp (S ++ [k])) -> nth (nth k ix 0) (map (keepf (b_ k) (d_ k)) (seq 0 (b_ k + d_ k + a_ k))) 0 = keepf (b_ k) (d_ k) (nth k ix 0) /\ nth k ix 0 < b_ k + d_ k + a_ k).
  { intros ix Hi. apply inb_nth_iff in Hi. destruct Hi as [_ Hi]. specialize (Hi k). rewrite shp_len in Hi. specialize (Hi Kr). unfold shp in Hi. rewrite nth_map_seq in Hi by auto.
    rewrite existsb_in in Hi by (apply in_or_app; right; now left). rewrite Nat.add_0_r in Hi. split; auto. now apply nth_map_seq. }
  destruct (build_ex (shp (S ++ [k])) (fun ix => get t (set_dim k (nth (nth k ix 0) (map (keepf (b_ k) (d_ k)) (seq 0 (b_ k + d_ k + a_ k))) 0) ix))) as (t' & B' & S' & W' & G').
  - intros ix Hi. destruct (Q ix Hi) as [-> Hlt]. apply get_some; auto. apply inb_nth_iff in Hi. destruct Hi as [Li Hi]. rewrite shp_len in *.
    apply inb_nth_iff. rewrite set_dim_len, St, shp_len. split; auto. intros j Hj. rewrite set_dim_nth by lia. specialize (Hi j Hj). rewrite <- Sh in Hi. rewrite set_dim_nth in Hi by (rewrite St, shp_len; auto). rewrite St in Hi.
    destruct (Nat.eqb j k) eqn:Ej; [|exact Hi]. apply Nat.eqb_eq in Ej. rewrite Ej, <- St, Nk. unfold keepf. destruct (Nat.ltb _ _); [lia|]. destruct (Nat.ltb _ _); lia.
  - exists t'. rewrite B'. split; auto. split; auto. split; auto. intros ix Hi. rewrite G' by auto. now destruct (Q ix Hi) as [-> _].
Qed.
Hypothesis WR : wf R.
Lemma loop_ok : 9 <= opset -> forall todo S output t, NoDup (S ++ todo) -> (forall k, In k todo -> In k axes) -> ev output = Some (D t) -> wf t -> shape t = shp S ->
  (forall ix, inb ix (shp S) -> get t ix = get R (src S ix)) ->
  exists t', ev (fold_left (remove_step r cp padded) todo output) = Some (D t') /\ wf t' /\ shape t' = shp (S ++ todo) /\
    forall ix, inb ix (shp (S ++ todo)) -> get t' ix = get R (src (S ++ todo) ix).
Proof.
  intro O. induction todo as [|k todo IH]; intros S output t ND Ha E Wt St Gt.
  - exists t. rewrite app_nil_r. auto.
  - assert (N : ~ In k S) by (intro H; apply NoDup_remove_2 in ND; apply ND; apply in_or_app; now left).
    assert (Kr := axes_lt k (Ha k (or_introl eq_refl))).
    destruct (step_ok k S output t O (Ha k (or_introl eq_refl)) N E Wt St) as (t1 & E1 & W1 & S1 & G1).
    cbn [fold_left]. replace (S ++ k :: todo) with ((S ++ [k]) ++ todo) in * by (now rewrite <- app_assoc). apply (IH (S ++ [k]) _ t1); auto; [intros; apply Ha; now right|].
    intros ix Hi. rewrite G1 by auto. assert (Hi' := Hi). apply inb_nth_iff in Hi'. destruct Hi' as [Li Hi']. rewrite shp_len in *. rewrite Gt.
    + f_equal. unfold src. apply map_ext_in. intros j Hj. apply in_seq in Hj. rewrite set_dim_nth by lia. rewrite existsb_app. cbn [existsb]. destruct (Nat.eqb_spec j k) as [->|Nj].
      * rewrite existsb_out by auto. reflexivity.
      * cbn [orb]. rewrite orb_false_r. reflexivity.
    + apply inb_nth_iff. rewrite set_dim_len, shp_len. split; auto. intros j Hj. rewrite set_dim_nth by lia. specialize (Hi' j Hj). unfold shp in *. rewrite nth_map_seq in * by auto. rewrite existsb_app in Hi'. cbn [existsb] in Hi'.
      destruct (Nat.eqb j k) eqn:Ej.
      * apply Nat.eqb_eq in Ej. rewrite Ej in *. rewrite existsb_out by auto. cbn [orb] in Hi'. rewrite orb_true_r in Hi'. rewrite (inc_in k) by (apply Ha; now left). unfold keepf. destruct (Nat.ltb _ _); [lia|]. destruct (Nat.ltb _ _); lia.
      * cbn [orb] in Hi'. rewrite orb_false_r in Hi'. exact Hi'.
Qed.
End Loop.

Lemma symmetric_ok v y e : tf_pad Symmetric rows v x = Some y -> symmetric opset (Some r) cp = Some e -> ev e = Some (D y).
Proof.
  intros TF H. unfold symmetric in H. destruct (Nat.ltb opset 9) eqn:O; [discriminate|]. apply Nat.ltb_ge in O. fold axes in H. cbv zeta in H.
  destruct (pad_node opset true false cp None (padded_inp opset r axes)) as [padded|] eqn:Ep; [|discriminate]. injection H as <-.
  destruct padded_inp_ok as (t0 & E0 & W0 & L0 & S0 & G0).
  assert (ER := ev_reflect _ _ _ E0 Ep).
  assert (Lb : length (map fst rows) = r) by (rewrite map_length; lia). assert (La : length (map snd rows) = r) by (rewrite map_length; lia).
  destruct (reflect_spec (map fst rows) (map snd rows) t0 W0) as (R & DR & WR & SR & GR); try lia.
  { intros k Hk. rewrite L0 in Hk. rewrite S0 by auto. destruct (Ok k Hk) as [H1 H2]. destruct (in_dec Nat.eq_dec k axes) as [I|N].
    - rewrite inc_in by auto. lia.
    - destruct (axes_not k Hk N). lia. }
  fold P in DR. rewrite DR in ER. cbn [option_map] in ER.
  assert (SR' : shape R = shp []).
  { apply list_nth_ext; [rewrite SR, shp_len, addix_length; rewrite ?addix_length; lia|]. intros j Hj. rewrite SR in *. rewrite addix_length in Hj by (rewrite addix_length; lia).
    rewrite !addix_nth by (rewrite ?addix_length; lia). rewrite S0 by lia. unfold shp. rewrite nth_map_seq by lia. cbn [existsb]. lia. }
  destruct (loop_ok padded R ER SR' O axes [] padded R) as (t' & E' & W' & S' & G'); auto.
  { exact axes_nodup. }
  { intros ix Hi. f_equal. unfold src. cbn [existsb]. apply list_as_map. apply inb_length in Hi. now rewrite shp_len in Hi. }
  rewrite E'. do 2 f_equal. cbn [app] in *. unfold tf_pad in TF. destruct (_ && _) eqn:C in TF; [|discriminate]. destruct (build_spec _ _ _ TF) as (Sy & Wy & Gy).
  assert (Sh : shp axes = padded_shape (shape x) rows).
  { rewrite padded_shape_is by auto. apply list_nth_ext; [rewrite shp_len, addix_length; rewrite ?addix_length; lia|]. rewrite shp_len. intros j Hj. unfold shp. rewrite nth_map_seq by auto.
    rewrite !addix_nth by (rewrite ?addix_length; lia). destruct (in_dec Nat.eq_dec j axes) as [I|N]; [rewrite existsb_in by auto; lia|rewrite existsb_out, inc_out by auto; lia]. }
  apply tensor_ext; auto; [congruence|]. rewrite S'. intros ix Hi. rewrite G' by auto. rewrite Gy by congruence.
  assert (Li := inb_length _ _ Hi). rewrite shp_len in Li. assert (Hb : forall k, k < r -> nth k ix 0 < b_ k + d_ k + a_ k).
  { intros k Hk. apply inb_nth_iff in Hi. destruct Hi as [_ Hi]. specialize (Hi k). rewrite shp_len in Hi. specialize (Hi Hk). unfold shp in Hi. rewrite nth_map_seq in Hi by auto.
    destruct (in_dec Nat.eq_dec k axes) as [I|N]; [rewrite existsb_in in Hi by auto; lia|rewrite existsb_out, inc_out in Hi by auto; lia]. }
  assert (Ls : length (src axes ix) = r) by (unfold src; now rewrite map_length, seq_length).
  assert (Ns : forall k, k < r -> nth k (src axes ix) 0 < b_ k + (d_ k + 2 * inc k) + a_ k /\ pad_source Symmetric (d_ k) (b_ k) (nth k ix 0) = Some (mirror (d_ k + 2 * inc k) (b_ k) (nth k (src axes ix) 0) - inc k) /\
     inc k <= mirror (d_ k + 2 * inc k) (b_ k) (nth k (src axes ix) 0) /\ mirror (d_ k + 2 * inc k) (b_ k) (nth k (src axes ix) 0) - inc k < d_ k).
  { intros k Hk. specialize (Hb k Hk). destruct (Ok k Hk) as [O1 O2]. unfold src. rewrite nth_map_seq by auto. set (i := nth k ix 0) in *. set (b := b_ k) in *. set (d := d_ k) in *. set (a := a_ k) in *.
    destruct (in_dec Nat.eq_dec k axes) as [Ik|N].
    - rewrite existsb_in, inc_in by auto. unfold keepf, pad_source, mirror. cbv zeta.
      destruct (Nat.ltb_spec i b).
      + rewrite (proj2 (Nat.leb_gt b i)) by lia. cbn [andb]. destruct (Z.ltb_spec (Z.of_nat i - Z.of_nat b) 0); [|lia]. repeat split; try lia. f_equal. lia.
      + rewrite (proj2 (Nat.leb_le b i)) by lia. cbn [andb]. destruct (Nat.ltb_spec i (b + d)).
        * rewrite (proj2 (Nat.ltb_lt (i - b) d)) by lia. destruct (Z.ltb_spec (Z.of_nat (i + 1) - Z.of_nat b) 0); [lia|]. destruct (Z.ltb_spec (Z.of_nat (i + 1) - Z.of_nat b) (Z.of_nat (d + 2 * 1))); [|lia]. repeat split; try lia. f_equal. lia.
        * rewrite (proj2 (Nat.ltb_ge (i - b) d)) by lia. destruct (Z.ltb_spec (Z.of_nat (i + 2) - Z.of_nat b) 0); [lia|]. destruct (Z.ltb_spec (Z.of_nat (i + 2) - Z.of_nat b) (Z.of_nat (d + 2 * 1))); [lia|]. repeat split; try lia. f_equal. lia.
    - destruct (axes_not k Hk N) as [Eb Ea]. fold b in Eb. fold a in Ea. rewrite existsb_out, inc_out by auto. unfold pad_source, mirror. cbv zeta. rewrite Eb in *.
      cbn [Nat.leb]. rewrite (proj2 (Nat.ltb_lt (i - 0) d)) by lia. cbn [andb]. destruct (Z.ltb_spec (Z.of_nat i - Z.of_nat 0) 0); [lia|]. destruct (Z.ltb_spec (Z.of_nat i - Z.of_nat 0) (Z.of_nat (d + 2 * 0))); [|lia]. repeat split; try lia. f_equal. lia. }
  assert (I2 : inb (src axes ix) (shape R)).
  { apply inb_nth_iff. rewrite SR', shp_len. split; auto. intros k Hk. destruct (Ns k Hk) as [N1 _]. unfold shp. rewrite nth_map_seq by auto. cbn [existsb]. lia. }
  rewrite GR by auto. set (m := mirror_ix (shape t0) (map fst rows) (src axes ix)).
  assert (Lm : length m = r) by (unfold m; rewrite mirror_ix_len; lia).
  assert (Nm : forall k, k < r -> nth k m 0 = mirror (d_ k + 2 * inc k) (b_ k) (nth k (src axes ix) 0)) by (intros k Hk; unfold m; rewrite mirror_ix_nth by lia; now rewrite S0).
  assert (Im : inb m (shape t0)).
  { apply inb_nth_iff. split; [lia|]. intros k Hk. rewrite L0 in Hk. rewrite S0, Nm by auto. destruct (Ns k Hk) as (_ & _ & N3 & N4). lia. }
  rewrite G0 by auto. assert (Lin : length incs = r) by (unfold incs; now rewrite map_length, seq_length).
  destruct (pad_src_at (shape x) incs m) as (jx & Ej & Lj & Nj); auto.
  { intros k Hk. unfold incs. rewrite nth_map_seq, Nm by auto. destruct (Ns k Hk) as (_ & _ & N3 & N4). auto. }
  rewrite Ej. rewrite (pad_sources_at Symmetric (shape x) rows ix jx); auto.
  intros k Hk. rewrite Nj by auto. unfold incs. rewrite nth_map_seq, Nm by auto. now destruct (Ns k Hk) as (_ & -> & _).
Qed.
End Eval.
