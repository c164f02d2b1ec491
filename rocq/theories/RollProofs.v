(** The loop of Roll computes tf.roll. *)
From Coq Require Import List Arith ZArith Bool Lia.
From Verif Require Import Tensor FoldModel OnnxSpec TensorProofs TOps TOpsProofs TOpsProofs2 SpaceModel SpaceProofs2 RollModel RollSpec.
Import ListNotations.
Local Open Scope list_scope.

Section Steps.
Context {A : Type} (zero : A) (opset : nat) (x : tensor A) (others : list (value A)).
Hypothesis Op10 : 10 <= opset.
Notation ev := (eval zero opset (D x :: others)).
Lemma r10 : Nat.ltb opset 10 = false. Proof. apply Nat.ltb_ge. lia. Qed.
Lemma r_slice3 t s e v ls le : ev t = Some v -> ev s = Some (I (tvec ls)) -> ev e = Some (I (tvec le)) ->
  ev (Op (Slice None) [t; s; e]) = lift (fun T => @f_slice T ls le None) v.
Proof. intros H1 H2 H3. rewrite (ev3 _ _ _ _ _ _ _ _ _ _ H1 H2 H3). cbn [apply]. now rewrite r10. Qed.
Lemma r_slice4 t s e ax v ls le la : ev t = Some v -> ev s = Some (I (tvec ls)) -> ev e = Some (I (tvec le)) -> ev ax = Some (I (tvec la)) ->
  ev (Op (Slice None) [t; s; e; ax]) = lift (fun T => @f_slice T ls le (Some la)) v.
Proof. intros H1 H2 H3 H4. rewrite (ev4 _ _ _ _ _ _ _ _ _ _ _ _ H1 H2 H3 H4). cbn [apply]. now rewrite r10. Qed.

Lemma step_ok pre d post dat shift t s : shape x = pre ++ d :: post -> 0 < d -> wf t -> shape t = shape x ->
  ev dat = Some (D t) -> ev shift = Some (I (tvec [s])) ->
  exists z, ev (roll_step dat (Z.of_nat (length pre)) shift) = Some (D z) /\ wf z /\ shape z = shape x /\
    forall p c q, inb p pre -> c < d -> inb q post ->
      get z (p ++ c :: q) = get t (p ++ Z.to_nat ((Z.of_nat c - s) mod Z.of_nat d) :: q).
Proof.
  intros Sx Pd Wt St Ed Es. unfold roll_step. cbv zeta.
  set (k := length pre). set (len := Op (Slice None) [Op Shape [Inp 0]; vec [Z.of_nat k]; vec [(Z.of_nat k + 1)%Z]]).
  assert (El : ev len = Some (I (tvec [Z.of_nat d]))).
  { unfold len. assert (E0 : ev (Op Shape [Inp 0]) = Some (I (tvec (map Z.of_nat (shape x))))) by reflexivity.
    rewrite (r_slice3 _ _ _ _ _ _ E0 (ev_vec _ _ _ _) (ev_vec _ _ _ _)). cbn [lift]. rewrite slice_vec. rewrite map_length.
    assert (Lx : k < length (shape x)) by (rewrite Sx, app_length; cbn; lia).
    replace (Z.of_nat k + 1)%Z with (Z.of_nat (S k)) by lia. rewrite !clamp_nat by lia. replace (S k - k) with 1 by lia.
    rewrite skipn_map, firstn_map. rewrite Sx. unfold k. rewrite skipn_app, skipn_all, Nat.sub_diag. reflexivity. }
  set (m := (s mod Z.of_nat d)%Z). assert (Hm : (0 <= m < Z.of_nat d)%Z) by (apply Z.mod_pos_bound; lia).
  assert (Em : ev (Op Mod [shift; len]) = Some (I (tvec [m]))).
  { rewrite (ev2 _ _ _ _ _ _ _ _ Es El). cbn [apply]. change (data (tvec [Z.of_nat d])) with [Z.of_nat d]. cbn [forallb].
    rewrite (proj2 (Z.eqb_neq (Z.of_nat d) 0)) by lia. cbn [negb andb]. rewrite binary_vec by reflexivity. reflexivity. }
  set (r := Z.to_nat (Z.of_nat d - m)).
  assert (Er : ev (Op Sub [len; Op Mod [shift; len]]) = Some (I (tvec [Z.of_nat r]))).
  { rewrite (ev2 _ _ _ _ _ _ _ _ El Em). cbn [apply]. rewrite binary_vec by reflexivity. cbn [option_map zip2]. unfold r. rewrite Z2Nat.id by lia. reflexivity. }
  assert (Hr : 0 < r <= d) by (unfold r; lia). rewrite <- St in Sx.
  destruct (slice_mid pre d post t 0 (Z.of_nat r) Wt Sx) as (t1 & D1 & W1 & S1 & G1).
  destruct (slice_mid pre d post t (Z.of_nat r) (Z.of_nat d) Wt Sx) as (t2 & D2 & W2 & S2 & G2).
  rewrite !clamp_nat in * by lia. rewrite clamp_0 in *. rewrite Nat.sub_0_r in *.
  assert (E1 : ev (Op (Slice None) [dat; vec [0%Z]; Op Sub [len; Op Mod [shift; len]]; vec [Z.of_nat k]]) = Some (D t1)).
  { rewrite (r_slice4 _ _ _ _ _ _ _ _ Ed (ev_vec _ _ _ _) Er (ev_vec _ _ _ _)). cbn [lift]. unfold k. now rewrite D1. }
  assert (E2 : ev (Op (Slice None) [dat; Op Sub [len; Op Mod [shift; len]]; len; vec [Z.of_nat k]]) = Some (D t2)).
  { rewrite (r_slice4 _ _ _ _ _ _ _ _ Ed Er El (ev_vec _ _ _ _)). cbn [lift]. unfold k. now rewrite D2. }
  destruct (concat_spec pre post [t2; t1] [d - r; r]) as (z & Dz & Wz & Sz & Gz); [discriminate|repeat constructor; auto|].
  exists z. split; [|split; auto; split].
  - rewrite (ev2 _ _ _ _ _ _ _ _ E2 E1). cbn [apply all_data option_map obind]. rewrite neg_axis_nat. unfold k. now rewrite Dz.
  - rewrite Sz, <- St, Sx. do 2 f_equal. cbn. lia.
  - intros p c q Hp Hc Hq. rewrite Gz; auto; [|cbn; lia]. cbn [part_of]. destruct (Nat.ltb_spec c (d - r)).
    + rewrite G2 by auto. do 3 f_equal. apply Nat2Z.inj. rewrite Z2Nat.id by (apply Z.mod_pos_bound; lia).
      apply Z.mod_unique_pos with (q := (- (s / Z.of_nat d) - 1)%Z); [lia|]. assert (X := Z.div_mod s (Z.of_nat d)). fold m in X. unfold r. nia.
    + rewrite (proj2 (Nat.ltb_lt (c - (d - r)) r)) by lia. rewrite G1 by (auto; lia). do 3 f_equal. cbn [Nat.add]. apply Nat2Z.inj. rewrite Z2Nat.id by (apply Z.mod_pos_bound; lia).
      apply Z.mod_unique_pos with (q := (- (s / Z.of_nat d))%Z); [lia|]. assert (X := Z.div_mod s (Z.of_nat d)). fold m in X. unfold r. nia.
Qed.
End Steps.

(** ** the indices of several rounds *)
Lemma rolled_length ax ss sh ix : length ix = length sh -> length (rolled ax ss sh ix) = length sh.
Proof. intro H. unfold rolled. rewrite map_length, !combine_length, seq_length. lia. Qed.
Lemma rolled_nth ax ss sh ix k : length ix = length sh -> k < length sh ->
  nth k (rolled ax ss sh ix) 0 = Z.to_nat ((Z.of_nat (nth k ix 0) - total_shift ax ss k) mod Z.of_nat (nth k sh 0)).
Proof.
  intros L H. unfold rolled.
  set (f := fun '(k, (d, i)) => Z.to_nat ((Z.of_nat i - total_shift ax ss k) mod Z.of_nat d)).
  rewrite (nth_indep _ 0 (f (0, (0, 0)))) by (rewrite map_length, !combine_length, seq_length; lia). rewrite map_nth.
  rewrite combine_nth by (rewrite seq_length, combine_length; lia). rewrite combine_nth by auto. rewrite seq_nth by auto. reflexivity.
Qed.
Lemma rolled_inb ax ss sh ix : inb ix sh -> inb (rolled ax ss sh ix) sh.
Proof.
  intro H. apply inb_nth in H. destruct H as [L H]. apply inb_nth. split; [now apply rolled_length|]. intros k Hk. rewrite rolled_nth by auto.
  specialize (H k Hk). set (v := nth k ix 0) in *. set (d := nth k sh 0) in *.
  assert (0 <= (Z.of_nat v - total_shift ax ss k) mod Z.of_nat d < Z.of_nat d)%Z by (apply Z.mod_pos_bound; lia). lia.
Qed.
Lemma rolled_nil sh ix ss : inb ix sh -> rolled [] ss sh ix = ix.
Proof.
  intro H. assert (H' := H). apply inb_nth in H. destruct H as [L H]. apply list_nth_ext; [now rewrite rolled_length|].
  rewrite rolled_length by auto. intros k Hk. rewrite rolled_nth by auto. specialize (H k Hk). unfold total_shift. cbn.
  rewrite Z.sub_0_r, Z.mod_small by lia. lia.
Qed.
Lemma total_cons a ax s ss k : total_shift (a :: ax) (s :: ss) k = ((if Nat.eqb a k then s else 0) + total_shift ax ss k)%Z.
Proof. unfold total_shift. cbn [combine filter]. destruct (Nat.eqb a k); cbn [map fold_right snd]; lia. Qed.
Lemma rolled_cons a ax s ss sh ix : a < length sh -> inb ix sh ->
  rolled (a :: ax) (s :: ss) sh ix =
  set_dim a (Z.to_nat ((Z.of_nat (nth a (rolled ax ss sh ix) 0) - s) mod Z.of_nat (nth a sh 0))) (rolled ax ss sh ix).
Proof.
  intros Ha H. assert (H' := H). apply inb_nth in H. destruct H as [L H].
  assert (Q : forall l k v, length (set_dim k v l) = length l).
  { induction l as [|y l IH]; intros [|k] v; cbn; auto. }
  assert (Q2 : forall l k j v, k < length l -> nth j (set_dim k v l) 0 = if Nat.eqb k j then v else nth j l 0).
  { induction l as [|y l IH]; intros [|k] [|j] v Hk; cbn in *; try lia; auto. apply IH. lia. }
  apply list_nth_ext; [now rewrite Q, !rolled_length|]. rewrite rolled_length by auto. intros k Hk.
  rewrite Q2 by (rewrite rolled_length; auto). rewrite !rolled_nth by auto. rewrite total_cons. specialize (H k Hk).
  destruct (Nat.eqb_spec a k) as [-> | N]; [|f_equal; f_equal; lia].
  f_equal. set (d := Z.of_nat (nth k sh 0)) in *. assert (0 < d)%Z by lia.
  rewrite Z2Nat.id by (apply Z.mod_pos_bound; lia). rewrite Zminus_mod_idemp_l. f_equal. lia.
Qed.

Section Loop.
Context {A : Type} (zero : A) (opset : nat) (x : tensor A) (others : list (value A)).
Hypothesis Op10 : 10 <= opset.
Notation ev := (eval zero opset (D x :: others)).
Lemma mid_split (sh : list nat) a : a < length sh -> exists pre post, sh = pre ++ nth a sh 0 :: post /\ length pre = a.
Proof.
  intro H. destruct (nth_split sh 0 H) as (l1 & l2 & E & L). eauto.
Qed.
Lemma loop_ok : forall ax ss es dat t, length ss = length ax -> Forall2 (fun e s => ev e = Some (I (tvec [s]))) es ss ->
  Forall (fun a => a < length (shape x) /\ 0 < nth a (shape x) 0) ax -> wf t -> shape t = shape x -> ev dat = Some (D t) ->
  exists z, ev (roll_loop dat (combine (map Z.of_nat ax) es)) = Some (D z) /\ wf z /\ shape z = shape x /\
    forall ix, inb ix (shape x) -> get z ix = get t (rolled ax ss (shape x) ix).
Proof.
  induction ax as [|a ax IH]; intros [|s ss] es dat t L F Fa Wt St Ed; cbn in L; try discriminate.
  - exists t. split; auto. split; auto. split; auto. intros ix Hi. now rewrite rolled_nil.
  - inversion F as [|e s' es' ss' E F']; subst. inversion Fa as [|? ? [Ha Pa] Fa']; subst.
    destruct (mid_split (shape x) a Ha) as (pre & post & Sx & Lp).
    destruct (step_ok zero opset x others Op10 pre _ post dat e t s Sx Pa Wt St Ed E) as (t1 & E1 & W1 & S1 & G1). rewrite Lp in E1.
    destruct (IH ss es' _ t1 ltac:(lia) F' Fa' W1 S1 E1) as (z & Ez & Wz & Sz & Gz).
    exists z. split; auto. split; auto. split; auto. intros ix Hi. rewrite Gz by auto. rewrite rolled_cons by auto.
    assert (Hr := rolled_inb ax ss _ _ Hi). rewrite Sx in Hr at 2. apply split_ix in Hr. destruct Hr as (p & c & q & Er & Hp & Hc & Hq). rewrite Er.
    rewrite G1 by auto. assert (Lpp := inb_length _ _ Hp). rewrite <- Lp, <- Lpp, nth_mid, set_dim_mid. rewrite Lpp, Lp. reflexivity.
Qed.
End Loop.

(** ** the handler *)
Lemma norm_with_ok r a n : norm_axis r a = Some n -> norm_with (Some r) a = Some (Z.of_nat n).
Proof.
  unfold norm_axis, norm_with. destruct (Z.leb_spec 0 a).
  - destruct (Z.ltb_spec a (Z.of_nat r)); [|discriminate]. intros [= <-]. f_equal. lia.
  - destruct (Z.leb_spec (- Z.of_nat r) a); [|discriminate]. intros [= <-]. f_equal. lia.
Qed.
Lemma norm_with_list r (rank : option nat) : rank = Some r \/ rank = None -> forall l ns ms, norm_axes r l = Some ns -> FoldModel.sequence (map (norm_with rank) l) = Some ms ->
  ms = map Z.of_nat ns /\ Forall (fun n => n < r) ns.
Proof.
  intro Hr. induction l as [|a l IH]; intros ns ms H K.
  - cbn in *. injection H as <-. injection K as <-. auto.
  - cbn [norm_axes] in H. destruct (norm_axis r a) as [n|] eqn:E; [|discriminate]. destruct (norm_axes r l) as [ns'|] eqn:E'; [|discriminate]. injection H as <-.
    cbn [map FoldModel.sequence] in K. destruct (norm_with rank a) as [b|] eqn:E2; [|discriminate]. destruct (FoldModel.sequence _) as [ms'|] eqn:E3; [|discriminate]. injection K as <-.
    destruct (IH _ _ eq_refl eq_refl) as [-> F]. split.
    + cbn [map]. f_equal. destruct Hr as [-> | ->]; [rewrite (norm_with_ok _ _ _ E) in E2; congruence|].
      unfold norm_with in E2. unfold norm_axis in E. destruct (Z.leb_spec 0 a); [|discriminate]. injection E2 as <-. destruct (Z.ltb_spec a (Z.of_nat r)); [|discriminate]. injection E as <-. lia.
    + constructor; auto. unfold norm_axis in E. destruct (Z.leb_spec 0 a).
      * destruct (Z.ltb_spec a (Z.of_nat r)); [|discriminate]. injection E as <-. lia.
      * destruct (Z.leb_spec (- Z.of_nat r) a); [|discriminate]. injection E as <-. lia.
Qed.
Definition const_tensor (v : const_value) : tensor Z := match v with Scalar a => Tensor [] [a] | Vector l => zvec l end.

Lemma split_vec {T} (l : list T) k : k < length l -> exists v, nth_error l k = Some v /\ f_split 0 (length l) k (tvec l) = Some (tvec [v]).
Proof.
  intro H. destruct (nth_error l k) as [v|] eqn:E; [|apply nth_error_None in E; lia]. exists v. split; auto.
  unfold f_split, tvec. cbn [shape length]. change (norm_axis 1 0) with (Some 0). cbn [nth set_dim]. rewrite (proj2 (Nat.ltb_lt k (length l)) H). rewrite Nat.mod_same by lia. cbn [Nat.eqb andb].
  rewrite Nat.div_same by lia. change (Tensor [1] [v]) with (tvec [v]). apply build_vec; auto. intros [|i] Hi; [|lia]. cbn [set_dim nth]. rewrite get_vec. replace (k * 1 + 0) with k by lia. exact E.
Qed.
Lemma shifts_ok {A} (zero : A) opset (x : tensor A) rest is64 shift : match shift with Vector [_] => False | _ => True end ->
  let l := axes_list shift in
  Forall2 (fun e s => eval zero opset (D x :: I (const_tensor shift) :: rest) e = Some (I (tvec [s]))) (shifts_split opset is64 (length l)) l.
Proof.
  intros N l. set (env := D x :: I (const_tensor shift) :: rest).
  assert (E : eval zero opset env (shifts_casted is64) = Some (I (const_tensor shift))) by (unfold shifts_casted; destruct is64; reflexivity).
  unfold shifts_split. destruct shift as [s|ss].
  - subst l. cbn [axes_list length Nat.eqb]. constructor; [|constructor]. rewrite (ev_unsqueeze _ _ _ _ _ _ E). reflexivity.
  - subst l. cbn [axes_list]. replace (Nat.eqb (length ss) 1) with false by (symmetry; apply Nat.eqb_neq; destruct ss as [|? [|]]; cbn; try lia; tauto).
    assert (Q : forall k l, k + length l = length ss -> (forall j, nth_error l j = nth_error ss (k + j)) ->
      Forall2 (fun e s => eval zero opset env e = Some (I (tvec [s]))) (map (fun k => Op (Split 0 (length ss) k) [shifts_casted is64]) (seq k (length l))) l).
    { intros k l. revert k. induction l as [|v l IH]; intros k Hl Hn; cbn [length seq map]; constructor.
      - rewrite (ev1 _ _ _ _ _ _ E). cbn [apply]. change (neg_axis opset 0) with false. cbn [lift const_tensor]. cbn [length] in Hl. destruct (split_vec ss k ltac:(lia)) as (w & E1 & E2).
        rewrite zvec_tvec, E2. specialize (Hn 0). cbn in Hn. rewrite Nat.add_0_r in Hn. cbn [option_map]. congruence.
      - apply IH; [cbn in Hl; lia|]. intro j. replace (S k + j) with (k + S j) by lia. exact (Hn (S j)). }
    apply (Q 0 ss); auto.
Qed.
