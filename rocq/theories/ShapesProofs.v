From Coq Require Import List ZArith Bool Lia.
From Verif Require Import Util ShapesModel ShapesSpec.
Import ListNotations.
Local Open Scope Z_scope.

Lemma unknown_claims d c : is_unknown_dimension d = true -> claims d c.
Proof. destruct d as [z|]; simpl; auto. intros H Hz. apply Z.leb_le in H. lia. Qed.
Lemma known_claims d c : is_unknown_dimension d = false -> claims d c -> d = Some c.
Proof. destruct d as [z|]; simpl; [|discriminate]. intros H Hc. apply Z.leb_gt in H. rewrite Hc; auto. Qed.
Lemma known_claims_iff d c : is_unknown_dimension d = false -> (claims d c <-> d = Some c).
Proof.
  intro H. split; [now apply known_claims|]. intros ->. simpl. auto.
Qed.

Lemma merge_dims_exact l1 l2 : length l1 = length l2 ->
  match merge_dims l1 l2 with
  | Some m => forall c, Forall2 claims m c <-> Forall2 claims l1 c /\ Forall2 claims l2 c
  | None => forall c, ~ (Forall2 claims l1 c /\ Forall2 claims l2 c)
  end.
Proof.
  revert l2. induction l1 as [|d1 r1 IH]; intros [|d2 r2] Hl; try discriminate.
  - simpl. intro c. tauto.
  - simpl in Hl. injection Hl as Hl. specialize (IH r2 Hl). cbn [merge_dims].
    assert (K : exists D, D = (if is_unknown_dimension d1
      then Some d2
      else if negb (is_unknown_dimension d2)
        then match d1, d2 with
             | Some a, Some b => if a =? b then Some d1 else None
             | _, _ => Some d1 end
        else Some d1) /\
      match D with
      | Some d => forall c, claims d c <-> claims d1 c /\ claims d2 c
      | None => forall c, ~ (claims d1 c /\ claims d2 c)
      end).
    { eexists. split; [reflexivity|].
      destruct (is_unknown_dimension d1) eqn:U1.
      - intro c. split; [|tauto]. intro H. split; auto. now apply unknown_claims.
      - destruct (is_unknown_dimension d2) eqn:U2; cbn [negb].
        + intro c. split; [|tauto]. intro H. split; auto. now apply unknown_claims.
        + destruct d1 as [a|]; [|discriminate]. destruct d2 as [b|]; [|discriminate].
          simpl in U1, U2. apply Z.leb_gt in U1, U2.
          destruct (Z.eqb_spec a b) as [->|N]; intro c; simpl.
          * tauto.
          * intros [A B]. specialize (A U1). specialize (B U2). congruence. }
    destruct K as (D & <- & K). destruct D as [d|].
    + destruct (merge_dims r1 r2) as [m|].
      * intro c. split.
        -- intro H. inversion H; subst. apply K in H2. apply IH in H4.
           destruct H2, H4. split; constructor; auto.
        -- intros [A B]. inversion A; subst. inversion B; subst. constructor.
           ++ apply K; auto.
           ++ apply IH; auto.
      * intros c [A B]. inversion A; subst. inversion B; subst. eapply IH; eauto.
    + intros c [A B]. inversion A; subst. inversion B; subst. eapply K; eauto.
Qed.

Lemma merge_dims_length l1 l2 m : merge_dims l1 l2 = Some m -> length l1 = length l2 -> length m = length l1.
Proof.
  revert l2 m. induction l1 as [|d1 r1 IH]; intros [|d2 r2] m H Hl; try discriminate.
  - inversion H; auto.
  - cbn [merge_dims] in H. injection Hl as Hl.
    destruct (if is_unknown_dimension d1 then _ else _); [|discriminate].
    destruct (merge_dims r1 r2) eqn:E; [|discriminate]. inversion H; subst. simpl. f_equal. eauto.
Qed.

Lemma merge_shapes_exact s1 s2 :
  match merge_shapes s1 s2 with
  | Some m => forall c, shape_claims m c <-> shape_claims s1 c /\ shape_claims s2 c
  | None => forall c, ~ (shape_claims s1 c /\ shape_claims s2 c)
  end.
Proof.
  destruct s1 as [l1|], s2 as [l2|]; simpl; try (intro; tauto).
  destruct (Nat.eqb_spec (length l1) (length l2)) as [E|E].
  - assert (H := merge_dims_exact l1 l2 E). destruct (merge_dims l1 l2); exact H.
  - intros c [A B]. apply Forall2_length in A, B. congruence.
Qed.

Definition realize (d : dim) : Z := match d with Some z => if 0 <? z then z else 0 | None => 0 end.
Lemma realize_ok l : Forall2 claims l (map realize l) /\ Forall (fun z => 0 <= z) (map realize l).
Proof.
  induction l as [|d l [IH1 IH2]]; simpl; split; constructor; auto.
  - destruct d as [z|]; simpl; auto. intro H. apply Z.ltb_lt in H. now rewrite H.
  - destruct d as [z|]; simpl; try lia. destruct (Z.ltb_spec 0 z); lia.
Qed.
Lemma shape_realizable s : exists c, shape_claims s c /\ Forall (fun z => 0 <= z) c.
Proof.
  destruct s as [l|].
  - exists (map realize l). apply realize_ok.
  - exists []. split; simpl; auto.
Qed.

Lemma merge_succeeds_iff s1 s2 :
  (exists m, merge_shapes s1 s2 = Some m) <->
  exists c, Forall (fun z => 0 <= z) c /\ shape_claims s1 c /\ shape_claims s2 c.
Proof.
  assert (H := merge_shapes_exact s1 s2). split.
  - intros [m E]. rewrite E in H. destruct (shape_realizable m) as (c & A & B).
    exists c. split; auto. now apply H.
  - intros (c & _ & A). destruct (merge_shapes s1 s2) as [m|]; [eauto|]. exfalso. eapply H; eauto.
Qed.

Lemma compatible_iff s1 s2 :
  are_shapes_compatible s1 s2 = true <->
  exists c, Forall (fun z => 0 <= z) c /\ shape_claims s1 c /\ shape_claims s2 c.
Proof.
  rewrite <- merge_succeeds_iff. unfold are_shapes_compatible.
  destruct (merge_shapes s1 s2); split; intros H; eauto; try discriminate. destruct H; discriminate.
Qed.

Lemma dim_eqb_spec a b : reflect (a = b) (dim_eqb a b).
Proof.
  destruct a as [x|], b as [y|]; simpl; try (constructor; congruence).
  destruct (Z.eqb_spec x y); constructor; congruence.
Qed.
Lemma all_eq_spec a b : length a = length b -> (all_eq a b = true <-> a = b).
Proof.
  revert b. induction a as [|x a IH]; intros [|y b] H; try discriminate; simpl; [tauto|].
  injection H as H. rewrite andb_true_iff, (IH _ H).
  destruct (dim_eqb_spec x y) as [->|N]; split; intro K.
  - destruct K. congruence.
  - inversion K. auto.
  - destruct K. discriminate.
  - inversion K. congruence.
Qed.
Lemma shapes_equal_iff a b : are_shapes_equal a b = true <-> a = b.
Proof.
  destruct a as [l1|], b as [l2|]; simpl; try (split; congruence).
  rewrite andb_true_iff, Nat.eqb_eq. split.
  - intros [H1 H2]. apply all_eq_spec in H2; congruence.
  - intro H. inversion H; subst. split; auto. now apply all_eq_spec.
Qed.

(** ** broadcasting *)
Inductive Forall3 {A B C} (R : A -> B -> C -> Prop) : list A -> list B -> list C -> Prop :=
| F3_nil : Forall3 R [] [] []
| F3_cons a b c la lb lc : R a b c -> Forall3 R la lb lc -> Forall3 R (a :: la) (b :: lb) (c :: lc).

Lemma bcast_rev_Forall3 a b c : length a = length b -> bcast_rev a b c -> Forall3 bcast_dim a b c.
Proof.
  intros Hl H. induction H.
  - destruct b; [constructor|discriminate].
  - destruct a; [constructor|discriminate].
  - constructor; auto.
Qed.
Lemma Forall3_app {A B C} (R : A -> B -> C -> Prop) a b c a' b' c' :
  Forall3 R a b c -> Forall3 R a' b' c' -> Forall3 R (a ++ a') (b ++ b') (c ++ c').
Proof. induction 1; simpl; auto. constructor; auto. Qed.
Lemma Forall3_rev {A B C} (R : A -> B -> C -> Prop) a b c :
  Forall3 R a b c -> Forall3 R (rev a) (rev b) (rev c).
Proof.
  induction 1; simpl; [constructor|]. apply Forall3_app; auto. repeat constructor; auto.
Qed.
Lemma broadcasts_Forall3 a b c : length a = length b -> broadcasts a b c -> Forall3 bcast_dim a b c.
Proof.
  intros Hl H. unfold broadcasts in H. apply bcast_rev_Forall3 in H.
  - apply Forall3_rev in H. now rewrite !rev_involutive in H.
  - now rewrite !rev_length.
Qed.
Lemma bcast_dim_sym x y z : bcast_dim x y z -> bcast_dim y x z.
Proof. intro H. inversion H; subst; constructor. Qed.
Lemma bcast_rev_sym a b c : bcast_rev a b c -> bcast_rev b a c.
Proof. induction 1; constructor; auto using bcast_dim_sym. Qed.
Lemma broadcasts_sym a b c : broadcasts a b c -> broadcasts b a c.
Proof. apply bcast_rev_sym. Qed.

Lemma broadcast_loop_sound l0 l1 m a b c :
  length l0 = length l1 ->
  Forall2 claims_tf l0 a -> Forall2 claims_tf l1 b -> Forall3 bcast_dim a b c ->
  broadcast_loop l0 l1 = Some m -> Forall2 claims_tf m c.
Proof.
  revert l1 m a b c. induction l0 as [|d0 r0 IH]; intros [|d1 r1] m a b c Hl A B H E; try discriminate.
  - inversion A; subst. inversion B; subst. inversion H; subst. inversion E; subst. constructor.
  - inversion A as [|? x ? la Hx Hla]; subst. inversion B as [|? y ? lb Hy Hlb]; subst.
    inversion H as [|? ? z ? ? lc Hz Hlc]; subst. injection Hl as Hl.
    cbn [broadcast_loop] in E.
    assert (K : forall d, (if dim_eqb d0 d1 then Some d1 else if is_one d0 then Some d1
             else if is_one d1 then Some d0 else if is_minus_one d0 then Some d1
             else if is_minus_one d1 then Some d0 else None) = Some d -> claims_tf d z).
    { intros d Ed. unfold is_one, is_minus_one in Ed.
      destruct (dim_eqb_spec d0 d1) as [->|N].
      { inversion Ed; subst. destruct d as [w|]; simpl in *; auto.
        intro Hw. specialize (Hx Hw). specialize (Hy Hw). inversion Hz; subst; congruence. }
      destruct (dim_eqb_spec d0 (Some 1)) as [->|N0].
      { inversion Ed; subst. simpl in Hx. specialize (Hx ltac:(lia)). subst x.
        destruct d as [w|]; simpl in *; auto. intro Hw. specialize (Hy Hw). inversion Hz; subst; congruence. }
      destruct (dim_eqb_spec d1 (Some 1)) as [->|N1].
      { inversion Ed; subst. simpl in Hy. specialize (Hy ltac:(lia)). subst y.
        destruct d as [w|]; simpl in *; auto. intro Hw. specialize (Hx Hw). inversion Hz; subst; congruence. }
      destruct (dim_eqb_spec d0 (Some (-1))) as [->|N2].
      { inversion Ed; subst. destruct d as [w|]; simpl in *; auto. intro Hw. specialize (Hy Hw). subst y.
        inversion Hz; subst; auto. exfalso. apply N1. congruence. }
      destruct (dim_eqb_spec d1 (Some (-1))) as [->|N3]; [|discriminate].
      { inversion Ed; subst. destruct d as [w|]; simpl in *; auto. intro Hw. specialize (Hx Hw). subst x.
        inversion Hz; subst; auto. exfalso. apply N0. congruence. } }
    destruct (if dim_eqb d0 d1 then _ else _) as [d|]; [|discriminate].
    destruct (broadcast_loop r0 r1) as [r|] eqn:Er; [|discriminate].
    inversion E; subst. constructor; auto. eapply IH; eauto.
Qed.

Lemma broadcast_sound l0 l1 m a b c :
  length l0 = length l1 \/ l0 = [] \/ l1 = [] ->
  Forall2 claims_tf l0 a -> Forall2 claims_tf l1 b -> broadcasts a b c ->
  broadcast_shape_inference (Some l0) (Some l1) = Some m -> Forall2 claims_tf m c.
Proof.
  intros Hl A B H E. cbn [broadcast_shape_inference] in E.
  destruct Hl as [Hl|[->| ->]].
  - rewrite Hl, Nat.ltb_irrefl in E.
    assert (Hab : length a = length b) by (apply Forall2_length in A, B; congruence).
    apply broadcasts_Forall3 in H; auto.
    destruct (Nat.eqb_spec (length l0) 0) as [Z|Z].
    + destruct l0; [|discriminate]. destruct l1; [|discriminate]. inversion E; subst.
      inversion A; subst. inversion H; subst. constructor.
    + eapply broadcast_loop_sound; eauto.
  - replace (length l1 <? length (@nil dim))%nat with false in E
      by (symmetry; apply Nat.ltb_ge; simpl; lia).
    cbn in E. inversion E; subst. inversion A; subst.
    unfold broadcasts in H. inversion H; subst.
    + assert (b = c) by (rewrite <- (rev_involutive b), <- (rev_involutive c); congruence). now subst.
    + assert (b = c) by (rewrite <- (rev_involutive b), <- (rev_involutive c); congruence). now subst.
  - apply broadcasts_sym in H. inversion B; subst. unfold broadcasts in H.
    assert (a = c).
    { inversion H; subst; rewrite <- (rev_involutive a), <- (rev_involutive c); congruence. }
    subst. destruct (length (@nil dim) <? length l0)%nat eqn:El.
    + cbn in E. inversion E; subst. auto.
    + apply Nat.ltb_ge in El. simpl in El. destruct l0; [|simpl in El; lia].
      inversion E; subst. auto.
Qed.

(** ** other inference rules *)
Lemma Forall2_nth_error {A B} (R : A -> B -> Prop) l c :
  Forall2 R l c -> forall i d, nth_error l i = Some d -> exists e, nth_error c i = Some e /\ R d e.
Proof.
  induction 1; intros [|i] z E; simpl in *; try discriminate.
  - inversion E; subst. eauto.
  - eauto.
Qed.

Lemma Forall2_intro (R : dim -> Z -> Prop) (l : list dim) (c : list Z) :
  length l = length c ->
  (forall i d, nth_error l i = Some d -> R d (nth i c 0)) -> Forall2 R l c.
Proof.
  revert c. induction l as [|d l IH]; intros [|x c] Hl H; try discriminate; constructor.
  - apply (H 0%nat d). reflexivity.
  - apply IH; [simpl in Hl; lia|]. intros i e E. apply (H (S i) e). exact E.
Qed.

Lemma pack_list_shape a n l c r (R : dim -> Z -> Prop) :
  (a <= length c)%nat ->
  Forall2 R l c -> pack_shape a n c r -> (forall z, R (Some z) z) ->
  Forall2 R (firstn a l ++ [Some n] ++ skipn a l) r.
Proof.
  intros Ha F (P1 & P2 & P3 & P4 & P5) HR.
  assert (Hl := Forall2_length F).
  apply (Forall2_intro).
  - rewrite !app_length, firstn_length, skipn_length. simpl. lia.
  - intros i d E.
    destruct (lt_eq_lt_dec i a) as [[L|L]|L].
    + rewrite nth_error_app1 in E by (rewrite firstn_length; lia).
      rewrite P4 by lia.
      assert (E' : nth_error l i = Some d).
      { now rewrite nth_error_firstn in E by lia. }
      destruct (Forall2_nth_error _ _ _ F _ _ E') as (e & E1 & E2).
      now rewrite (nth_error_nth _ _ _ E1).
    + subst i. rewrite nth_error_app2 in E by (rewrite firstn_length; lia).
      replace (a - length (firstn a l))%nat with 0%nat in E by (rewrite firstn_length; lia).
      inversion E; subst. apply HR.
    + destruct i as [|i]; [lia|].
      rewrite nth_error_app2 in E by (rewrite firstn_length; lia).
      replace (S i - length (firstn a l))%nat with (S (i - a))%nat in E
        by (rewrite firstn_length; lia).
      simpl in E.
      assert (E' : nth_error l i = Some d).
      { rewrite nth_error_skipn in E. now replace (a + (i - a))%nat with i in E by lia. }
      destruct (Forall2_nth_error _ _ _ F _ _ E') as (e & E1 & E2).
      assert (i < length c)%nat by (apply nth_error_Some; congruence).
      rewrite P5 by lia. now rewrite (nth_error_nth _ _ _ E1).
Qed.

Lemma claims_tf_refl z : claims_tf (Some z) z.
Proof. simpl. auto. Qed.

Lemma expand_dims_sound axis s c r :
  - Z.of_nat (length s) - 1 <= axis <= Z.of_nat (length s) ->
  Forall2 claims_tf s c ->
  pack_shape (Z.to_nat (if axis <? 0 then axis + Z.of_nat (length c) + 1 else axis)) 1 c r ->
  Forall2 claims_tf (infer_expand_dims axis s) r.
Proof.
  intros Ha F P. assert (Hl := Forall2_length F). unfold infer_expand_dims. rewrite Hl.
  set (a := if axis <? 0 then axis + Z.of_nat (length c) + 1 else axis) in *.
  assert (0 <= a <= Z.of_nat (length c)).
  { unfold a. destruct (Z.ltb_spec axis 0); lia. }
  unfold slice_to, slice_from. destruct (Z.ltb_spec a 0); [lia|].
  apply pack_list_shape with (c := c); auto using claims_tf_refl. lia.
Qed.

Lemma pack_sound axis n s c r :
  0 <= axis <= Z.of_nat (length s) ->
  Forall2 claims_tf s c -> pack_shape (Z.to_nat axis) (Z.of_nat n) c r ->
  Forall2 claims_tf (infer_pack axis n s) r.
Proof.
  intros Ha F P. assert (Hl := Forall2_length F). unfold infer_pack.
  destruct (Z.ltb_spec axis 0); [lia|]. unfold slice_to, slice_from.
  destruct (Z.ltb_spec axis 0); [lia|].
  apply pack_list_shape with (c := c); auto using claims_tf_refl. lia.
Qed.

Lemma unpack_sound axis s c r :
  - Z.of_nat (length s) <= axis < Z.of_nat (length s) ->
  Forall2 claims_tf s c ->
  unpack_shape (Z.to_nat (norm_axis (length c) axis)) c r ->
  Forall2 claims_tf (infer_unpack axis s) r.
Proof.
  intros Ha F (P1 & P2 & P3 & P4). assert (Hl := Forall2_length F).
  unfold infer_unpack. rewrite Hl. unfold norm_axis in *.
  set (a := if axis <? 0 then axis + Z.of_nat (length c) else axis) in *.
  assert (0 <= a < Z.of_nat (length c)) by (unfold a; destruct (Z.ltb_spec axis 0); lia).
  unfold slice_to, slice_from. destruct (Z.ltb_spec a 0); [lia|]. destruct (Z.ltb_spec (a + 1) 0); [lia|].
  replace (Z.to_nat (a + 1)) with (S (Z.to_nat a)) by lia.
  apply (Forall2_intro).
  - rewrite app_length, firstn_length, skipn_length. lia.
  - intros i d E. destruct (Nat.lt_ge_cases i (Z.to_nat a)) as [L|L].
    + rewrite nth_error_app1 in E by (rewrite firstn_length; lia).
      rewrite nth_error_firstn in E by auto.
      destruct (Forall2_nth_error _ _ _ F _ _ E) as (e & E1 & E2).
      rewrite P3 by auto. now rewrite (nth_error_nth _ _ _ E1).
    + rewrite nth_error_app2 in E by (rewrite firstn_length; lia).
      rewrite firstn_length, nth_error_skipn in E.
      replace (S (Z.to_nat a) + (i - Nat.min (Z.to_nat a) (length s)))%nat with (S i) in E by lia.
      destruct (Forall2_nth_error _ _ _ F _ _ E) as (e & E1 & E2).
      assert (S i < length c)%nat by (apply nth_error_Some; congruence).
      rewrite P4 by lia. now rewrite (nth_error_nth _ _ _ E1).
Qed.

(** reductions *)
Definition nat_axes (rank : nat) (axes : list Z) : list nat :=
  map (fun a => Z.to_nat (norm_axis rank a)) axes.

Lemma existsb_axes i rank axes :
  (forall a, In a axes -> - Z.of_nat rank <= a < Z.of_nat rank) ->
  existsb (Z.eqb (Z.of_nat i)) (map (norm_axis rank) axes) =
  if in_dec Nat.eq_dec i (nat_axes rank axes) then true else false.
Proof.
  intro H. destruct (in_dec Nat.eq_dec i (nat_axes rank axes)) as [Hin|Hn].
  - apply existsb_exists. unfold nat_axes in Hin. apply in_map_iff in Hin.
    destruct Hin as (a & E & Hin). exists (norm_axis rank a). split; [now apply in_map|].
    apply Z.eqb_eq. specialize (H a Hin). unfold norm_axis in *. destruct (Z.ltb_spec a 0); lia.
  - apply not_true_is_false. intro E. apply existsb_exists in E. destruct E as (x & Hin & E).
    apply Z.eqb_eq in E. apply Hn. apply in_map_iff in Hin. destruct Hin as (a & E2 & Hin).
    unfold nat_axes. apply in_map_iff. exists a. split; auto. lia.
Qed.

Lemma infer_reduce_keep_aux axes rank s k :
  (forall a, In a axes -> - Z.of_nat rank <= a < Z.of_nat rank) ->
  forall i, nth_error (infer_reduce_from (Z.of_nat k) (map (norm_axis rank) axes) true s) i =
    match nth_error s i with
    | None => None
    | Some d => Some (if in_dec Nat.eq_dec (k + i)%nat (nat_axes rank axes) then Some 1 else d)
    end.
Proof.
  intro H. revert k. induction s as [|d s IH]; intros k i; cbn [infer_reduce_from].
  - destruct i; reflexivity.
  - rewrite existsb_axes by auto. replace (Z.of_nat k + 1) with (Z.of_nat (S k)) by lia.
    destruct i as [|i].
    + rewrite Nat.add_0_r. destruct (in_dec _ _ _); reflexivity.
    + replace (k + S i)%nat with (S k + i)%nat by lia.
      destruct (in_dec Nat.eq_dec k _); cbn [nth_error]; apply IH.
Qed.
Lemma infer_reduce_keep_length axes s k : length (infer_reduce_from k axes true s) = length s.
Proof.
  revert k. induction s as [|d s IH]; intro k; cbn [infer_reduce_from]; auto.
  destruct (existsb _ _); simpl; auto.
Qed.

Lemma reduce_keep_sound axes s c r :
  (forall a, In a axes -> - Z.of_nat (length s) <= a < Z.of_nat (length s)) ->
  Forall2 claims_tf s c -> reduce_keep_shape (nat_axes (length s) axes) c r ->
  Forall2 claims_tf (infer_reduce axes true s) r.
Proof.
  intros Ha F (P1 & P2). assert (Hl := Forall2_length F). apply (Forall2_intro).
  - unfold infer_reduce. rewrite infer_reduce_keep_length. congruence.
  - intros i d E. unfold infer_reduce in E.
    rewrite (infer_reduce_keep_aux axes (length s) s 0) in E by auto.
    destruct (nth_error s i) as [d0|] eqn:E0; [|discriminate].
    assert (i < length s)%nat by (apply nth_error_Some; congruence).
    rewrite P2 by lia. rewrite Nat.add_0_l in E.
    destruct (in_dec Nat.eq_dec i _); inversion E; subst.
    + apply claims_tf_refl.
    + destruct (Forall2_nth_error _ _ _ F _ _ E0) as (e & E1 & E2).
      now rewrite (nth_error_nth _ _ _ E1).
Qed.

Lemma reduce_drop_aux axes rank s c k pre :
  (forall a, In a axes -> - Z.of_nat rank <= a < Z.of_nat rank) ->
  length pre = k ->
  Forall2 claims_tf s c ->
  Forall2 claims_tf (infer_reduce_from (Z.of_nat k) (map (norm_axis rank) axes) false s)
    (map (fun i => nth i (pre ++ c) 0)
       (filter (fun i => if in_dec Nat.eq_dec i (nat_axes rank axes) then false else true)
          (seq k (length c)))).
Proof.
  intros H. revert k pre c. induction s as [|d s IH]; intros k pre c Hk F.
  - inversion F; subst. constructor.
  - inversion F as [|? y ? c' Hd Hs]; subst. cbn [infer_reduce_from length seq filter].
    rewrite existsb_axes by auto.
    replace (Z.of_nat (length pre) + 1) with (Z.of_nat (S (length pre))) by lia.
    assert (R := IH (S (length pre)) (pre ++ [y]) c').
    rewrite app_length in R. simpl in R. specialize (R ltac:(lia) Hs).
    rewrite <- app_assoc in R. simpl in R.
    destruct (in_dec Nat.eq_dec (length pre) _); cbn [map]; auto.
    constructor; auto. rewrite app_nth2 by lia. now rewrite Nat.sub_diag.
Qed.
Lemma reduce_drop_sound axes s c r :
  (forall a, In a axes -> - Z.of_nat (length s) <= a < Z.of_nat (length s)) ->
  Forall2 claims_tf s c -> reduce_drop_shape (nat_axes (length s) axes) c r ->
  Forall2 claims_tf (infer_reduce axes false s) r.
Proof.
  intros Ha F ->. apply (reduce_drop_aux axes (length s) s c 0 []); auto.
Qed.

(** ** Merge op *)
Lemma infer_merge_sound_known (l1 l2 m : list dim) c :
  Forall (fun d : dim => d <> None) l1 -> Forall (fun d : dim => d <> None) l2 ->
  infer_merge_op l1 l2 = Some m ->
  Forall2 claims_tf l1 c \/ Forall2 claims_tf l2 c -> Forall2 claims_tf m c.
Proof.
  intros K1 K2 E H. unfold infer_merge_op in E.
  destruct (Nat.eqb_spec (length l1) (length l2)) as [Hl|]; simpl in E; [|discriminate E].
  destruct (all_eq l1 l2) eqn:Ea.
  - apply all_eq_spec in Ea; auto. inversion E; subst. destruct H; subst; auto.
  - inversion E; subst. clear E Ea.
    assert (length c = length l1) by (destruct H as [H|H]; apply Forall2_length in H; lia).
    clear H. revert l2 c K2 Hl H0. induction l1 as [|d1 l1 IH]; intros [|d2 l2] [|x c] K2 Hl Hc;
      try (simpl in *; lia); simpl; constructor.
    + inversion K1; subst. inversion K2; subst. destruct d1, d2; try congruence. exact I.
    + inversion K1; subst. inversion K2; subst. apply IH; auto.
Qed.
