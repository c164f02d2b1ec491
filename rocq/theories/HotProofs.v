(** Proofs about HotModel. *)
From Coq Require Import List Arith ZArith Bool Lia.
From Verif Require Import Tensor FoldModel OnnxSpec TensorProofs TOps TOpsProofs TOpsProofs2 SpaceModel SpaceProofs2 HotModel HotSpec.
Import ListNotations.
Local Open Scope list_scope.

Lemma axis_one_hot r axis k : one_hot_axis r axis = Some k -> norm_axis (S r) axis = Some k.
Proof.
  unfold one_hot_axis, norm_axis. destruct (Z.eqb_spec axis (-1)) as [-> |N].
  - intro E. injection E as <-. cbv zeta. destruct (Z.leb_spec 0 (-1)); [lia|]. cbn [andb].
    destruct (Z.leb_spec (- Z.of_nat (S r)) (-1)); [|lia]. destruct (Z.ltb_spec (-1) 0); [|lia]. cbn [andb]. f_equal. lia.
  - destruct (Z.leb_spec 0 axis); [|discriminate]. destruct (Z.leb_spec axis (Z.of_nat r)); [|discriminate]. cbn [andb]. intro E. injection E as <-.
    cbv zeta. destruct (Z.ltb_spec axis (Z.of_nat (S r))); [reflexivity|lia].
Qed.
(** the ONNX operator computes tf.one_hot unless an index counts from the end *)
Lemma f_one_hot_ok {A} wraps axis depth (on off : A) idx y :
  (wraps = true -> forall v, In v (data idx) -> (0 <= v \/ v < - Z.of_nat depth)%Z) ->
  tf_one_hot axis depth on off idx = Some y -> f_one_hot wraps axis (Z.of_nat depth) off on idx = Some y.
Proof.
  intros Hw H. unfold tf_one_hot in H. destruct (one_hot_axis (length (shape idx)) axis) as [k|] eqn:K; [|discriminate]. unfold f_one_hot. cbv zeta. rewrite (axis_one_hot _ _ _ K).
  destruct (Z.leb_spec 0 (Z.of_nat depth)); [|lia]. destruct (build_spec _ _ _ H) as (Sy & Wy & Gy). apply build_is; auto.
  - rewrite Sy. unfold insert_at. now rewrite Nat2Z.id.
  - intros ix Hi. unfold insert_at in Hi. rewrite Nat2Z.id in Hi. rewrite Gy by auto. destruct (get idx _) as [v|] eqn:G; auto. f_equal. f_equal.
    destruct wraps; auto. cbn [andb]. destruct (Z.ltb_spec v 0); auto. assert (In v (data idx)) by (unfold get in G; eauto using nth_error_In). specialize (Hw eq_refl v H2).
    destruct (Z.eqb_spec (v + Z.of_nat depth) (Z.of_nat (nth k ix 0))), (Z.eqb_spec v (Z.of_nat (nth k ix 0))); auto; lia.
Qed.

Section Native.
Context {A : Type} (zero : A) (opset : nat) (idx : tensor Z) (depth : nat) (on off : A) (others : list (value A)).
Notation env := (I idx :: I (Tensor [] [Z.of_nat depth]) :: D (Tensor [] [on]) :: D (Tensor [] [off]) :: others).
Lemma uns_scalar {T} (v : T) : f_unsqueeze [0%Z] (Tensor [] [v]) = Some (tvec [v]).
Proof. exact (unsqueeze_mid [] [] (Tensor [] [v]) eq_refl). Qed.
Lemma ev_hot axis e ix : 9 <= opset -> eval zero opset env e = Some (I ix) ->
  eval zero opset env (Op (OneHot axis) [e; make_unsqueeze opset [0%Z] (Inp 1); Op (Concat 0) [make_unsqueeze opset [0%Z] (Inp 3); make_unsqueeze opset [0%Z] (Inp 2)]]) =
  option_map D (f_one_hot (Nat.leb 11 opset) axis (Z.of_nat depth) off on ix).
Proof.
  intros O He.
  assert (E1 : eval zero opset env (make_unsqueeze opset [0%Z] (Inp 1)) = Some (I (tvec [Z.of_nat depth]))).
  { rewrite (ev_unsqueeze zero opset env [0%Z] (Inp 1) (I (Tensor [] [Z.of_nat depth])) eq_refl). cbn [lift]. now rewrite uns_scalar. }
  assert (E2 : eval zero opset env (make_unsqueeze opset [0%Z] (Inp 2)) = Some (D (tvec [on]))).
  { rewrite (ev_unsqueeze zero opset env [0%Z] (Inp 2) (D (Tensor [] [on])) eq_refl). cbn [lift]. now rewrite uns_scalar. }
  assert (E3 : eval zero opset env (make_unsqueeze opset [0%Z] (Inp 3)) = Some (D (tvec [off]))).
  { rewrite (ev_unsqueeze zero opset env [0%Z] (Inp 3) (D (Tensor [] [off])) eq_refl). cbn [lift]. now rewrite uns_scalar. }
  assert (E4 : eval zero opset env (Op (Concat 0) [make_unsqueeze opset [0%Z] (Inp 3); make_unsqueeze opset [0%Z] (Inp 2)]) = Some (D (tvec [off; on]))).
  { rewrite (ev2 zero opset env _ _ _ _ _ E3 E2). cbn [apply neg_axis Z.ltb Z.compare andb all_data option_map obind].
    change [tvec [off]; tvec [on]] with (map tvec [[off]; [on]]). rewrite concat_vecs by discriminate. reflexivity. }
  rewrite (ev3 zero opset env _ _ _ _ _ _ _ He E1 E4). cbn [apply]. rewrite (proj2 (Nat.ltb_ge opset 9)) by lia. reflexivity.
Qed.
End Native.
Section Native2.
Context {A : Type} (zero : A) (opset : nat) (idx : tensor Z) (depth : nat) (on off : A) (others : list (value A)).
Notation env := (I idx :: I (Tensor [] [Z.of_nat depth]) :: D (Tensor [] [on]) :: D (Tensor [] [off]) :: others).
Lemma native_ok (rank : option nat) axis y : 9 <= opset -> wf idx -> rank = Some (length (shape idx)) \/ rank = None /\ shape idx <> [] ->
  (11 <= opset -> forall v, In v (data idx) -> (0 <= v \/ v < - Z.of_nat depth)%Z) ->
  tf_one_hot axis depth on off idx = Some y -> eval zero opset env (one_hot_9 opset rank axis) = Some (D y).
Proof.
  intros O W Hr Hv H.
  assert (Hw : Nat.leb 11 opset = true -> forall v, In v (data idx) -> (0 <= v \/ v < - Z.of_nat depth)%Z) by (intro E; apply Nat.leb_le in E; auto).
  assert (Q : eval zero opset env (Op (OneHot axis) [Inp 0; make_unsqueeze opset [0%Z] (Inp 1); Op (Concat 0) [make_unsqueeze opset [0%Z] (Inp 3); make_unsqueeze opset [0%Z] (Inp 2)]]) = Some (D y)).
  { rewrite (ev_hot zero opset idx depth on off others axis (Inp 0) idx O eq_refl). now rewrite (f_one_hot_ok _ _ _ _ _ _ _ Hw H). }
  unfold one_hot_9. cbv zeta. destruct rank as [[|r]|]; auto.
  destruct Hr as [E|[E _]]; [|discriminate]. injection E as E. destruct idx as [sh dat]. cbn [shape data] in *. destruct sh; [|discriminate].
  unfold wf in W. cbn [shape data] in W. change (size []) with 1 in W. destruct dat as [|v [|? ?]]; try discriminate.
  assert (Ha : one_hot_axis 0 axis = Some 0 /\ (if Z.eqb axis 0 then (-1)%Z else axis) = (-1)%Z).
  { unfold tf_one_hot in H. cbn [length shape] in H. unfold one_hot_axis in *. destruct (Z.eqb_spec axis (-1)) as [-> |]; auto.
    destruct (Z.leb_spec 0 axis); [|discriminate]. destruct (Z.leb_spec axis (Z.of_nat 0)); [|discriminate]. assert (axis = 0%Z) as -> by lia. auto. }
  destruct Ha as [Ha ->].
  assert (E1 : eval zero opset (I (Tensor [] [v]) :: I (Tensor [] [Z.of_nat depth]) :: D (Tensor [] [on]) :: D (Tensor [] [off]) :: others) (Op Expand [Inp 0; vec [1%Z]]) = Some (I (tvec [v]))).
  { reflexivity. }
  set (t2 := Tensor [1; depth] (data y)).
  assert (Sy : shape y = [depth] /\ wf y /\ forall i, i < depth -> get y [i] = Some (if Z.eqb v (Z.of_nat i) then on else off)).
  { unfold tf_one_hot in H. cbn [length shape] in H. rewrite Ha in H. cbn [firstn skipn app] in H. destruct (build_spec _ _ _ H) as (Sy & Wy & Gy). split; [auto|]. split; [auto|].
    intros i Hi. rewrite Gy; [reflexivity|]. repeat constructor; auto. }
  destruct Sy as (Sy & Wy & Gy).
  assert (E2 : f_one_hot (Nat.leb 11 opset) (-1) (Z.of_nat depth) off on (tvec [v]) = Some t2).
  { apply f_one_hot_ok; auto. unfold tf_one_hot. cbn [tvec shape length one_hot_axis Z.eqb firstn skipn app]. apply build_is; [reflexivity| |].
    - unfold wf, t2. cbn [shape data]. unfold wf in Wy. rewrite Sy in Wy. rewrite Wy. rewrite !size_cons. lia.
    - intros ix Hi. destruct (split_ix [] 1 [depth] ix Hi) as (p & a & q & -> & Hp & Ha' & Hq). destruct (inb_1 _ _ Hq) as (b & -> & Hb). apply inb_length in Hp. destruct p; [|discriminate]. assert (a = 0) as -> by lia.
      transitivity (Some (if Z.eqb v (Z.of_nat b) then on else off)); [reflexivity|]. rewrite <- (Gy b Hb). unfold get, t2. cbn [data shape]. f_equal. rewrite Sy. reflexivity. }
  rewrite (ev_squeeze zero opset _ [0%Z] _ (D t2)).
  - cbn [lift]. assert (Es : f_squeeze [0%Z] t2 = Some (Tensor [depth] (data t2))) by exact (squeeze_mid [] [depth] t2 eq_refl). rewrite Es. cbn [option_map app t2 data]. do 2 f_equal. destruct y as [s dt]. cbn [shape data] in *. now subst s.
  - rewrite (ev_hot zero opset _ depth on off others (-1) _ (tvec [v]) O E1). now rewrite E2.
Qed.
End Native2.

Section Table.
Context {A : Type} (zero one : A) (eqb : A -> A -> bool).
Hypothesis (eqb_ok : forall x y, eqb x y = true <-> x = y).
Hypothesis (zero_one : zero <> one).
Lemma eqb_no x y : x <> y -> eqb x y = false.
Proof. intro N. destruct (eqb x y) eqn:E; auto. apply eqb_ok in E. contradiction. Qed.
Lemma eqb_yes x : eqb x x = true. Proof. now apply eqb_ok. Qed.
Lemma rows_nth {X} (f : nat -> nat -> X) n : forall m s i j, i < m -> j < n ->
  nth_error (flat_map (fun i => map (f i) (seq 0 n)) (seq s m)) (i * n + j) = Some (f (s + i) j).
Proof.
  induction m as [|m IH]; intros s i j Hi Hj; [lia|]. cbn [seq flat_map]. destruct i as [|i].
  - rewrite nth_error_app1 by (rewrite map_length, seq_length; lia). replace (s + 0) with s by lia. cbn [Nat.mul Nat.add].
    apply map_nth_error. rewrite (nth_error_nth' _ 0) by (rewrite seq_length; lia). now rewrite seq_nth.
  - rewrite nth_error_app2; rewrite map_length, seq_length; [|cbn [Nat.mul]; lia]. replace (S i * n + j - n) with (i * n + j) by (cbn [Nat.mul]; lia).
    rewrite IH by lia. do 2 f_equal; lia.
Qed.
Lemma table_get n on off i j : ~ (on = zero /\ off = one) -> i < n -> j < n ->
  get (Tensor [n; n] (table zero one eqb n on off)) [i; j] = Some (if Nat.eqb i j then on else off).
Proof.
  intros Ok Hi Hj. unfold get. cbn [shape data ravel size fold_right]. rewrite !Nat.mul_1_r. replace (i * n + (j + 0)) with (i * n + j) by lia.
  assert (E : nth_error (eye zero one n) (i * n + j) = Some (if Nat.eqb i j then one else zero)).
  { unfold eye. now rewrite (rows_nth (fun i j => if Nat.eqb i j then one else zero)) by auto. }
  unfold table, assign. destruct (eqb on zero) eqn:Ez; cbn [negb].
  - apply eqb_ok in Ez. subst on. rewrite map_map. rewrite (map_nth_error _ _ _ E). f_equal. destruct (Nat.eqb i j).
    + rewrite (eqb_no one zero) by congruence. now rewrite eqb_yes.
    + rewrite eqb_yes. rewrite eqb_no; auto.
  - rewrite map_map. rewrite (map_nth_error _ _ _ E). f_equal. destruct (Nat.eqb i j).
    + rewrite eqb_yes. now rewrite Ez.
    + rewrite (eqb_no zero one) by auto. now rewrite eqb_yes.
Qed.
Lemma table_length n on off : length (table zero one eqb n on off) = n * n.
Proof.
  unfold table, assign. assert (length (eye zero one n) = n * n).
  { unfold eye. assert (Q : forall l, length (flat_map (fun i => map (fun j => if Nat.eqb i j then one else zero) (seq 0 n)) l) = length l * n).
    { induction l as [|a l IH]; auto. cbn [flat_map length]. rewrite app_length, map_length, seq_length, IH. lia. }
    now rewrite Q, seq_length. }
  destruct (negb _); rewrite !map_length; auto.
Qed.

Context (opset : nat) (l : list Z) (depth : nat) (on off : A) (others : list (value A)).
Lemma gather_ok axis y e : ~ (on = zero /\ off = one) ->
  (forall v, In v l -> (0 <= v < Z.of_nat depth)%Z) ->
  tf_one_hot axis depth on off (tvec l) = Some y ->
  one_hot_1 zero one eqb (Some 1) axis (Some (Z.of_nat depth)) (Some on) (Some off) = Some e ->
  eval zero opset (I (tvec l) :: others) e = Some (D y).
Proof.
  intros Ok Hv H He. cbn [one_hot_1] in He. destruct (Z.ltb_spec (Z.of_nat depth) 0); [lia|]. rewrite Nat2Z.id in He. injection He as <-.
  set (t := Tensor [depth; depth] (table zero one eqb depth on off)).
  assert (Wt : wf t) by (unfold wf, t; cbn [shape data]; rewrite table_length, !size_cons; change (size []) with 1; lia).
  assert (G : exists z, f_gather 0 t (tvec l) = Some z /\ wf z /\ shape z = [length l; depth] /\ forall i j v, nth_error l i = Some v -> j < depth -> get z [i; j] = Some (if Z.eqb v (Z.of_nat j) then on else off)).
  { unfold f_gather. cbn [t shape length]. change (norm_axis 2 0) with (Some 0). cbv zeta. cbn [firstn app skipn nth tvec shape length].
    match goal with |- exists z0, build ?sh ?f = Some z0 /\ _ => assert (F : forall i j v, nth_error l i = Some v -> j < depth -> f [i; j] = Some (if Z.eqb v (Z.of_nat j) then on else off)) end.
    { intros i j v Hn Hj. cbn [firstn skipn Nat.add]. match goal with |- match get ?q ?w with _ => _ end = _ => replace (get q w) with (Some v) by (symmetry; rewrite <- Hn; apply (get_vec (length l) l i)) end. cbn [app]. destruct (Hv v (nth_error_In _ _ Hn)) as [V1 V2].
      rewrite <- (Z2Nat.id v V1). rewrite seq_axis by lia. unfold t. rewrite table_get by (auto; lia). f_equal.
      destruct (Nat.eqb_spec (Z.to_nat v) j), (Z.eqb_spec (Z.of_nat (Z.to_nat v)) (Z.of_nat j)); auto; lia. }
    match type of F with forall i j v, _ -> _ -> ?f _ = _ => destruct (build_ex [length l; depth] f) as (z & Dz & Wz & Sz & Gz) end.
    - intros ix Hi. destruct (split_ix [] (length l) [depth] ix Hi) as (p & a & q & -> & Hp & Ha & Hq). destruct (inb_1 _ _ Hq) as (b & -> & Hb). apply inb_length in Hp. destruct p; [|discriminate].
      cbn [app]. destruct (nth_error l a) as [v|] eqn:Hn; [|apply nth_error_None in Hn; lia]. rewrite (F a b v Hn Hb). discriminate.
    - exists z. split; [exact Dz|]. split; [auto|]. split; [auto|]. intros i j v Hn Hj. rewrite Gz; [now apply F|]. apply (inb_mid [] i [j] [] (length l) [depth]); [constructor| |repeat constructor; auto].
      apply nth_error_Some. congruence. }
  destruct G as (z & Dz & Wz & Sz & Gz).
  assert (Eg : eval zero opset (I (tvec l) :: others) (Op (Gather 0) [CD t; Inp 0]) = Some (D z)).
  { rewrite (ev2 zero opset (I (tvec l) :: others) (Gather 0) (CD t) (Inp 0) (D t) (I (tvec l)) eq_refl eq_refl). cbn [apply lift]. now rewrite Dz. }
  unfold tf_one_hot in H. cbn [tvec shape length] in H. unfold one_hot_axis in H.
  assert (At : forall ix, inb ix [length l; depth] -> exists i j v, ix = [i; j] /\ nth_error l i = Some v /\ j < depth).
  { intros ix Hi. destruct (split_ix [] (length l) [depth] ix Hi) as (p & a & q & -> & Hp & Ha & Hq). destruct (inb_1 _ _ Hq) as (b & -> & Hb). apply inb_length in Hp. destruct p; [|discriminate].
    destruct (nth_error l a) as [v|] eqn:Hn; [|apply nth_error_None in Hn; lia]. exists a, b, v. auto. }
  assert (Last : build [length l; depth] (fun ix => match get (Tensor [length l] l) (firstn 1 ix ++ skipn 2 ix) with Some v => Some (if Z.eqb v (Z.of_nat (nth 1 ix 0)) then on else off) | None => None end) = Some y -> Some (D z) = Some (D y)).
  { intro H1. destruct (build_spec _ _ _ H1) as (Sy & Wy & Gy). do 2 f_equal. apply tensor_ext; auto; [congruence|]. rewrite Sz. intros ix Hi. rewrite Gy by auto.
    destruct (At ix Hi) as (i & j & v & -> & Hn & Hj). rewrite (Gz i j v Hn Hj). cbn [firstn skipn app nth]. rewrite get_vec, Hn. reflexivity. }
  destruct (Z.eqb_spec axis (-1)) as [-> |]; [cbn [Z.eqb]; rewrite Eg; now apply Last|].
  destruct (Z.leb_spec 0 axis); [|discriminate]. destruct (Z.leb_spec axis (Z.of_nat 1)); [|discriminate]. cbn [andb] in H.
  destruct (Z.eqb_spec axis 0) as [-> |].
  - change (Z.to_nat 0) with 0 in H. cbn [firstn skipn app] in H. rewrite (ev1 zero opset _ (Transpose None) _ _ Eg). cbn [apply lift].
    destruct (build_spec _ _ _ H) as (Sy & Wy & Gy).
    assert (E : f_transpose None z = Some y).
    { unfold f_transpose. cbv zeta. rewrite Sz. cbn [length seq rev app]. cbn [Nat.eqb forallb Nat.ltb Nat.leb nodupb existsb negb andb orb pick map nth]. apply build_is; auto.
      intros ix Hi. destruct (split_ix [] depth [length l] ix Hi) as (p & j & q & -> & Hp & Hj & Hq). destruct (inb_1 _ _ Hq) as (i & -> & Hi'). apply inb_length in Hp. destruct p; [|discriminate].
      rewrite Gy by auto. cbn [app]. destruct (nth_error l i) as [v|] eqn:Hn; [|apply nth_error_None in Hn; lia].
      transitivity (get z [i; j]); [reflexivity|]. rewrite (Gz i j v Hn Hj). cbn [firstn skipn app nth]. match goal with |- _ = match get ?q ?w with _ => _ end => replace (get q w) with (Some v) by (symmetry; rewrite <- Hn; apply (get_vec (length l) l i)) end. reflexivity. }
    now rewrite E.
  - assert (axis = 1%Z) as -> by lia. rewrite Eg. apply Last. exact H.
Qed.
End Table.
