(** Pack, Unpack, Split and SplitV. *)
From Coq Require Import List Arith ZArith Bool Lia.
From Verif Require Import Tensor FoldModel OnnxSpec TensorProofs TOps TOpsProofs TOpsProofs2 SpaceModel SpaceProofs2 PushProofs PackModel PackSpec.
Import ListNotations.
Local Open Scope list_scope.

Lemma ev_concat_data {A} (zero : A) opset env axis es ts : es <> [] -> Forall2 (fun e t => eval zero opset env e = Some (D t)) es ts ->
  eval zero opset env (Op (Concat axis) es) = if neg_axis opset axis then None else option_map D (f_concat axis ts).
Proof.
  intros N F. cbn [eval]. assert (E : sequence (map (eval zero opset env) es) = Some (map D ts)).
  { clear N. induction F as [|e t es' ts' H F' IH]; auto. cbn [map sequence]. now rewrite H, IH. }
  rewrite E. cbn [obind]. inversion F; subst; [congruence|]. cbn [map apply].
  assert (Q : forall l : list (tensor A), all_data (map D l) = Some l).
  { intro m. induction m as [|u m IH]; auto. cbn [map all_data]. now rewrite IH. }
  change (D y :: map D l') with (map (@D A) (y :: l')). rewrite Q. reflexivity.
Qed.

Lemma part_of_ones {T} (ts : list (tensor T)) : forall c, part_of c ts (repeat 1 (length ts)) = option_map (fun t => (t, 0)) (nth_error ts c).
Proof.
  induction ts as [|t ts IH]; intros [|c]; auto. cbn [length repeat part_of]. change (Nat.ltb (S c) 1) with false. cbv iota.
  replace (S c - 1) with c by lia. apply IH.
Qed.
Lemma total_ones n : total (repeat 1 n) = n.
Proof. induction n as [|n IH]; [reflexivity|]. change (repeat 1 (S n)) with (1 :: repeat 1 n). unfold total in *. cbn [fold_right]. rewrite IH. reflexivity. Qed.
Lemma firstn_skipn_len {X} k (l : list X) : k <= length l -> l = firstn k l ++ skipn k l /\ length (firstn k l) = k.
Proof. intro H. rewrite firstn_skipn, firstn_length. split; auto. lia. Qed.

Lemma pack_ok {A} (zero : A) opset rank axis (xs : list (tensor A)) y e others : Forall wf xs ->
  (rank = option_map (fun x => length (shape x)) (nth_error xs 0) \/ rank = None) ->
  tf_stack axis xs = Some y -> pack opset rank axis (length xs) = Some e ->
  eval zero opset (map D xs ++ others) e = Some (D y).
Proof.
  intros W Hr TF P. destruct xs as [|x0 xs0]; [discriminate|]. set (xs := x0 :: xs0) in *. unfold tf_stack in TF. unfold xs in TF at 1.
  set (sh := shape x0) in *. destruct (norm_axis (S (length sh)) axis) as [k|] eqn:Ek; [|discriminate].
  destruct (forallb (fun y => list_eqb (shape y) sh) xs) eqn:Es; [|discriminate]. destruct (build_spec _ _ _ TF) as (Sy & Wy & Gy).
  assert (Hk := norm_axis_lt _ _ _ Ek).
  assert (Ea : pack_axis rank axis = Some (Z.of_nat k)).
  { unfold pack in P. destruct (pack_axis rank axis) eqn:E; [|discriminate]. rewrite <- E. unfold pack_axis in *. unfold norm_axis in Ek.
    destruct (Z.leb_spec 0 axis).
    - rewrite (proj2 (Z.ltb_ge axis 0)) by lia. destruct (Z.ltb_spec axis (Z.of_nat (S (length sh)))); [|discriminate]. injection Ek as <-. f_equal. lia.
    - rewrite (proj2 (Z.ltb_lt axis 0)) in * by lia. destruct Hr as [-> | ->]; [|discriminate]. cbn [nth_error option_map xs].
      destruct (Z.leb_spec (- Z.of_nat (S (length sh))) axis); [|discriminate]. injection Ek as <-. f_equal. fold sh. lia. }
  unfold pack in P. rewrite Ea in P. injection P as <-.
  set (pre := firstn k sh). set (post := skipn k sh). destruct (firstn_skipn_len k sh ltac:(lia)) as [Esh Lpre]. fold pre post in Esh, Lpre.
  assert (Sx : forall x, In x xs -> shape x = pre ++ post).
  { intros x Hx. rewrite forallb_forall in Es. specialize (Es x Hx). unfold list_eqb in Es. destruct list_eq_dec; [congruence|discriminate]. }
  set (ts := map (fun x => Tensor (pre ++ 1 :: post) (data x)) xs).
  assert (F : Forall2 (fun e t => eval zero opset (map D xs ++ others) e = Some (D t)) (map (fun i => make_unsqueeze opset [Z.of_nat k] (Inp i)) (seq 0 (length xs))) ts).
  { assert (Q : forall l j, (forall i, nth_error l i = nth_error xs (j + i)) -> (forall x, In x l -> shape x = pre ++ post) ->
      Forall2 (fun e t => eval zero opset (map D xs ++ others) e = Some (D t)) (map (fun i => make_unsqueeze opset [Z.of_nat k] (Inp i)) (seq j (length l))) (map (fun x => Tensor (pre ++ 1 :: post) (data x)) l)).
    { induction l as [|x l IH]; intros j Hj Hl; cbn [length seq map]; constructor.
      - assert (Ei : eval zero opset (map D xs ++ others) (Inp j) = Some (D x)).
        { cbn [eval]. specialize (Hj 0). cbn in Hj. rewrite Nat.add_0_r in Hj. symmetry in Hj. rewrite nth_error_app1 by (rewrite map_length; apply nth_error_Some; congruence).
          now rewrite nth_error_map, Hj. }
        rewrite (ev_unsqueeze _ _ _ _ _ _ Ei). cbn [lift]. rewrite <- Lpre. rewrite (unsqueeze_mid pre post x) by (apply Hl; now left). reflexivity.
      - apply IH; [|intros; apply Hl; now right]. intro i. replace (S j + i) with (j + S i) by lia. exact (Hj (S i)). }
    apply (Q xs 0); auto. }
  rewrite (ev_concat_data zero opset _ _ _ ts); auto; [|unfold xs; discriminate]. rewrite neg_axis_nat.
  destruct (concat_spec pre post ts (repeat 1 (length ts))) as (z & Dz & Wz & Sz & Gz).
  { unfold ts, xs. discriminate. }
  { unfold ts. rewrite Forall_forall in W. clear -W Sx. induction xs as [|x l IH]; cbn; constructor.
    - cbn [shape]. split; auto. unfold wf. cbn [shape data]. rewrite (W x) by (now left). rewrite (Sx x) by (now left). rewrite !size_app, size_cons. lia.
    - apply IH; intros; [apply W|apply Sx]; now right. }
  rewrite <- Lpre at 1. rewrite Dz. cbn [option_map]. do 2 f_equal. rewrite total_ones in *. assert (Lts : length ts = length xs) by (unfold ts; now rewrite map_length).
  apply tensor_ext; auto.
  - rewrite Sz, Sy, Lts. reflexivity.
  - rewrite Sz. intros ix Hi. rewrite Gy by (fold pre post; rewrite <- Lts; auto). apply split_ix in Hi. destruct Hi as (p & c & q & -> & Hp & Hc & Hq).
    rewrite Gz by auto. assert (Lp := inb_length _ _ Hp). rewrite part_of_ones. unfold ts. rewrite nth_error_map.
    replace k with (length p) by lia. destruct (firstn_mid p c q) as (-> & -> & _). rewrite nth_mid.
    destruct (nth_error xs c) as [x|] eqn:E; auto. cbn [option_map]. apply get_ones; [lia|]. apply Sx. eapply nth_error_In; eauto.
Qed.

(** ** Split *)
Lemma split_mid {T} pre d post (x : tensor T) n k : wf x -> shape x = pre ++ d :: post -> k < n -> d mod n = 0 ->
  exists y, f_split (Z.of_nat (length pre)) n k x = Some y /\ wf y /\ shape y = pre ++ d / n :: post /\
    forall p c q, inb p pre -> c < d / n -> inb q post -> get y (p ++ c :: q) = get x (p ++ k * (d / n) + c :: q).
Proof.
  intros W S0 Hk Hd. unfold f_split. rewrite S0, norm_axis_mid. rewrite nth_mid. rewrite (proj2 (Nat.ltb_lt k n) Hk), Hd. cbn [Nat.eqb andb]. rewrite set_dim_mid.
  assert (Q : forall p c q, inb p pre -> get x (set_dim (length pre) (k * (d / n) + nth (length pre) (p ++ c :: q) 0) (p ++ c :: q)) = get x (p ++ k * (d / n) + c :: q)).
  { intros p c q Hp. rewrite <- (inb_length _ _ Hp), nth_mid, set_dim_mid. reflexivity. }
  match goal with |- exists z0, build ?sh ?f = Some z0 /\ _ => destruct (build_ex sh f) as (z & B & S1 & W1 & G1) end.
  - intros ix Hi. apply split_ix in Hi. destruct Hi as (p & c & q & -> & Hp & Hc & Hq). rewrite Q by auto. apply get_some; auto. rewrite S0. apply inb_mid; auto.
    assert (d = n * (d / n)) by (apply Nat.div_exact; lia). nia.
  - exists z. split; auto. split; auto. split; auto. intros p c q Hp Hc Hq. rewrite G1 by (now apply inb_mid). apply Q; auto.
Qed.
Lemma unpack_ok {A} (zero : A) opset rank axis num i (x y : tensor A) e others : wf x ->
  (rank = Some (length (shape x)) \/ rank = None) ->
  tf_unstack axis num i x = Some y -> unpack opset rank axis num i = Some e ->
  eval zero opset (D x :: others) e = Some (D y).
Proof.
  intros W Hr TF P. unfold tf_unstack in TF. destruct (norm_axis (length (shape x)) axis) as [k|] eqn:Ek; [|discriminate].
  destruct (Nat.eqb_spec (nth k (shape x) 0) num) as [En|]; [|discriminate]. destruct (Nat.ltb_spec i num) as [Hi|]; [|discriminate]. cbn [andb] in TF.
  destruct (build_spec _ _ _ TF) as (Sy & Wy & Gy). assert (Hk := norm_axis_lt _ _ _ Ek).
  assert (Ee : e = make_squeeze opset [Z.of_nat k] (Op (Split (Z.of_nat k) num i) [Inp 0])).
  { unfold unpack in P. unfold norm_axis in Ek. destruct (Z.leb_spec 0 axis).
    - rewrite (proj2 (Z.ltb_ge axis 0)) in P by lia. injection P as <-. destruct (Z.ltb_spec axis (Z.of_nat (length (shape x)))); [|discriminate]. injection Ek as <-. rewrite Z2Nat.id by lia. reflexivity.
    - rewrite (proj2 (Z.ltb_lt axis 0)) in P by lia. destruct Hr as [-> | ->]; [|discriminate]. injection P as <-.
      destruct (Z.leb_spec (- Z.of_nat (length (shape x))) axis); [|discriminate]. injection Ek as <-. rewrite Z2Nat.id by lia. reflexivity. }
  subst e. destruct (mid_axis 0 (shape x) k Hk) as [Sx Lp]. rewrite En in Sx. set (pre := firstn k (shape x)) in *. set (post := skipn (S k) (shape x)) in *.
  assert (Nm : num mod num = 0) by (apply Nat.mod_same; lia).
  destruct (split_mid pre num post x num i W Sx Hi Nm) as (t & Dt & Wt & St & Gt). rewrite Nat.div_same in * by lia. rewrite Lp in Dt.
  assert (E1 : eval zero opset (D x :: others) (Op (Split (Z.of_nat k) num i) [Inp 0]) = Some (D t)).
  { cbn [eval map sequence nth_error obind apply]. rewrite neg_axis_nat. cbn [lift]. now rewrite Dt. }
  rewrite (ev_squeeze _ _ _ _ _ _ E1). cbn [lift]. rewrite <- Lp. rewrite (squeeze_mid pre post t St). cbn [option_map]. do 2 f_equal.
  apply tensor_ext; auto.
  - unfold wf in *. cbn [shape data]. rewrite Wt, St, !size_app, size_cons. lia.
  - cbn [shape]. intros ix Hx. rewrite Gy by auto.
    assert (Li := inb_length _ _ Hx). rewrite app_length in Li.
    set (p := firstn k ix). set (q := skipn k ix). assert (Lpp : length p = length pre) by (unfold p; rewrite firstn_length; lia).
    assert (Ei : ix = p ++ q) by (symmetry; apply firstn_skipn). rewrite Ei in Hx. apply inb_app in Hx; auto. destruct Hx as [Hp Hq].
    transitivity (get t (p ++ 0 :: q)).
    + rewrite Ei at 1. apply reindex. rewrite St, !ravel_app by auto. rewrite size_cons. cbn [ravel]. lia.
    + rewrite Gt by (auto; lia). do 3 f_equal. lia.
Qed.
Lemma section_is {T} pre d post (x z : tensor T) start len y : wf z -> shape x = pre ++ d :: post -> shape z = pre ++ len :: post ->
  (forall p c q, inb p pre -> c < len -> inb q post -> get z (p ++ c :: q) = get x (p ++ start + c :: q)) ->
  section_of (length pre) start len x = Some y -> z = y.
Proof.
  intros Wz Sx Sz Gz H. unfold section_of in H. destruct (build_spec _ _ _ H) as (Sy & Wy & Gy). rewrite Sx in *. destruct (firstn_mid pre d post) as (E1 & E2 & _). rewrite E1, E2 in *.
  apply tensor_ext; auto; [congruence|]. rewrite Sz. intros ix Hi. rewrite Gy by auto. apply split_ix in Hi. destruct Hi as (p & c & q & -> & Hp & Hc & Hq).
  rewrite Gz by auto. rewrite <- (inb_length _ _ Hp). destruct (firstn_mid p c q) as (-> & -> & _). now rewrite nth_mid.
Qed.
Lemma f_split_norm {T} r a k (x : tensor T) n i : length (shape x) = r -> norm_axis r a = Some k -> f_split a n i x = f_split (Z.of_nat k) n i x.
Proof. intros L E. unfold f_split. rewrite L, E. rewrite seq_axis by (eapply norm_axis_lt; eauto). reflexivity. Qed.
Lemma split_ok {A} (zero : A) opset axis num i (x y : tensor A) others : wf x -> (0 <= axis)%Z \/ 11 <= opset ->
  tf_split axis num i x = Some y -> eval zero opset (D x :: others) (split axis num i) = Some (D y).
Proof.
  intros W Ho TF. unfold tf_split in TF. destruct (norm_axis (length (shape x)) axis) as [k|] eqn:Ek; [|discriminate].
  destruct (_ && _ && _) eqn:C in TF; [|discriminate]. rewrite !andb_true_iff in C. destruct C as ((C1 & C2) & C3). apply Nat.ltb_lt in C1, C3. apply Nat.eqb_eq in C2.
  assert (Hk := norm_axis_lt _ _ _ Ek). destruct (mid_axis 0 (shape x) k Hk) as [Sx Lp].
  destruct (split_mid _ _ _ x num i W Sx C3 C2) as (t & Dt & Wt & St & Gt). rewrite Lp in Dt.
  assert (t = y) by (apply (section_is _ _ _ x t _ _ y Wt Sx St Gt); rewrite Lp; exact TF). subst t.
  unfold split. cbn [eval map sequence nth_error obind apply].
  assert (En : neg_axis opset axis = false). { unfold neg_axis. destruct (Z.ltb_spec axis 0); auto. cbn [andb]. apply Nat.ltb_ge. lia. }
  rewrite En. cbn [lift]. now rewrite (f_split_norm _ _ _ _ _ _ eq_refl Ek), Dt.
Qed.

(** ** SplitV *)
Definition zsum := fold_right Z.add 0%Z.
Lemma zsum_app a b : zsum (a ++ b) = (zsum a + zsum b)%Z.
Proof. unfold zsum. induction a as [|x a IH]; cbn; auto. rewrite IH. lia. Qed.
Lemma zsum_nonneg l : forallb (fun z => (0 <=? z)%Z) l = true -> (0 <= zsum l)%Z.
Proof. induction l as [|x l IH]; [cbn; lia|]. cbn [forallb]. rewrite andb_true_iff, Z.leb_le. intros [H K]. apply IH in K. unfold zsum in *. cbn [fold_right]. lia. Qed.
Lemma sizes_mid {T} pre d post (x : tensor T) sizes k len : wf x -> shape x = pre ++ d :: post -> forallb (fun z => (0 <=? z)%Z) sizes = true ->
  zsum sizes = Z.of_nat d -> nth_error sizes k = Some len ->
  exists y, f_split_sizes (Z.of_nat (length pre)) sizes k x = Some y /\ wf y /\ shape y = pre ++ Z.to_nat len :: post /\
    forall p c q, inb p pre -> c < Z.to_nat len -> inb q post -> get y (p ++ c :: q) = get x (p ++ Z.to_nat (zsum (firstn k sizes)) + c :: q).
Proof.
  intros W S0 Hs Hz Hk. unfold f_split_sizes. rewrite S0, norm_axis_mid, Hk, nth_mid, Hs. unfold zsum in Hz. rewrite Hz, Z.eqb_refl. cbn [andb]. rewrite set_dim_mid.
  fold (zsum (firstn k sizes)). set (st := Z.to_nat (zsum (firstn k sizes))).
  assert (Q : forall p c q, inb p pre -> get x (set_dim (length pre) (st + nth (length pre) (p ++ c :: q) 0) (p ++ c :: q)) = get x (p ++ st + c :: q)).
  { intros p c q Hp. rewrite <- (inb_length _ _ Hp), nth_mid, set_dim_mid. reflexivity. }
  assert (B : st + Z.to_nat len <= d).
  { assert (E := firstn_skipn k sizes). destruct (skipn k sizes) as [|l' rest] eqn:Es.
    - exfalso. rewrite app_nil_r in E. apply (f_equal (@length Z)) in E. rewrite firstn_length in E. assert (k < length sizes) by (apply nth_error_Some; congruence). lia.
    - assert (l' = len). { assert (X := Hk). rewrite <- E in X. assert (Lk : length (firstn k sizes) = k) by (rewrite firstn_length; assert (k < length sizes) by (apply nth_error_Some; congruence); lia).
        rewrite nth_error_app2, Lk, Nat.sub_diag in X by lia. cbn in X. congruence. }
      subst l'. rewrite <- E in Hs, Hz. rewrite forallb_app in Hs. apply andb_true_iff in Hs. destruct Hs as [H1 H2]. cbn [forallb] in H2. apply andb_true_iff in H2. destruct H2 as [H2 H3].
      apply Z.leb_le in H2. apply zsum_nonneg in H1, H3. fold (zsum (firstn k sizes ++ len :: rest)) in Hz. rewrite zsum_app in Hz. unfold zsum in Hz at 2. cbn [fold_right] in Hz. fold (zsum rest) in Hz. unfold st. lia. }
  match goal with |- exists z0, build ?sh ?f = Some z0 /\ _ => destruct (build_ex sh f) as (z & Bz & S1 & W1 & G1) end.
  - intros ix Hi. apply split_ix in Hi. destruct Hi as (p & c & q & -> & Hp & Hc & Hq). rewrite Q by auto. apply get_some; auto. rewrite S0. apply inb_mid; auto. lia.
  - exists z. split; auto. split; auto. split; auto. intros p c q Hp Hc Hq. rewrite G1 by (now apply inb_mid). apply Q; auto.
Qed.
Lemma f_sizes_norm {T} r a k (x : tensor T) l i : length (shape x) = r -> norm_axis r a = Some k -> f_split_sizes a l i x = f_split_sizes (Z.of_nat k) l i x.
Proof. intros L E. unfold f_split_sizes. rewrite L, E. rewrite seq_axis by (eapply norm_axis_lt; eauto). reflexivity. Qed.

Definition full_sizes (d : Z) (sizes : list Z) : list Z :=
  map (fun s => if Z.eqb s (-1) then (d - zsum (filter (fun s => negb (Z.eqb s (-1))) sizes))%Z else s) sizes.
Lemma tf_sizes_inv {A} axis sizes i (x y : tensor A) : wf x -> tf_split_sizes axis sizes i x = Some y ->
  exists k, norm_axis (length (shape x)) axis = Some k /\
    (forall s, In s sizes -> (-1 <= s)%Z) /\
    let full := full_sizes (Z.of_nat (nth k (shape x) 0)) sizes in
    option_map D (f_split_sizes (Z.of_nat k) full i x) = Some (@D A y).
Proof.
  intros W TF. unfold tf_split_sizes in TF. destruct (norm_axis (length (shape x)) axis) as [k|] eqn:Ek; [|discriminate]. cbv zeta in TF.
  fold zsum in TF. set (d := nth k (shape x) 0) in *. set (known := zsum (filter (fun s => negb (Z.eqb s (-1))) sizes)) in *.
  destruct (_ && _ && _ && _) eqn:C in TF; [|discriminate]. rewrite !andb_true_iff in C. destruct C as (((C1 & C2) & C3) & C4).
  apply Nat.leb_le in C2. apply Nat.ltb_lt in C4. rewrite forallb_forall in C1.
  exists k. split; auto. split; [intros s Hs; apply Z.leb_le; now apply C1|]. cbv zeta. fold d.
  change (map (fun s => if Z.eqb s (-1) then (Z.of_nat d - known)%Z else s) sizes) with (full_sizes (Z.of_nat d) sizes) in TF.
  set (full := full_sizes (Z.of_nat d) sizes) in *.
  assert (Sum : forall l rest, zsum (map (fun s => if Z.eqb s (-1) then rest else s) l) = (zsum (filter (fun s => negb (Z.eqb s (-1))) l) + Z.of_nat (length (filter (Z.eqb (-1)) l)) * rest)%Z).
  { clear. intros l rest. unfold zsum. induction l as [|s l IH]; [cbn; lia|]. cbn [map filter fold_right]. rewrite IH. rewrite (Z.eqb_sym s). destruct (Z.eqb (-1) s) eqn:E; cbn [negb length fold_right]; lia. }
  assert (Zd : zsum full = Z.of_nat d /\ (length (filter (Z.eqb (-1)) sizes) = 0 \/ (known <= Z.of_nat d)%Z)).
  { unfold full, full_sizes. fold known. rewrite Sum. fold known. destruct (length (filter (Z.eqb (-1)) sizes)) as [|[|]] eqn:E; [| |lia].
    - cbn in C3. apply Z.eqb_eq in C3. lia.
    - cbn in C3. apply Z.leb_le in C3. lia. }
  destruct Zd as [Zd Kd].
  assert (NN : forallb (fun z => (0 <=? z)%Z) full = true).
  { apply forallb_forall. intros z Hz. unfold full, full_sizes in Hz. apply in_map_iff in Hz. destruct Hz as (s & <- & Hs). fold known. destruct (Z.eqb_spec s (-1)) as [->|N].
    - apply Z.leb_le. destruct Kd as [K|K]; [|lia]. exfalso. assert (In (-1)%Z (filter (Z.eqb (-1)) sizes)) by (apply filter_In; split; auto). destruct (filter (Z.eqb (-1)) sizes); [auto|discriminate].
    - apply C1 in Hs. apply Z.leb_le in Hs. apply Z.leb_le. lia. }
  assert (Hk := norm_axis_lt _ _ _ Ek). destruct (mid_axis 0 (shape x) k Hk) as [Sx Lp]. fold d in Sx.
  assert (Hi : nth_error full i = Some (nth i full 0%Z)) by (apply nth_error_nth'; unfold full, full_sizes; now rewrite map_length).
  destruct (sizes_mid _ _ _ x full i _ W Sx NN Zd Hi) as (t & Dt & Wt & St & Gt). rewrite Lp in Dt. rewrite Dt. cbn [option_map]. do 2 f_equal.
  apply (section_is _ _ _ x t _ _ y Wt Sx St Gt). rewrite Lp. exact TF.
Qed.

Lemma filter_same sizes : (forall s, In s sizes -> (-1 <= s)%Z) -> filter (fun i => (0 <=? i)%Z) sizes = filter (fun s => negb (Z.eqb s (-1))) sizes.
Proof.
  intro H. apply filter_ext_in. intros s Hs. apply H in Hs. destruct (Z.leb_spec 0 s), (Z.eqb_spec s (-1)); cbn; auto; lia.
Qed.
Lemma py_index_norm (l : list Z) axis k : norm_axis (length l) axis = Some k -> py_index l axis = nth_error l k.
Proof.
  unfold norm_axis, py_index. cbv zeta. intro H. destruct (Z.leb_spec 0 axis).
  - rewrite (proj2 (Z.ltb_ge axis 0)) by lia. rewrite (proj2 (Z.ltb_ge axis 0)) by lia. destruct (Z.ltb axis _); [|discriminate]. now injection H as <-.
  - rewrite (proj2 (Z.ltb_lt axis 0)) by lia. destruct (Z.leb_spec (- Z.of_nat (length l)) axis); [|discriminate]. injection H as <-.
    rewrite (proj2 (Z.ltb_ge _ 0)) by lia. f_equal; lia.
Qed.
Lemma static_nth {A} sh (x : tensor A) k s : static_of sh x -> nth_error sh k = Some s -> s = (-1)%Z \/ s = Z.of_nat (nth k (shape x) 0).
Proof.
  unfold static_of. intro F. revert k. induction F as [|a b l m H F IH]; intros [|k] E; cbn in *; try discriminate.
  - injection E as ->. exact H.
  - now apply IH.
Qed.
Lemma split_sizes_full {A} shape0 sizes axis k l' (x : tensor A) : (forall s, In s sizes -> (-1 <= s)%Z) ->
  norm_axis (length (shape x)) axis = Some k ->
  match shape0 with Some sh => static_of sh x /\ (In (-1)%Z sizes -> nth_error sh k <> Some (-1)%Z) | None => True end ->
  split_sizes shape0 sizes axis = Some l' -> l' = full_sizes (Z.of_nat (nth k (shape x) 0)) sizes.
Proof.
  intros Hs Ek Hsh E. unfold split_sizes in E. destruct (existsb (Z.eqb (-1)) sizes) eqn:Ex.
  - destruct shape0 as [sh|]; [|discriminate]. destruct Hsh as [Hst Hk]. assert (L : length sh = length (shape x)) by (clear -Hst; induction Hst; cbn; congruence).
    rewrite (py_index_norm _ _ k) in E by now rewrite L. destruct (nth_error sh k) as [fs|] eqn:En; [|discriminate]. injection E as <-.
    assert (I : In (-1)%Z sizes). { apply existsb_exists in Ex. destruct Ex as (z & Hz & Q). apply Z.eqb_eq in Q. now subst z. }
    destruct (static_nth _ _ _ _ Hst En) as [->| ->]; [exfalso; now apply (Hk I)|].
    unfold full_sizes. rewrite filter_same by auto. reflexivity.
  - injection E as <-. unfold full_sizes. symmetry. transitivity (map (fun z : Z => z) sizes); [|apply map_id]. apply map_ext_in. intros s H0. destruct (Z.eqb_spec s (-1)) as [->|]; auto.
    assert (existsb (Z.eqb (-1)) sizes = true) by (apply existsb_exists; exists (-1)%Z; auto). congruence.
Qed.
Lemma ev_vec_ints {A} (zero : A) opset env l : eval zero opset env (vec l) = Some (I (Tensor [length l] l)).
Proof. reflexivity. Qed.
Lemma split_v_ok {A} (zero : A) opset shape0 sizes axis i (x y : tensor A) e others : wf x -> (0 <= axis)%Z \/ 11 <= opset ->
  match shape0 with
  | Some sh => static_of sh x /\ (In (-1)%Z sizes -> forall k, norm_axis (length (shape x)) axis = Some k -> nth_error sh k <> Some (-1)%Z)
  | None => True
  end ->
  tf_split_sizes axis sizes i x = Some y -> split_v opset shape0 (Some sizes) axis i = Some e ->
  eval zero opset (D x :: others) e = Some (D y).
Proof.
  intros W Ho Hsh TF P. destruct (tf_sizes_inv _ _ _ _ _ W TF) as (k & Ek & Hs & F). cbv zeta in F. unfold split_v in P.
  destruct (split_sizes shape0 sizes axis) as [l'|] eqn:El; [|discriminate].
  assert (Q : l' = full_sizes (Z.of_nat (nth k (shape x) 0)) sizes).
  { eapply split_sizes_full; eauto. destruct shape0 as [sh|]; auto. destruct Hsh as [H1 H2]. split; auto. }
  rewrite <- Q in F. rewrite <- (f_sizes_norm _ _ _ x l' i eq_refl Ek) in F.
  assert (En : neg_axis opset axis = false). { unfold neg_axis. destruct (Z.ltb_spec axis 0); auto. cbn [andb]. apply Nat.ltb_ge. lia. }
  destruct (Nat.ltb opset 13) eqn:O; injection P as <-.
  - cbn [eval map sequence nth_error obind apply]. rewrite En, O. cbn [lift]. exact F.
  - cbn [eval map sequence nth_error obind]. rewrite ev_vec_ints. cbn [obind apply]. rewrite O. exact F.
Qed.
(** sizes known only at run time *)
Lemma full_sizes_id d sizes : ~ In (-1)%Z sizes -> full_sizes d sizes = sizes.
Proof. intro N. unfold full_sizes. transitivity (map (fun z : Z => z) sizes); [|apply map_id]. apply map_ext_in. intros s H0. destruct (Z.eqb_spec s (-1)) as [->|]; tauto. Qed.
Lemma split_v_dynamic_ok {A} (zero : A) opset shape0 sizes axis i (x y : tensor A) e others : wf x -> ~ In (-1)%Z sizes ->
  tf_split_sizes axis sizes i x = Some y -> split_v opset shape0 None axis i = Some e ->
  eval zero opset (D x :: I (Tensor [length sizes] sizes) :: others) e = Some (D y).
Proof.
  intros W N TF P. destruct (tf_sizes_inv _ _ _ _ _ W TF) as (k & Ek & Hs & F). cbv zeta in F. unfold split_v in P.
  destruct (Nat.ltb opset 13) eqn:O; [discriminate|]. injection P as <-.
  rewrite full_sizes_id in F by auto. rewrite <- (f_sizes_norm _ _ _ x sizes i eq_refl Ek) in F.
  cbn [eval map sequence nth_error obind apply]. rewrite O. exact F.
Qed.
