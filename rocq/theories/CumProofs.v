(** Proofs about cumulative products. *)
From Coq Require Import List Arith ZArith Bool Lia.
From Verif Require Import Tensor FoldModel OnnxSpec FoldProofs TensorProofs TOps TOpsProofs TOpsProofs2 RewValues MatProofs CumSpec CumModel.
Import ListNotations.
Local Open Scope list_scope.

Lemma inb_mid pre d post ix : inb ix (pre ++ d :: post) -> exists p c q, ix = p ++ c :: q /\ inb p pre /\ inb q post /\ c < d.
Proof.
  intro H. assert (L := inb_length _ _ H). rewrite app_length in L. cbn in L.
  assert (E := firstn_skipn (length pre) ix). assert (L2 : length (firstn (length pre) ix) = length pre) by (rewrite firstn_length; lia).
  destruct (skipn (length pre) ix) as [|c q] eqn:K; [assert (length ix = length pre) by (rewrite <- E, app_length, L2; cbn; lia); lia|].
  exists (firstn (length pre) ix), c, q. split; auto. rewrite <- E in H. apply inb_app in H; auto. cbn [inb] in H. tauto.
Qed.
Section Cum.
Context {A : Type}.
Variable mul : A -> A -> A.
Variable one : A.
(** t has the shape pre ++ d :: post and the elements f *)
Definition Is (pre : list nat) (d : nat) (post : list nat) (t : tensor A) (f : list nat -> list nat -> nat -> A) : Prop :=
  wf t /\ shape t = pre ++ d :: post /\ forall p q c, inb p pre -> inb q post -> c < d -> get t (p ++ c :: q) = Some (f p q c).
Lemma Is_slice pre d post t f s e : Is pre d post t f ->
  exists y, f_slice [s] [e] (Some [Z.of_nat (length pre)]) t = Some y /\ Is pre (clamp d e - clamp d s) post y (fun p q c => f p q (clamp d s + c)).
Proof.
  intros (W & Sh & G). destruct (slice_mid pre d post t s e W Sh) as (y & E & Wy & Sy & Gy). exists y. split; auto. split; auto. split; auto.
  intros p q c Hp Hq Hc. rewrite Gy by auto. apply G; auto. assert (clamp d e <= d) by (unfold clamp; destruct (_ <? _)%Z; lia). lia.
Qed.
Lemma Is_pad pre d post t f b a : Is pre d post t f ->
  exists y, f_pad one (map Z.of_nat ((repeat 0 (length pre) ++ b :: repeat 0 (length post)) ++ (repeat 0 (length pre) ++ a :: repeat 0 (length post)))) t = Some y /\
    Is pre (b + (d + a)) post y (fun p q c => if Nat.leb b c && Nat.ltb (c - b) d then f p q (c - b) else one).
Proof.
  intros (W & Sh & G). set (bs := repeat 0 (length pre) ++ b :: repeat 0 (length post)). set (as_ := repeat 0 (length pre) ++ a :: repeat 0 (length post)).
  assert (Ls : length (shape t) = length pre + S (length post)) by (rewrite Sh, app_length; reflexivity).
  assert (Lb : length bs = length (shape t)) by (unfold bs; rewrite app_length; cbn [length]; rewrite !repeat_length; lia).
  assert (La : length as_ = length (shape t)) by (unfold as_; rewrite app_length; cbn [length]; rewrite !repeat_length; lia).
  destruct (pad_spec one bs as_ t W Lb La) as (y & E & Wy & Sy & Gy). exists y. split; auto. split; auto.
  assert (Sh' : shape y = pre ++ (b + (d + a)) :: post).
  { rewrite Sy, Sh. unfold bs, as_. rewrite addix_app by (now rewrite repeat_length). rewrite addix_app by (rewrite addix_length; now rewrite repeat_length).
    rewrite addix_zero_r, addix_zero_l. cbn [addix]. now rewrite addix_zero_r, addix_zero_l. }
  split; auto. intros p q c Hp Hq Hc. rewrite Gy by (rewrite Sh'; apply inb_app; [now apply inb_length|]; cbn; auto).
  rewrite Sh. unfold bs. rewrite pad_src_app by (try (now rewrite repeat_length); now apply inb_length). rewrite pad_src_zero by auto. cbn [pad_src]. rewrite pad_src_zero by auto.
  destruct (_ && _) eqn:C; cbn [option_map]; auto. apply andb_true_iff in C. rewrite Nat.ltb_lt in C. apply G; tauto.
Qed.
Lemma bcast_same : forall sh, bcast_dims sh sh = Some sh.
Proof. induction sh as [|d sh IH]; [reflexivity|]. cbn [bcast_dims]. now rewrite IH, Nat.eqb_refl. Qed.
Lemma Is_mul pre d post t f u g : Is pre d post t f -> Is pre d post u g ->
  exists y, f_binary mul t u = Some y /\ Is pre d post y (fun p q c => mul (f p q c) (g p q c)).
Proof.
  intros (W & Sh & G) (W' & Sh' & G'). unfold f_binary. cbv zeta. rewrite Sh, Sh', Nat.max_id. unfold pad_ones. rewrite Nat.sub_diag. cbn [repeat app]. rewrite bcast_same.
  destruct (build_ex (pre ++ d :: post) (fun ix => match get t (bcast_ix (length (pre ++ d :: post)) (pre ++ d :: post) ix), get u (bcast_ix (length (pre ++ d :: post)) (pre ++ d :: post) ix) with Some a, Some b => Some (mul a b) | _, _ => None end)) as (y & E & Sy & Wy & Gy).
  - intros ix I. rewrite bcast_self by auto. apply inb_mid in I. destruct I as (p & c & q & -> & Hp & Hq & Hc). rewrite G, G' by auto. discriminate.
  - exists y. split; auto. split; auto. split; auto. intros p q c Hp Hq Hc. assert (I : inb (p ++ c :: q) (pre ++ d :: post)) by (apply inb_app; [now apply inb_length|]; cbn; auto).
    rewrite Gy, bcast_self by auto. now rewrite G, G'.
Qed.
Lemma Is_ext pre d post t f g : Is pre d post t f -> (forall p q c, c < d -> f p q c = g p q c) -> Is pre d post t g.
Proof. intros (W & Sh & G) H. split; auto. split; auto. intros p q c Hp Hq Hc. rewrite G by auto. now rewrite H. Qed.
Lemma Is_of (t : tensor A) pre d post : wf t -> shape t = pre ++ d :: post -> Is pre d post t (fun p q c => match get t (p ++ c :: q) with Some v => v | None => one end).
Proof.
  intros W Sh. split; auto. split; auto. intros p q c Hp Hq Hc. destruct (get_wf t (p ++ c :: q) W) as [v E]; [rewrite Sh; apply inb_app; [now apply inb_length|]; cbn; auto|].
  now rewrite E.
Qed.

(** ** the graph *)
Variable x : tensor A.
Variables (pre post : list nat) (d : nat).
Hypothesis Sx : shape x = pre ++ d :: post.
Notation ax := (Z.of_nat (length pre)).
Notation iv := (ival x ax).
(** the axis is constant or not *)
Variable axis : option Z.
Hypothesis AX : axis = Some ax \/ axis = None.
Lemma ax_ok s : iv s (axis_vec axis) = Some [ax].
Proof. destruct AX as [-> | ->]; reflexivity. Qed.
Lemma len_ok s : iv s ILen = Some [Z.of_nat d].
Proof.
  cbn [ival]. rewrite Sx, app_length. cbn [length]. rewrite seq_axis by lia. rewrite app_nth2, Nat.sub_diag by lia. reflexivity.
Qed.
Lemma pads_ok s e pad0 pad1 b a : pads_node axis (length (shape x)) pad0 pad1 = Some e -> iv s pad0 = Some [Z.of_nat b] -> iv s pad1 = Some [Z.of_nat a] ->
  iv s e = Some (map Z.of_nat ((repeat 0 (length pre) ++ b :: repeat 0 (length post)) ++ (repeat 0 (length pre) ++ a :: repeat 0 (length post)))).
Proof.
  assert (M : forall n, map Z.of_nat (repeat 0 n) = repeat 0%Z n) by (induction n as [|n IH]; cbn; f_equal; auto).
  rewrite !map_app. cbn [map]. rewrite !M. rewrite Sx, app_length. cbn [length].
  destruct AX as [-> | ->]; unfold pads_node.
  - unfold zeros. rewrite (proj2 (Z.ltb_ge _ _)) by lia. rewrite Nat2Z.id. rewrite (proj2 (Z.ltb_ge _ _)) by lia.
    replace (Z.to_nat (Z.of_nat (length pre + S (length post)) - Z.of_nat (length pre) - 1)) with (length post) by lia.
    intros E E0 E1. injection E as <-. cbn [ival] in *. rewrite E0, E1. rewrite app_nil_r. cbn [app]. now rewrite <- ?app_assoc.
  - intros E E0 E1. injection E as <-. cbn [ival both] in *. rewrite E0, E1. rewrite (proj2 (Z.ltb_ge _ _)) by lia. rewrite Nat2Z.id. rewrite (proj2 (Z.ltb_ge _ _)) by lia.
    replace (Z.to_nat (Z.of_nat (length pre + S (length post)) - Z.of_nat (length pre) - 1)) with (length post) by lia.
    rewrite app_nil_r. cbn [app]. now rewrite <- ?app_assoc.
Qed.

Variable opset : nat.
Hypothesis OP : 11 <= opset.
Notation tv := (tval mul one opset x ax).
(** ** the loop; z is what it runs over, of d' entries along the axis *)
Variable reverse : bool.
Variables (z : tensor A) (d' : nat) (f : list nat -> list nat -> nat -> A) (carried : Z).
Hypothesis Z0 : Is pre d' post z f.
Hypothesis CD : (Z.of_nat d' <= carried)%Z.
(** the factor of iteration i at position c *)
Definition factor (i : nat) (p q : list nat) (c : nat) : A :=
  if reverse then (if Nat.ltb (c + S i) d' then f p q (c + S i) else one) else (if Nat.leb (S i) c then f p q (c - S i) else one).
Fixpoint acc (i : nat) (p q : list nat) (c : nat) : A := match i with 0 => f p q c | S i => mul (acc i p q c) (factor i p q c) end.
Variable body : texpr.
Hypothesis BD : loop_body axis (length (shape x)) reverse = Some body.
Lemma body_ok i t : S i <= d' -> Is pre d' post t (acc i) ->
  exists y, tv (St (Some z) (Some t) (Some (Z.of_nat i)) (Some [carried])) body = Some y /\ Is pre d' post y (acc (S i)).
Proof.
  intros Li T. unfold loop_body in BD. set (st := St (Some z) (Some t) (Some (Z.of_nat i)) (Some [carried])).
  assert (Ea : iv st (IAdd IIter (IVec [1%Z])) = Some [Z.of_nat (S i)]) by (cbn [ival both option_map s_iter st]; f_equal; f_equal; lia).
  assert (Ez : iv st (IVec [0%Z]) = Some [Z.of_nat 0]) by reflexivity.
  destruct reverse eqn:Rv.
  - destruct (pads_node axis (length (shape x)) (IVec [0%Z]) (IAdd IIter (IVec [1%Z]))) as [pads|] eqn:P; [|discriminate]. injection BD as <-.
    assert (Ep := pads_ok st _ _ _ _ _ P Ez Ea).
    destruct (Is_slice pre d' post z f (Z.of_nat (S i)) carried Z0) as (u & Eu & Iu).
    assert (C1 : clamp d' (Z.of_nat (S i)) = S i) by (unfold clamp; rewrite (proj2 (Z.ltb_ge _ _)) by lia; lia).
    assert (C2 : clamp d' carried = d') by (unfold clamp; rewrite (proj2 (Z.ltb_ge _ _)) by lia; lia). rewrite C1, C2 in Iu.
    destruct (Is_pad pre _ post u _ 0 (S i) Iu) as (v & Ev & Iv). replace (0 + (d' - S i + S i)) with d' in Iv by lia.
    destruct (Is_mul pre d' post t _ v _ T Iv) as (y & Ey & Iy). exists y. split.
    + cbn [tval]. fold st. rewrite Ep. change (s_inputs st) with (Some z). change (s_acc st) with (Some t). rewrite Ea, ax_ok. change (iv st ICarried) with (Some [carried]).
      rewrite (proj2 (Nat.leb_le 10 opset)) by lia. rewrite (proj2 (Nat.leb_le 11 opset)) by lia. rewrite Eu, Ev. exact Ey.
    + eapply Is_ext; [exact Iy|]. intros p q c Hc. cbn [acc]. f_equal. unfold factor. rewrite Rv. cbn [Nat.leb]. rewrite Nat.sub_0_r. cbn [andb].
      destruct (Nat.ltb_spec c (d' - S i)), (Nat.ltb_spec (c + S i) d'); try lia; auto. f_equal. lia.
  - destruct (pads_node axis (length (shape x)) (IAdd IIter (IVec [1%Z])) (IVec [0%Z])) as [pads|] eqn:P; [|discriminate]. injection BD as <-.
    assert (Ep := pads_ok st _ _ _ _ _ P Ea Ez).
    destruct (Is_slice pre d' post z f 0 (- Z.of_nat (S i)) Z0) as (u & Eu & Iu).
    assert (C1 : clamp d' 0 = 0) by (unfold clamp; rewrite (proj2 (Z.ltb_ge _ _)) by lia; lia).
    assert (C2 : clamp d' (- Z.of_nat (S i)) = d' - S i) by (unfold clamp; rewrite (proj2 (Z.ltb_lt _ _)) by lia; lia). rewrite C1, C2, Nat.sub_0_r in Iu.
    destruct (Is_pad pre _ post u _ (S i) 0 Iu) as (v & Ev & Iv). replace (S i + (d' - S i + 0)) with d' in Iv by lia.
    destruct (Is_mul pre d' post t _ v _ T Iv) as (y & Ey & Iy). exists y. split.
    + cbn [tval]. fold st. rewrite Ep. change (s_inputs st) with (Some z). change (s_acc st) with (Some t). rewrite ax_ok.
      assert (En : iv st (INeg (IAdd IIter (IVec [1%Z]))) = Some [(- Z.of_nat (S i))%Z]) by (change (iv st (INeg (IAdd IIter (IVec [1%Z])))) with (option_map (map Z.opp) (iv st (IAdd IIter (IVec [1%Z])))); rewrite Ea; reflexivity).
      rewrite En. change (iv st (IVec [0%Z])) with (Some [0%Z]).
      rewrite (proj2 (Nat.leb_le 10 opset)) by lia. rewrite (proj2 (Nat.leb_le 11 opset)) by lia. rewrite Eu, Ev. exact Ey.
    + eapply Is_ext; [exact Iy|]. intros p q c Hc. cbn [acc]. f_equal. unfold factor. rewrite Rv.
      destruct (Nat.leb_spec (S i) c); cbn [andb]; auto. rewrite (proj2 (Nat.ltb_lt _ _)) by lia. reflexivity.
Qed.
Lemma loop_ok init nm cr n : tv outside init = Some z -> iv outside nm = Some [n] -> iv outside cr = Some [carried] -> Z.to_nat n <= d' ->
  exists y, tv outside (TLoop nm cr init body) = Some y /\ Is pre d' post y (acc (Z.to_nat n)).
Proof.
  intros Ei En Ec Ln. cbn [tval]. rewrite En, Ec, Ei.
  set (go := fix go (m : nat) (i : Z) (t : tensor A) : option (tensor A) := match m with 0 => Some t | S m' => match tv (St (Some z) (Some t) (Some i) (Some [carried])) body with Some t' => go m' (i + 1)%Z t' | None => None end end).
  assert (K : forall m i t, i + m = Z.to_nat n -> Is pre d' post t (acc i) -> exists y, go m (Z.of_nat i) t = Some y /\ Is pre d' post y (acc (Z.to_nat n))).
  { induction m as [|m IH]; intros i t E T.
    - exists t. split; [reflexivity|]. replace (Z.to_nat n) with i by lia. auto.
    - destruct (body_ok i t) as (t' & E' & T'); [lia|auto|]. cbn [go]. rewrite E'. replace (Z.of_nat i + 1)%Z with (Z.of_nat (S i)) by lia. apply IH; auto. lia. }
  apply (K _ 0); auto.
Qed.
End Cum.

(** ** the products, for a commutative multiplication *)
Section Mon.
Context {A : Type}.
Variable mul : A -> A -> A.
Variable one : A.
Hypothesis ML1 : forall a, mul one a = a.
Hypothesis MC : forall a b, mul a b = mul b a.
Hypothesis MA : forall a b c, mul a (mul b c) = mul (mul a b) c.
Notation prod l := (fold_right mul one l).
Lemma prod_snoc l v : prod (l ++ [v]) = mul (prod l) v.
Proof. induction l as [|u l IH]; cbn [app fold_right]; [now rewrite MC|]. now rewrite IH, MA. Qed.
Lemma acc_up d' f n p q c : acc mul one false d' f n p q c = prod (map (f p q) (seq (c - Nat.min n c) (S (Nat.min n c)))).
Proof.
  induction n as [|n IH]; [cbn [acc Nat.min]; rewrite Nat.sub_0_r; cbn; now rewrite MC|]. cbn [acc]. rewrite IH. unfold factor. destruct (Nat.leb_spec (S n) c).
  - rewrite !Nat.min_l by lia. replace (c - n) with (S (c - S n)) by lia. change (seq (c - S n) (S (S n))) with (c - S n :: seq (S (c - S n)) (S n)). cbn [map fold_right]. now rewrite MC.
  - rewrite !Nat.min_r by lia. now rewrite MC, ML1.
Qed.
Lemma acc_down d' f n p q c : c < d' -> acc mul one true d' f n p q c = prod (map (f p q) (seq c (S (Nat.min n (d' - 1 - c))))).
Proof.
  intro L. induction n as [|n IH]; [cbn; now rewrite MC|]. cbn [acc]. rewrite IH. unfold factor. destruct (Nat.ltb_spec (c + S n) d').
  - rewrite !Nat.min_l by lia. rewrite (seq_S (S n)). rewrite map_app. cbn [map]. rewrite prod_snoc. reflexivity.
  - rewrite !Nat.min_r by lia. now rewrite MC, ML1.
Qed.
Lemma filter_all {X} (g : X -> bool) l : (forall v, In v l -> g v = true) -> filter g l = l.
Proof. induction l as [|v l IH]; intro H; [reflexivity|]. cbn [filter]. rewrite H by (cbn; auto). f_equal. apply IH. intros w W. apply H. cbn. auto. Qed.
Lemma filter_none {X} (g : X -> bool) l : (forall v, In v l -> g v = false) -> filter g l = [].
Proof. induction l as [|v l IH]; intro H; [reflexivity|]. cbn [filter]. rewrite H by (cbn; auto). apply IH. intros w W. apply H. cbn. auto. Qed.
Lemma filter_below g d k : k <= d -> (forall p, g p = Nat.ltb p k) -> filter g (seq 0 d) = seq 0 k.
Proof.
  intros H G. replace d with (k + (d - k)) by lia. rewrite seq_app, filter_app. rewrite filter_all, filter_none, app_nil_r; auto; intros v V; apply in_seq in V; rewrite G; [apply Nat.ltb_ge|apply Nat.ltb_lt]; lia.
Qed.
Lemma filter_above g d k : k <= d -> (forall p, g p = Nat.leb k p) -> filter g (seq 0 d) = seq k (d - k).
Proof.
  intros H G. replace (seq 0 d) with (seq 0 (k + (d - k))) by (f_equal; lia). rewrite seq_app, filter_app. rewrite filter_none, (filter_all _ (seq _ _)); auto; intros v V; apply in_seq in V; rewrite G; [apply Nat.leb_le|apply Nat.leb_gt]; lia.
Qed.
Lemma positions_are e r d k : k < d -> positions e r d k = (if r then (if e then seq (S k) (d - S k) else seq k (d - k)) else (if e then seq 0 k else seq 0 (S k))).
Proof.
  intro L. unfold positions. destruct r, e.
  - apply filter_above; [lia|]. intro p. destruct (Nat.ltb_spec k p), (Nat.leb_spec (S k) p); auto; lia.
  - apply filter_above; [lia|auto].
  - apply filter_below; [lia|auto].
  - apply filter_below; [lia|]. intro p. destruct (Nat.leb_spec p k), (Nat.ltb_spec p (S k)); auto; lia.
Qed.
(** what the reference says about the elements *)
Lemma from_spec e r (pre post : list nat) d x y : tf_cumprod mul one e r (length pre) x y -> shape x = pre ++ d :: post ->
  forall f, Is pre d post x f -> Is pre d post y (fun p q c => prod (map (f p q) (positions e r d c))).
Proof.
  intros (Wx & Wy & Sy & La & H) Sx f (_ & _ & Gx). split; auto. split; [congruence|]. intros p q c Hp Hq Hc.
  assert (I : inb (p ++ c :: q) (shape x)) by (rewrite Sx; apply inb_app; [now apply inb_length|]; cbn; auto).
  destruct (H _ I) as (vs & F & G). rewrite G. f_equal. f_equal.
  assert (Lp := inb_length _ _ Hp). rewrite Sx in F. rewrite (app_nth2 pre) in F by lia. rewrite Nat.sub_diag in F. rewrite <- Lp in F. rewrite (app_nth2 p), Nat.sub_diag in F by lia. cbn [nth] in F.
  assert (Bd : forall p', In p' (positions e r d c) -> p' < d) by (intros p' P; apply filter_In in P; destruct P as [P _]; apply in_seq in P; lia).
  clear G. revert Bd F. generalize (positions e r d c). intros l Bd F. induction F as [|p' v l vs E F IH]; [reflexivity|]. cbn [map].
  rewrite set_dim_mid in E. rewrite Gx in E by (auto; apply Bd; cbn; auto). injection E as <-. f_equal. apply IH. intros w W. apply Bd. cbn. auto.
Qed.
Lemma Is_unique (pre : list nat) d post (t u : tensor A) f g : Is pre d post t f -> Is pre d post u g -> (forall p q c, c < d -> f p q c = g p q c) -> t = u.
Proof.
  intros (W & Sh & G) (W' & Sh' & G') H. apply tensor_ext; auto; [congruence|]. intros ix I. rewrite Sh in I. apply inb_mid in I. destruct I as (p & c & q & -> & Hp & Hq & Hc).
  rewrite G, G' by auto. now rewrite H.
Qed.

Variable opset : nat.
Hypothesis OP : 11 <= opset.
Lemma cumprod_ok axis ex rv (pre post : list nat) d (x y : tensor A) e : wf x -> shape x = pre ++ d :: post -> axis = Some (Z.of_nat (length pre)) \/ axis = None ->
  cumprod axis (Some (length (shape x))) ex rv = Some e -> (ex = true -> 0 < d) -> tf_cumprod mul one ex rv (length pre) x y ->
  tval mul one opset x (Z.of_nat (length pre)) outside e = Some y.
Proof.
  intros Wx Sx AX E Pos T. set (f := fun p q c => match get x (p ++ c :: q) with Some v => v | None => one end).
  assert (X : Is pre d post x f) by (now apply Is_of). assert (Y := from_spec _ _ _ _ _ _ _ T Sx f X).
  unfold cumprod in E. destruct (loop_body axis (length (shape x)) rv) as [body|] eqn:BD; [|discriminate].
  assert (Le : ival x (Z.of_nat (length pre)) outside (IAdd ILen (IVec [1%Z])) = Some [(Z.of_nat d + 1)%Z]) by (change (ival x (Z.of_nat (length pre)) outside (IAdd ILen (IVec [1%Z]))) with (both Z.add (ival x (Z.of_nat (length pre)) outside ILen) (Some [1%Z])); rewrite (len_ok x pre post d Sx outside); reflexivity).
  assert (Ln : ival x (Z.of_nat (length pre)) outside (ISub ILen (IVec [1%Z])) = Some [(Z.of_nat d - 1)%Z]) by (change (ival x (Z.of_nat (length pre)) outside (ISub ILen (IVec [1%Z]))) with (both Z.sub (ival x (Z.of_nat (length pre)) outside ILen) (Some [1%Z])); rewrite (len_ok x pre post d Sx outside); reflexivity).
  destruct ex.
  - specialize (Pos eq_refl).
    assert (Ln2 : ival x (Z.of_nat (length pre)) outside (ISub (ISub ILen (IVec [1%Z])) (IVec [1%Z])) = Some [(Z.of_nat d - 1 - 1)%Z]) by (change (ival x (Z.of_nat (length pre)) outside (ISub (ISub ILen (IVec [1%Z])) (IVec [1%Z]))) with (both Z.sub (ival x (Z.of_nat (length pre)) outside (ISub ILen (IVec [1%Z]))) (Some [1%Z])); rewrite Ln; reflexivity).
    destruct rv.
    + destruct (pads_node axis (length (shape x)) (IVec [0%Z]) (IVec [1%Z])) as [pads|] eqn:P; [|discriminate]. injection E as <-.
      assert (Ep := pads_ok x pre post d Sx axis AX outside pads _ _ 0 1 P eq_refl eq_refl).
      destruct (Is_slice pre d post x f 1 (Z.of_nat d + 1) X) as (z & Ez & Iz).
      assert (C1 : clamp d 1 = 1) by (unfold clamp; rewrite (proj2 (Z.ltb_ge _ _)) by lia; lia). assert (C2 : clamp d (Z.of_nat d + 1) = d) by (unfold clamp; rewrite (proj2 (Z.ltb_ge _ _)) by lia; lia). rewrite C1, C2 in Iz.
      assert (Tz : tval mul one opset x (Z.of_nat (length pre)) outside (TSlice TX (IVec [1%Z]) (IAdd ILen (IVec [1%Z])) (axis_vec axis)) = Some z).
      { cbn [tval]. rewrite Le, (ax_ok x pre axis AX). cbn [ival]. rewrite (proj2 (Nat.leb_le 10 opset)) by lia. exact Ez. }
      destruct (loop_ok mul one x pre post d Sx axis AX opset OP true z (d - 1) _ (Z.of_nat d + 1)%Z Iz ltac:(lia) body BD _ _ _ _ Tz Ln2 Le ltac:(lia)) as (u & Eu & Iu).
      destruct (Is_pad mul one pre (d - 1) post u _ 0 1 Iu) as (v & Ev & Iv). replace (0 + (d - 1 + 1)) with d in Iv by lia.
      cbn [tval] in Eu |- *. rewrite Eu, Ep. rewrite (proj2 (Nat.leb_le 11 opset)) by lia. rewrite Ev. f_equal. apply (Is_unique _ _ _ _ _ _ _ Iv Y).
      intros p q c Hc. rewrite positions_are by auto. cbn [Nat.leb]. rewrite Nat.sub_0_r. cbn [andb]. destruct (Nat.ltb_spec c (d - 1)).
      * rewrite acc_down by auto. rewrite Nat.min_r by lia. replace (seq (S c) (d - S c)) with (map S (seq c (S (d - 1 - 1 - c)))) by (rewrite seq_shift; f_equal; lia). rewrite map_map. reflexivity.
      * replace (d - S c) with 0 by lia. reflexivity.
    + destruct (pads_node axis (length (shape x)) (IVec [1%Z]) (IVec [0%Z])) as [pads|] eqn:P; [|discriminate]. injection E as <-.
      assert (Ep := pads_ok x pre post d Sx axis AX outside pads _ _ 1 0 P eq_refl eq_refl).
      destruct (Is_slice pre d post x f 0 (-1) X) as (z & Ez & Iz).
      assert (C1 : clamp d 0 = 0) by (unfold clamp; rewrite (proj2 (Z.ltb_ge _ _)) by lia; lia). assert (C2 : clamp d (-1) = d - 1) by (unfold clamp; rewrite (proj2 (Z.ltb_lt _ _)) by lia; lia). rewrite C1, C2, Nat.sub_0_r in Iz.
      assert (Tz : tval mul one opset x (Z.of_nat (length pre)) outside (TSlice TX (IVec [0%Z]) (IVec [(-1)%Z]) (axis_vec axis)) = Some z).
      { cbn [tval]. rewrite (ax_ok x pre axis AX). cbn [ival]. rewrite (proj2 (Nat.leb_le 10 opset)) by lia. exact Ez. }
      destruct (loop_ok mul one x pre post d Sx axis AX opset OP false z (d - 1) _ (Z.of_nat d + 1)%Z Iz ltac:(lia) body BD _ _ _ _ Tz Ln2 Le ltac:(lia)) as (u & Eu & Iu).
      destruct (Is_pad mul one pre (d - 1) post u _ 1 0 Iu) as (v & Ev & Iv). replace (1 + (d - 1 + 0)) with d in Iv by lia.
      cbn [tval] in Eu |- *. rewrite Eu, Ep. rewrite (proj2 (Nat.leb_le 11 opset)) by lia. rewrite Ev. f_equal. apply (Is_unique _ _ _ _ _ _ _ Iv Y).
      intros p q c Hc. rewrite positions_are by auto. destruct (Nat.leb_spec 1 c); cbn [andb].
      * rewrite (proj2 (Nat.ltb_lt _ _)) by lia. rewrite acc_up. rewrite Nat.min_r by lia. rewrite Nat.sub_diag. replace (S (c - 1)) with c by lia. reflexivity.
      * replace c with 0 by lia. reflexivity.
  - injection E as <-. destruct (loop_ok mul one x pre post d Sx axis AX opset OP rv x d f (Z.of_nat d + 1)%Z X ltac:(lia) body BD TX _ _ _ eq_refl Ln Le ltac:(lia)) as (u & Eu & Iu).
    rewrite Eu. f_equal. apply (Is_unique _ _ _ _ _ _ _ Iu Y). intros p q c Hc. rewrite positions_are by auto. destruct rv.
    + rewrite acc_down by auto. rewrite Nat.min_r by lia. do 3 f_equal. lia.
    + rewrite acc_up. rewrite Nat.min_r by lia. now rewrite Nat.sub_diag.
Qed.
End Mon.
