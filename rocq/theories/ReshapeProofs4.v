(** The whole run of the symbolic executor, and the choice of the new shape. *)
From Coq Require Import String List Arith ZArith Bool Lia.
From Verif Require Import Tensor FGraph OnnxSpec PushSpec NNSpec FoldModel TensorProofs FoldProofs FoldFunProofs ReshapeSpec ReshapeModel QdqProofs3 ReshapeProofs ReshapeProofs2 ReshapeRaw ReshapeProofs3.
Import ListNotations.
Local Open Scope string_scope.
Local Open Scope list_scope.

(** ** the order of the computation *)
Section Plan.
Variable nodes : list fnode.
Lemma producer_spec t n : producer nodes t = Some n -> In n nodes /\ In t (f_out n).
Proof.
  unfold producer. intro E. apply find_some in E. destruct E as [A B]. split; auto. unfold mem in B. apply existsb_exists in B.
  destruct B as (u & I & E). apply String.eqb_eq in E. congruence.
Qed.
Definition ready (feed : results) (before : list fnode) (n : fnode) : Prop :=
  forall t, In t (f_in n) -> t <> "" -> lookup feed t <> None \/ exists m, In m before /\ In t (f_out m).
Lemma plan_spec fuel feed : forall stack sorted res, plan nodes fuel feed stack sorted = Some res ->
  (forall n, In n stack -> In n nodes) -> (forall n, In n sorted -> In n nodes /\ In (f_op n) shape_ops) ->
  (forall l1 n l2, sorted = l1 ++ n :: l2 -> ready feed (stack ++ l1) n) ->
  (forall n, In n res -> In n nodes /\ In (f_op n) shape_ops) /\ (forall l1 n l2, res = l1 ++ n :: l2 -> ready feed l1 n) /\
  (forall n, In n sorted \/ In n stack -> In n res).
Proof.
  induction fuel as [|fuel IH]; intros stack sorted res E Hs Hd R; destruct stack as [|n stack]; cbn [plan] in E; try discriminate;
    try (injection E as <-; split; [auto|]; split; [exact R|]; intros m [H|[]]; auto; fail).
  destruct (mem (f_op n) supported) eqn:Sp; [|discriminate]. destruct (sequence _) as [more|] eqn:Q; [|discriminate]. apply sequence_spec in Q.
  assert (Hn : In n nodes) by (apply Hs; cbn; auto).
  assert (Ho : In (f_op n) shape_ops).
  { unfold mem in Sp. apply existsb_exists in Sp. destruct Sp as (u & I & Eu). apply String.eqb_eq in Eu. rewrite Eu. exact I. }
  assert (Hm : forall m, In m more -> exists t, producer nodes t = Some m).
  { intros m I. assert (X : In (Some m) (map Some more)) by (apply in_map; auto). rewrite <- Q in X. apply in_map_iff in X. destruct X as (t & E1 & _). eauto. }
  apply IH in E.
  - destruct E as (A & B & C). split; auto. split; auto. intros m [H|[<-|H]]; apply C; cbn; auto. right. apply in_or_app. auto.
  - intros m I. apply in_app_or in I. destruct I as [I|I]; [|apply Hs; cbn; auto]. apply in_rev in I. destruct (Hm m I) as [t Et]. apply producer_spec in Et. apply Et.
  - intros m [<-|I]; auto.
  - intros l1 m l2 El. destruct l1 as [|n' l1]; cbn in El; injection El as <- El.
    + intros t It Nt. destruct (lookup feed t) as [a|] eqn:Lt; [left; congruence|]. right.
      assert (X : In (producer nodes t) (map Some more)).
      { rewrite <- Q. apply in_map. apply filter_In. split; auto. rewrite Lt. apply String.eqb_neq in Nt. rewrite Nt. reflexivity. }
      apply in_map_iff in X. destruct X as (m & Em & Im). symmetry in Em. apply producer_spec in Em. exists m. split; [|apply Em].
      rewrite app_nil_r. apply in_or_app. left. apply -> in_rev. exact Im.
    + intros t It Nt. destruct (R l1 m l2 El t It Nt) as [H|(p & Ip & Op)]; [auto|]. right. exists p. split; auto.
      rewrite <- app_assoc. apply in_or_app. cbn in Ip. destruct Ip as [<-|Ip]; [right; apply in_or_app; right; cbn; auto|].
      apply in_app_or in Ip. destruct Ip as [Ip|Ip]; right; apply in_or_app; [auto|right; cbn; auto].
Qed.
End Plan.

Section Run.
Context {A : Type} (num : Z -> A).
Variable opset : nat.
Variable cval : list (string * attr) -> option (tensor Z).
Variable cast : Z -> Z -> Z.
Variable op_rel : string -> string -> list (string * attr) -> nat -> list (tensor A) -> list (list (tensor A) -> list (tensor A) -> Prop) -> list (tensor A) -> Prop.
Hypothesis Sem : shape_semantics num opset cval cast op_rel.
Variable nodes : list fnode.
Variable r : string -> tensor A.
Hypothesis Hold : all_hold op_rel r nodes.
(** nodes of the operators involved have one output, no body, and no omitted input *)
Definition simple_node (n : fnode) : Prop := f_bodies n = [] /\ (exists o, f_out n = [o] /\ o <> "") /\ ~ In "" (f_in n).
Hypothesis Simple : forall n, In n nodes -> In (f_op n) shape_ops -> simple_node n.
Hypothesis Plain : forall n xs, In n nodes -> In (f_op n) shape_ops -> map r (f_in n) = map (retype num) xs -> plain opset cast (forall i, In i (f_in n) -> constant_tensor nodes i) (f_op n) (f_attrs n) xs.
Variable v : nat -> Z.
Definition sound (res : results) : Prop := forall t a, lookup res t = Some a ->
  wf (vals a) /\ r t = retype num (tmap (eeval v) (vals a)) /\ raw a /\ (constant_tensor nodes t -> is_object a = false).
Lemma lookup_cons (res : results) o a t : lookup ((o, a) :: res) t = if String.eqb o t then Some a else lookup res t.
Proof. unfold lookup. cbn [find fst]. destruct (String.eqb o t); reflexivity. Qed.
Lemma retype_inj x y : retype num x = retype num y -> x = y.
Proof.
  destruct x as [s d], y as [s' d']. unfold retype. cbn. intro H. injection H as -> H. f_equal. revert d' H.
  induction d as [|a d IH]; intros [|b d'] H; try discriminate; auto. cbn in H. injection H as H1 H2. f_equal; auto. exact (ss_num _ _ _ _ _ Sem _ _ H1).
Qed.
Lemma ready_predicts res ins : sound res -> ~ In "" ins -> (forall t, In t ins -> t <> "" -> lookup res t <> None) ->
  exists xs, map r ins = map (retype num) xs /\ predicts v res ins xs.
Proof.
  intros So. induction ins as [|t ins IH]; intros Ne Re; [exists []; split; [reflexivity|constructor]|].
  destruct IH as (xs & E & P); [intro; apply Ne; cbn; auto|intros; apply Re; cbn; auto|].
  destruct (lookup res t) as [a|] eqn:L; [|exfalso; apply (Re t); cbn; auto; intro; subst; apply Ne; cbn; auto].
  destruct (So t a L) as (W & Q & _). exists (tmap (eeval v) (vals a) :: xs). split; [cbn [map]; rewrite Q, E; reflexivity|]. constructor; auto. intros a' L'. assert (a' = a) by congruence. subst. auto.
Qed.
Lemma run_sound feed : forall ns before res res', run opset cval cast ns res = Some res' -> sound res ->
  (forall n, In n ns -> In n nodes /\ In (f_op n) shape_ops) ->
  (forall l1 n l2, ns = l1 ++ n :: l2 -> ready feed (before ++ l1) n) ->
  (forall t, lookup feed t <> None -> lookup res t <> None) -> (forall m t, In m before -> In t (f_out m) -> lookup res t <> None) -> sound res'.
Proof.
  induction ns as [|n ns IH]; intros before res res' E So Hn R F B; cbn [run] in E; [injection E as <-; exact So|].
  destruct (compute_node opset cval cast n res) as [a|] eqn:C; [|discriminate]. destruct (Hn n (or_introl eq_refl)) as [In_ Op].
  destruct (Simple n In_ Op) as (Bn & (o & Eo & No) & Ne). rewrite Eo in E.
  destruct (ready_predicts res (f_in n) So Ne) as (xs & Ex & P).
  { intros t It Nt. destruct (R [] n ns eq_refl t It Nt) as [H|(m & Im & Om)]; [auto|]. rewrite app_nil_r in Im. eauto. }
  assert (H := Hold n In_). apply holds_eq in H. destruct H as (vs & H & Pr). rewrite Bn, Eo, Ex in H. cbn [length map] in H.
  destruct (ss_op _ _ _ _ _ Sem _ _ _ _ _ Op H) as (y & -> & Sy).
  assert (Inp : forall k i, input n res k = Some i -> raw i /\ ((forall t, In t (f_in n) -> constant_tensor nodes t) -> is_object i = false)).
  { intros k i Ei. unfold input in Ei. destruct (nth_error (f_in n) k) as [t|] eqn:Et; [|discriminate]. destruct (String.eqb t ""); [discriminate|].
    destruct (So t i Ei) as (_ & _ & Ra & Co). split; auto. intro Ct. apply Co, Ct. eapply nth_error_In; eauto. }
  destruct (compute_node_ok opset cval cast v n res xs a y _ P (Plain n xs In_ Op Ex) (fun k i E => proj1 (Inp k i E)) (fun K k i E => proj2 (Inp k i E) K) C Sy) as [Wa Ya].
  destruct (compute_node_raw opset cval cast n res a C (fun k i E => proj1 (Inp k i E))) as [Ra Oa].
  assert (Ro : r o = retype num y). { rewrite Eo in Pr. specialize (Pr 0 o eq_refl No). cbn in Pr. congruence. }
  apply (IH (before ++ [n]) _ _ E).
  - intros t b. rewrite lookup_cons. destruct (String.eqb_spec o t) as [<-|Nt]; [|apply So]. intro X. injection X as <-. split; auto. split; [congruence|]. split; auto. intros [Ct]. destruct (Ct n In_) as [_ Ct']; [rewrite Eo; cbn; auto|].
    destruct (is_object a) eqn:Oba; auto. destruct (Oa eq_refl) as (k & i & Ei & Oi). rewrite (proj2 (Inp k i Ei) Ct') in Oi. discriminate.
  - intros m Im. apply Hn. cbn. auto.
  - intros l1 m l2 El. rewrite <- app_assoc. cbn. apply (R (n :: l1) m l2). cbn. congruence.
  - intros t Ht. rewrite lookup_cons. destruct (String.eqb o t); [discriminate|auto].
  - intros m t Im It. rewrite lookup_cons. destruct (String.eqb_spec o t) as [|Nt]; [discriminate|]. apply in_app_or in Im. destruct Im as [Im|[<-|[]]]; [eauto|].
    rewrite Eo in It. destruct It as [->|[]]. congruence.
Qed.
Lemma compute_output_sound fuel out feed res : sound feed -> compute_output opset cval cast nodes fuel out feed = Some res ->
  r out = retype num (tmap (eval v) res).
Proof.
  intros So E. unfold compute_output in E. apply bind_inv in E. destruct E as (n & Pn & E). apply bind_inv in E. destruct E as (ns & Pl & E).
  apply bind_inv in E. destruct E as (re & Ru & E). apply bind_inv in E. destruct E as (a & La & E). destruct (Nat.eqb _ 0); [discriminate|]. injection E as <-.
  apply producer_spec in Pn. destruct Pn as [In_ _].
  assert (X := plan_spec nodes fuel feed [n] [] ns Pl). destruct X as (X1 & X2 & _); [intros m [<-|[]]; auto|intros m []|intros l1 m l2 H; destruct l1; discriminate|].
  assert (S' : sound re). { eapply (run_sound feed ns [] feed); eauto. }
  destruct (S' out a La) as (_ & -> & _). f_equal. unfold tmap. cbn [shape data]. f_equal. rewrite map_map. apply map_ext. intro e. symmetry. apply eval_from.
Qed.

(** the Shape nodes *)
Variables (x : string) (known : list Z).
Hypothesis Known : has_shape known (r x).
Hypothesis Dims : forall i, i < length (shape (r x)) -> v i = Z.of_nat (nth i (shape (r x)) 0).
Hypothesis Shapes : forall n, In n nodes -> f_op n = "Shape" -> In x (f_in n) -> f_in n = [x] /\ f_attrs n = [] /\ f_bodies n = [] /\ exists o, f_out n = [o] /\ o <> "".
Lemma symbolic_dims_eval sh : forall k l, (forall i, i < length sh -> v (k + i) = Z.of_nat (nth i sh 0)) -> Forall2 (fun k d => k = (-1)%Z \/ k = Z.of_nat d) l sh ->
  map (eeval v) (symbolic_dims k l) = map Z.of_nat sh.
Proof.
  induction sh as [|d sh IH]; intros k l D F; inversion F; subst; [reflexivity|]. cbn [symbolic_dims map]. f_equal.
  - cbn [eeval]. destruct (Z.eqb_spec x0 (-1)) as [->|N].
    + unfold from_variable. rewrite eval_make. unfold prodZ'. cbn [map fold_right]. rewrite <- (Nat.add_0_r k), (D 0) by (cbn; lia). cbn [nth]. lia.
    + destruct H2 as [|Ed]; [congruence|]. rewrite Ed. unfold from_const. rewrite eval_make. unfold prodZ'. cbn [map fold_right]. lia.
  - apply IH; auto. intros i Hi. replace (S k + i) with (k + S i) by lia. rewrite D by (cbn; lia). reflexivity.
Qed.
Lemma symbolic_dims_length l : forall k, length (symbolic_dims k l) = length l.
Proof. induction l as [|d l IH]; intro k; cbn; auto. Qed.
Lemma feed_sound : sound (feed_of nodes x known).
Proof.
  destruct Known as [Wx F]. intros t a L. unfold lookup in L. apply option_map_inv in L. destruct L as ([t' a'] & L & ->). apply find_some in L. cbn [fst snd] in *.
  destruct L as [I Et]. apply String.eqb_eq in Et. subst t'. unfold feed_of in I. apply in_flat_map in I. destruct I as (n & In_ & I).
  destruct (mem x (f_in n) && String.eqb (f_op n) "Shape") eqn:C; [|destruct I]. apply andb_true_iff in C. destruct C as [C1 C2]. apply String.eqb_eq in C2.
  assert (Ix : In x (f_in n)). { unfold mem in C1. apply existsb_exists in C1. destruct C1 as (u & Iu & Eu). apply String.eqb_eq in Eu. congruence. }
  destruct (Shapes n In_ C2 Ix) as (Ei & Ea & Eb & o & Eo & No). rewrite Eo in I. destruct I as [I|[]]. injection I as <- <-.
  assert (H := Hold n In_). apply holds_eq in H. destruct H as (vs & H & Pr). rewrite C2, Ei, Ea, Eb, Eo in H. cbn [map length] in H. rewrite Eo in Pr.
  apply (ss_shape _ _ _ _ _ Sem) in H. specialize (Pr 0 o eq_refl No). rewrite H in Pr. cbn in Pr. injection Pr as Pr. cbn [vals].
  split; [unfold wf; cbn; rewrite symbolic_dims_length; lia|]. split; [|split; [discriminate|intros [Ct]; destruct (Ct n In_) as [Sh _]; [rewrite Eo; cbn; auto|]; rewrite C2 in Sh; cbn in Sh; repeat (destruct Sh as [Sh|Sh]; [discriminate|]); destruct Sh]].
  rewrite <- Pr. f_equal. unfold dims_of, tmap. cbn [shape data].
  rewrite (symbolic_dims_eval (shape (r x)) 0 known); auto. f_equal. f_equal. symmetry. clear -F. induction F; cbn; auto.
Qed.
End Run.

(** ** the choice of the new shape *)
Lemma reshape_data {X} (x y : tensor X) sh tgt az : wf x -> wf y -> data y = data x -> shape y = sh -> size sh = size (shape x) ->
  length (filter (Z.eqb (-1)) tgt) <= 1 -> length sh = length tgt ->
  (forall k t d, nth_error tgt k = Some t -> nth_error sh k = Some d -> dim_ok az (shape x) k t d) -> reshape_rel az tgt x y.
Proof.
  intros Wx Wy D Sy Sz C L Ok. split; auto. split; auto. split; auto. rewrite Sy. split; auto. split; auto. split; auto.
  intros ix jx I J E. unfold get. rewrite D, Sy, E. reflexivity.
Qed.
Lemma reshape_same_data {X} az tgt (x y : tensor X) : reshape_rel az tgt x y -> data y = data x.
Proof.
  intros (Wx & Wy & _ & _ & _ & Sz & G). apply nth_error_ext. intro k. unfold wf in *. destruct (Nat.lt_ge_cases k (size (shape x))) as [H|H].
  - assert (I := unravel_inb _ _ H). assert (J := unravel_inb (shape y) k ltac:(lia)). assert (E := G _ _ I J). unfold get in E. rewrite !ravel_unravel in E by lia. apply E. reflexivity.
  - rewrite (proj2 (nth_error_None _ _)), (proj2 (nth_error_None _ _)); auto; lia.
Qed.
Lemma range_axes m r : m <= r -> norm_axes r (map Z.of_nat (seq 0 m)) = Some (seq 0 m).
Proof.
  intro H. assert (K : forall n j, j + n <= r -> norm_axes r (map Z.of_nat (seq j n)) = Some (seq j n)).
  { induction n as [|n IH]; intros j Hj; [reflexivity|]. cbn [seq map norm_axes]. rewrite IH by lia. unfold norm_axis. destruct (Z.leb_spec 0 (Z.of_nat j)); [|lia].
    destruct (Z.ltb_spec (Z.of_nat j) (Z.of_nat r)); [|lia]. rewrite Nat2Z.id. reflexivity. }
  apply K. lia.
Qed.
Lemma drop_range m : forall k j (l l' : list nat), length l = m -> j <= k -> drop_from k (seq j (k + m - j)) (l ++ l') = l'.
Proof.
  induction m as [|m IH]; intros k j l l' L Lj.
  - destruct l; [|discriminate]. cbn [app]. assert (K : forall l k j n, j + n <= k -> drop_from k (seq j n) l = l).
    { clear. induction l as [|x l IH]; intros k j n H; [reflexivity|]. cbn [drop_from]. destruct (existsb (Nat.eqb k) (seq j n)) eqn:E.
      - apply existsb_exists in E. destruct E as (a & I & E). apply Nat.eqb_eq in E. subst a. apply in_seq in I. lia.
      - f_equal. apply IH. lia. }
    apply K. lia.
  - destruct l as [|x l]; [discriminate|]. cbn [app drop_from]. replace (existsb (Nat.eqb k) (seq j (k + S m - j))) with true.
    + replace (k + S m - j) with (S k + m - j) by lia. apply IH; [cbn in L; lia|lia].
    + symmetry. apply existsb_exists. exists k. split; [apply in_seq; lia|apply Nat.eqb_refl].
Qed.
Lemma drop_range0 m (l l' : list nat) : length l = m -> drop_axes (seq 0 m) (l ++ l') = l'.
Proof. intro L. assert (X := drop_range m 0 0 l l' L (le_n 0)). rewrite Nat.sub_0_r in X. exact X. Qed.
Lemma size_ones m sh : size (repeat 1 m ++ sh) = size sh.
Proof. induction m as [|m IH]; [reflexivity|]. cbn [repeat app]. rewrite size_cons, IH. lia. Qed.
Lemma ones_at m (sh : list nat) a : a < m -> nth a (repeat 1 m ++ sh) 0 = 1.
Proof. intro H. rewrite app_nth1 by (rewrite repeat_length; auto). apply (repeat_spec m). apply nth_In. rewrite repeat_length. auto. Qed.
Lemma ravel_ones m : forall sh ix, inb ix (repeat 1 m ++ sh) -> ravel (repeat 1 m ++ sh) ix = ravel sh (skipn m ix) /\ inb (skipn m ix) sh /\ length (firstn m ix) = m.
Proof.
  induction m as [|m IH]; intros sh ix I; [cbn; auto|]. destruct ix as [|i ix]; [destruct I|]. cbn [repeat app inb] in I. destruct I as [Li I].
  destruct (IH sh ix I) as (A & B & C). cbn [repeat app ravel skipn firstn length]. rewrite A. split; [lia|]. split; [auto|lia].
Qed.
(** leading dimensions 1 *)
Lemma unsqueeze_front {X} m (x : tensor X) : wf x -> unsqueeze_rel (map Z.of_nat (seq 0 m)) x (Tensor (repeat 1 m ++ shape x) (data x)).
Proof.
  intro W. split; auto. split; [unfold wf in *; cbn [shape data]; rewrite size_ones; auto|]. cbn [shape data].
  rewrite app_length, repeat_length, map_length, seq_length. split; [lia|]. exists (seq 0 m). split; [apply range_axes; lia|]. split; [apply seq_NoDup|].
  split; [intros a I; apply in_seq in I; apply ones_at; lia|]. split; [symmetry; apply drop_range0, repeat_length|].
  intros ix I. destruct (ravel_ones m _ _ I) as (R & _ & L). unfold get. cbn [shape data]. rewrite R.
  rewrite <- (firstn_skipn m ix) at 2. rewrite drop_range0 by auto. reflexivity.
Qed.
Lemma squeeze_front {X} m (y : tensor X) : wf y -> squeeze_rel (map Z.of_nat (seq 0 m)) (Tensor (repeat 1 m ++ shape y) (data y)) y.
Proof.
  intro W. split; [unfold wf in *; cbn [shape data]; rewrite size_ones; auto|]. split; auto. cbn [shape data]. exists (seq 0 m).
  rewrite app_length, repeat_length. split; [apply range_axes; lia|]. split; [apply seq_NoDup|].
  split; [intros a I; apply in_seq in I; apply ones_at; lia|]. split; [symmetry; apply drop_range0, repeat_length|].
  intros ix I. destruct (ravel_ones m _ _ I) as (R & _ & L). unfold get. cbn [shape data]. rewrite R.
  rewrite <- (firstn_skipn m ix) at 1. rewrite drop_range0 by auto. reflexivity.
Qed.
