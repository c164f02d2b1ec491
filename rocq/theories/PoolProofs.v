(** The reduction over all spatial axes is the global pooling. *)
From Coq Require Import String List Arith ZArith Bool Lia.
From Verif Require Import FGraph FGraphSpec FGraphProofs IdentityModel IdentityProofs ApplyOptProofs ExecSpec ExecProofs DeadProofs RewriteProofs BypassProofs SwitchProofs SplitProofs.
From Verif Require Import Tensor OnnxSpec NNSpec PushSpec SwitchSpec TensorProofs PushProofs SwitchModel PoolSpec PoolModel.
Import ListNotations.
Local Open Scope string_scope.
Local Open Scope list_scope.

Lemma norm_axis_nat n k : k < n -> norm_axis n (Z.of_nat k) = Some k.
Proof.
  intro H. unfold norm_axis. assert (E : (0 <=? Z.of_nat k)%Z = true) by (apply Z.leb_le; lia). rewrite E.
  assert (E' : (Z.of_nat k <? Z.of_nat n)%Z = true) by (apply Z.ltb_lt; lia). rewrite E', Nat2Z.id. reflexivity.
Qed.
Lemma norm_axes_nat n l : (forall k, In k l -> k < n) -> norm_axes n (map Z.of_nat l) = Some l.
Proof. induction l as [|k l IH]; intro H; cbn [map norm_axes]; auto. rewrite norm_axis_nat, IH; auto; [intros; apply H; now right|apply H; now left]. Qed.
Lemma existsb_seq k a n : existsb (Nat.eqb k) (seq a n) = (Nat.leb a k && Nat.ltb k (a + n))%bool.
Proof.
  destruct (existsb (Nat.eqb k) (seq a n)) eqn:E.
  - apply existsb_exists in E. destruct E as (x & H & K). apply Nat.eqb_eq in K. subst x. apply in_seq in H. symmetry. apply andb_true_iff. split; [apply Nat.leb_le|apply Nat.ltb_lt]; lia.
  - symmetry. apply andb_false_iff. destruct (Nat.leb_spec a k); auto. right. apply Nat.ltb_ge. destruct (Nat.le_gt_cases (a + n) k); auto. exfalso.
    assert (existsb (Nat.eqb k) (seq a n) = true); [|congruence]. apply existsb_exists. exists k. rewrite Nat.eqb_refl. split; auto. apply in_seq. lia.
Qed.
Lemma filter_flat_map {A B} (f : B -> bool) (h : A -> list B) l : filter f (flat_map h l) = flat_map (fun a => filter f (h a)) l.
Proof. induction l; cbn; auto. now rewrite filter_app, IHl. Qed.
Lemma filter_map_cons {A B} (f : B -> bool) (h : A -> B) l : filter f (map h l) = map h (filter (fun a => f (h a)) l).
Proof. induction l; cbn; auto. destruct (f (h a)); cbn; now rewrite IHl. Qed.
Lemma flat_map_pick {A B} (h : A -> list B) (d : A) l i : nth_error l i = Some d -> (forall k a, nth_error l k = Some a -> k <> i -> h a = []) -> flat_map h l = h d.
Proof.
  revert i. induction l as [|a l IH]; intros [|i] H K; cbn [nth_error flat_map] in *; try discriminate.
  - injection H as ->. assert (Z : flat_map h l = []). { clear IH. assert (Q : forall k a, nth_error l k = Some a -> h a = []) by (intros k a E; apply (K (S k)); auto). clear K. induction l as [|b l IHl]; cbn; auto. rewrite (Q 0 b eq_refl). cbn. apply IHl. intros k a E. apply (Q (S k)). exact E. }
    rewrite Z. apply app_nil_r.
  - rewrite (K 0 a eq_refl) by auto. cbn. apply (IH i); auto. intros k b E N. apply (K (S k)); auto.
Qed.
Lemma nth_error_seq0 n i : i < n -> nth_error (seq 0 n) i = Some i.
Proof. intro H. rewrite (nth_error_nth' _ 0) by now rewrite seq_length. now rewrite seq_nth. Qed.

Lemma agrees_pool n c sp i j k : inb k sp ->
  agrees (seq 2 (length sp)) (i :: j :: map (fun _ => 0) sp) (n :: c :: k) = (Nat.eqb i n && Nat.eqb j c)%bool.
Proof.
  intro H. unfold agrees. cbn [length]. assert (L := inb_length _ _ H). rewrite L. cbn [seq forallb nth].
  rewrite !existsb_seq. cbn [Nat.leb andb orb]. rewrite andb_assoc.
  assert (T : forallb (fun q => existsb (Nat.eqb q) (seq 2 (length sp)) || Nat.eqb (nth q (i :: j :: map (fun _ => 0) sp) 0) (nth q (n :: c :: k) 0)) (seq 2 (length sp)) = true).
  { apply forallb_forall. intros q Hq. apply orb_true_iff. left. apply existsb_exists. exists q. rewrite Nat.eqb_refl. auto. }
  cbn [Nat.eqb nth] in T |- *. rewrite T. apply andb_true_r.
Qed.
Lemma filter_false {A} (f : A -> bool) l : (forall a, In a l -> f a = false) -> filter f l = [].
Proof. induction l; cbn; intro H; auto. rewrite (H a) by auto. apply IHl. auto. Qed.
Lemma filter_true {A} (f : A -> bool) l : (forall a, In a l -> f a = true) -> filter f l = l.
Proof. induction l; cbn; intro H; auto. rewrite (H a) by auto. f_equal. apply IHl. auto. Qed.
Lemma pool_indices n c sp i j : i < n -> j < c ->
  filter (agrees (seq 2 (length sp)) (i :: j :: map (fun _ => 0) sp)) (indices (n :: c :: sp)) = map (fun k => i :: j :: k) (indices sp).
Proof.
  intros Hi Hj. cbn [indices]. rewrite filter_flat_map.
  rewrite (flat_map_pick _ i _ i); [|now apply nth_error_seq0|].
  - rewrite filter_map_cons, filter_flat_map. rewrite (flat_map_pick _ j _ j); [|now apply nth_error_seq0|].
    + rewrite filter_map_cons, map_map, filter_true; auto. intros k Hk. apply in_indices in Hk. rewrite agrees_pool by auto. now rewrite !Nat.eqb_refl.
    + intros q b Hq Nq. rewrite filter_map_cons, filter_false; auto. intros k Hk. apply in_indices in Hk. rewrite agrees_pool by auto.
      assert (Q : q < c) by (assert (Q : nth_error (seq 0 c) q <> None) by congruence; apply nth_error_Some in Q; now rewrite seq_length in Q).
      rewrite (nth_error_seq0 c q Q) in Hq. injection Hq as <-. apply andb_false_iff. right. apply Nat.eqb_neq. auto.
  - intros q b Hq Nq. rewrite filter_map_cons, filter_flat_map.
    assert (Q : q < n) by (assert (Q : nth_error (seq 0 n) q <> None) by congruence; apply nth_error_Some in Q; now rewrite seq_length in Q).
    rewrite (nth_error_seq0 n q Q) in Hq. injection Hq as <-.
    assert (Z : forall l, flat_map (fun a => filter (fun a0 => agrees (seq 2 (length sp)) (i :: j :: map (fun _ => 0) sp) (q :: a0)) (map (cons a) (indices sp))) l = []).
    { induction l as [|a l IH]; cbn [flat_map]; auto. rewrite IH, app_nil_r, filter_map_cons, filter_false; auto. intros k Hk. apply in_indices in Hk. rewrite agrees_pool by auto.
      apply andb_false_iff. left. apply Nat.eqb_neq. auto. }
    now rewrite Z.
Qed.

Lemma nth_const (v : nat) (l : list nat) k : k < length l -> nth k (map (fun _ => v) l) 0 = v.
Proof. revert k. induction l as [|a l IH]; intros [|k] H; cbn in *; try lia; auto. apply IH. lia. Qed.
Lemma reduce_is_pool {A} (agg : list A -> A) x z r : length (shape x) = r -> 2 <= r ->
  (reduce_keep agg (seq 2 (r - 2)) x z <-> global_pool_rel agg x z).
Proof.
  intros Lx Lr. unfold reduce_keep, global_pool_rel. destruct (shape x) as [|n [|c sp]] eqn:Ex; cbn [length] in Lx; [lia|lia|].
  assert (E : r - 2 = length sp) by lia. rewrite E. split.
  - intros (W1 & W2 & L & Sz & G). exists n, c, sp.
    assert (Ez : shape z = n :: c :: map (fun _ => 1) sp).
    { apply (nth_ext _ _ 0 0); [rewrite L; cbn [length]; now rewrite map_length|]. intros k Hk. rewrite L in Hk. rewrite Sz by auto. rewrite existsb_seq. destruct k as [|[|k]]; cbn [nth Nat.leb andb]; auto. cbn [length] in Hk.
      replace (Nat.ltb (S (S k)) (2 + length sp)) with true by (symmetry; apply Nat.ltb_lt; lia). rewrite nth_const by lia. reflexivity. }
    repeat split; auto. intros i j Hi Hj. destruct (G (i :: j :: map (fun _ => 0) sp)) as (vs & G1 & G2).
    { rewrite Ez. cbn [inb]. repeat split; auto. clear. induction sp; cbn; auto. }
    exists vs. rewrite pool_indices, map_map in G1 by auto. auto.
  - intros (n0 & c0 & sp0 & W1 & W2 & E1 & Ez & G). injection E1 as <- <- <-. split; [exact W1|]. split; [exact W2|].
    assert (L : length (shape z) = S (S (length sp))) by (rewrite Ez; cbn [length]; now rewrite map_length).
    split; [exact L|]. split.
    + cbn [length]. intros k Hk. rewrite Ez, existsb_seq. destruct k as [|[|k]]; cbn [nth Nat.leb andb]; auto.
      replace (Nat.ltb (S (S k)) (2 + length sp)) with true by (symmetry; apply Nat.ltb_lt; lia). rewrite nth_const by lia. reflexivity.
    + intros ix Hx. rewrite Ez in Hx. destruct ix as [|i [|j k]]; cbn [inb] in Hx; try tauto. destruct Hx as (Hi & Hj & Hk).
      assert (K : k = map (fun _ => 0) sp). { clear - Hk. revert k Hk. induction sp as [|d sp IH]; intros [|a k] H; cbn in *; try tauto. destruct H as [H K]. f_equal; [lia|auto]. }
      subst k. destruct (G i j Hi Hj) as (vs & G1 & G2). exists vs. rewrite pool_indices, map_map by auto. auto.
Qed.
Lemma reduce_rel_pool {A} (agg : list A -> A) keep x y r : length (shape x) = r -> 2 <= r ->
  (reduce_rel agg (map Z.of_nat (seq 2 (r - 2))) keep x y <->
   exists z, global_pool_rel agg x z /\ if keep then y = z else squeeze_rel (map Z.of_nat (seq 2 (r - 2))) z y).
Proof.
  intros L2 Hr. unfold reduce_rel. assert (N : norm_axes (length (shape x)) (map Z.of_nat (seq 2 (r - 2))) = Some (seq 2 (r - 2))).
  { rewrite L2. apply norm_axes_nat. intros k Hk. apply in_seq in Hk. lia. }
  split.
  - intros (ax & z & E & _ & K & F). rewrite N in E. injection E as <-. exists z. split; auto. now apply (reduce_is_pool agg x z r).
  - intros (z & K & F). exists (seq 2 (r - 2)), z. split; [exact N|]. split; [apply seq_NoDup|]. split; [now apply (reduce_is_pool agg x z r)|exact F].
Qed.

(** ** in a graph *)
Lemma replace_call {V} op_rel l1 n n' l2 gi go (r0 : env V) args res : f_out n' = f_out n ->
  (forall r : env V, (forall t, ~ In t (defs (FGraph (l1 ++ n :: l2) gi go)) -> r t = r0 t) -> map r gi = args -> all_hold op_rel r (l1 ++ l2) ->
     (holds op_rel r n <-> holds op_rel r n')) ->
  (body_rel op_rel r0 (FGraph (l1 ++ n :: l2) gi go) args res <-> body_rel op_rel r0 (FGraph (l1 ++ n' :: l2) gi go) args res).
Proof.
  intros Eo H. rewrite !body_rel_eq. assert (D : defs (FGraph (l1 ++ n' :: l2) gi go) = defs (FGraph (l1 ++ n :: l2) gi go)).
  { unfold defs. cbn [f_ins f_nodes]. rewrite !map_app. cbn [map]. now rewrite Eo. }
  rewrite D. cbn [f_ins f_outs f_nodes]. split; intros (r & A & B & C & E); exists r; (split; [exact A|split; [exact B|split; [|exact E]]]);
    apply all_hold_app in C; destruct C as [C1 C2]; apply all_hold_app; (split; [apply (H r); auto|exact C2]).
Qed.
Lemma map_at {l1 n l2} (f h : fnode -> fnode) n' : NoDup (map f_name (l1 ++ n :: l2)) -> f n = n' ->
  (forall k, f_name k <> f_name n -> f k = h k) -> map f (l1 ++ n :: l2) = map h l1 ++ n' :: map h l2.
Proof.
  intros N E H. rewrite map_app in *. cbn [map] in *. apply NoDup_remove_2 in N. rewrite in_app_iff in N. rewrite E. f_equal; [|f_equal].
  - apply map_ext_in. intros k Hk. apply H. intro K. apply N. left. rewrite <- K. now apply in_map.
  - apply map_ext_in. intros k Hk. apply H. intro K. apply N. right. rewrite <- K. now apply in_map.
Qed.
Lemma attr_int_val k at_ d : match attr_int k at_ with Some z => z | None => d end = int_attr k at_ d.
Proof. unfold attr_int, int_attr, lookup_attr. destruct (find _ at_) as [[a [z|z|z|z]]|]; reflexivity. Qed.
Lemma attr_ints_val k at_ l d : attr_ints k at_ = Some l -> ints_attr k at_ d = l.
Proof. unfold attr_ints, ints_attr, lookup_attr. destruct (find _ at_) as [[a [z|z|z|z]]|]; cbn; congruence. Qed.

Section Pool.
Context {A : Type}.
Notation V := (tensor A).
Variable op_rel : string -> string -> list (string * attr) -> nat -> list V -> list (list V -> list V -> Prop) -> list V -> Prop.
Hypothesis ext : op_ext op_rel.
Variables (opset : nat) (ints : V -> option (list Z)) (of_ints : list Z -> V).
Hypothesis M : pool_means op_rel opset ints of_ints.

(** one input, one output, no body *)
Lemma holds_one op dom nm at_ x y (r : env V) rel : means op_rel op rel -> y <> "" ->
  (holds op_rel r (FNode nm op dom at_ [x] [y] []) <-> rel at_ [] (r x) (r y)).
Proof.
  intros Me Ny. rewrite holds_eq. cbn [f_op f_dom f_attrs f_in f_out f_bodies map length]. split.
  - intros (vs & H & P). apply Me in H. destruct H as (w & -> & R). specialize (P 0 y eq_refl Ny). cbn in P. injection P as ->. exact R.
  - intro R. exists [r y]. split; [apply Me; eauto|]. intros [|k] o E No; cbn in E; [injection E as <-; reflexivity|destruct k; discriminate].
Qed.
Lemma holds_two op dom nm at_ x c y (r : env V) rel : means op_rel op rel -> y <> "" ->
  (holds op_rel r (FNode nm op dom at_ [x; c] [y] []) <-> rel at_ [r c] (r x) (r y)).
Proof.
  intros Me Ny. rewrite holds_eq. cbn [f_op f_dom f_attrs f_in f_out f_bodies map length]. split.
  - intros (vs & H & P). apply Me in H. destruct H as (w & -> & R). specialize (P 0 y eq_refl Ny). cbn in P. injection P as ->. exact R.
  - intro R. exists [r y]. split; [apply Me; eauto|]. intros [|k] o E No; cbn in E; [injection E as <-; reflexivity|destruct k; discriminate].
Qed.

Lemma optimize_reduce_ok isf rank sq y' cn c g n g' x y rk k :
  WW rk g -> In n (f_nodes g) -> f_in n = [x] -> f_out n = [y] -> f_bodies n = [] -> y <> "" -> x <> "" ->
  rank x = Some k -> 2 <= k ->
  (y' <> "" /\ c <> "" /\ y' <> c /\ sq <> cn) ->
  (forall t, In t [y'; c] -> ~ In t (alldefs g) /\ ~ In t (fv_graph g)) -> (forall t, In t [sq; cn] -> ~ In t (map f_name (f_nodes g))) ->
  optimize_reduce opset isf rank sq y' cn c g n = Some (g', true) ->
  (exists rk', WW rk' g' /\ forall v, In v (fv_graph g') -> In v (fv_graph g)) /\
  forall (r0 : env V) args res,
    (forall r : env V, (forall t, ~ In t (defs g) -> t <> y' -> t <> c -> r t = r0 t) -> map r (f_ins g) = args ->
       (forall h, In h (f_nodes g) -> h <> n -> holds op_rel r h) -> length (shape (r x)) = k) ->
    (body_rel op_rel r0 g args res <-> body_rel op_rel r0 g' args res).
Proof.
  intros W Hn Ei Eo Eb Ny Nx Ek Lk (Fy & Fc & Fyc & Fsc) Fr Frn H.
  assert (G := W g (within_refl g)).
  unfold optimize_reduce in H. rewrite Ei, Eo, Ek in H.
  destruct (pool_of (f_op n)) as [pool|] eqn:Ep; [|discriminate].
  destruct (negb (isf y)); [discriminate|]. destruct (mem y (f_outs g)) eqn:Eg; [discriminate|].
  destruct (attr_ints "axes" (f_attrs n)) as [axes|] eqn:Ea; [|discriminate].
  destruct (zlist_eqb axes (map Z.of_nat (seq 2 (k - 2)))) eqn:Eq; [|discriminate].
  unfold zlist_eqb in Eq. destruct (list_eq_dec Z.eq_dec axes (map Z.of_nat (seq 2 (k - 2)))) as [Ax|]; [clear Eq|discriminate].
  assert (Po : In (f_op n, pool) [("ReduceMean", "GlobalAveragePool"); ("ReduceMax", "GlobalMaxPool")]).
  { unfold pool_of in Ep. destruct (String.eqb_spec (f_op n) "ReduceMean") as [->|]; [injection Ep as <-; now left|]. destruct (String.eqb_spec (f_op n) "ReduceMax") as [->|]; [injection Ep as <-; right; now left|discriminate]. }
  destruct (p_reduce _ _ _ _ M _ _ Po) as (agg & M1 & M2).
  assert (Hn' := Hn). apply in_split in Hn'. destruct Hn' as (l1 & l2 & E1).
  assert (Egr : g = FGraph (l1 ++ n :: l2) (f_ins g) (f_outs g)). { rewrite <- E1. destruct g; reflexivity. }
  assert (Nm := g_names _ _ G). rewrite E1 in Nm.
  set (n' := FNode (f_name n) pool (f_dom n) (del_attr "keepdims" (del_attr "axes" (f_attrs n))) [x] [y] (f_bodies n)) in *.
  assert (Dn : n = FNode (f_name n) (f_op n) (f_dom n) (f_attrs n) [x] [y] []). { clear - Ei Eo Eb. destruct n. cbn in *. congruence. }
  assert (Dn' : n' = FNode (f_name n) pool (f_dom n) (del_attr "keepdims" (del_attr "axes" (f_attrs n))) [x] [y] []). { unfold n'. now rewrite Eb. }
  set (keep := negb (int_attr "keepdims" (f_attrs n) 1 =? 0)%Z) in *.
  assert (Hh : forall r : env V, length (shape (r x)) = k -> (holds op_rel r n <-> exists z, global_pool_rel agg (r x) z /\ if keep then r y = z else squeeze_rel axes z (r y))).
  { intros r L. rewrite Dn. rewrite (holds_one _ _ _ _ _ _ _ _ M1 Ny). cbv beta. fold keep. rewrite (attr_ints_val _ _ _ _ Ea), Ax. rewrite (reduce_rel_pool agg keep (r x) (r y) k L Lk). tauto. }
  assert (Hp : forall r : env V, holds op_rel r n' <-> global_pool_rel agg (r x) (r y)).
  { intro r. rewrite Dn'. rewrite (holds_one _ _ _ _ _ _ _ _ M2 Ny). tauto. }
  assert (Rx : rk x < rk y). { apply (g_acyclic _ _ G n x y Hn); auto; [rewrite fv_node_eq, Ei; now left|rewrite Eo; now left]. }
  assert (Dx : In x (defs g) \/ In x (fv_graph g)). { apply (used_defs_or_free g n x Hn). rewrite fv_node_eq, Ei. now left. }
  assert (Xc : x <> y' /\ x <> c). { split; intros ->; [destruct (Fr y' (or_introl eq_refl)) as [P Q]|destruct (Fr c (or_intror (or_introl eq_refl))) as [P Q]]; destruct Dx as [D|D]; auto; apply P; now apply defs_alldefs. }
  assert (Yc : y <> y' /\ y <> c).
  { assert (D : In y (alldefs g)) by (apply alldefs_in; right; exists n; split; auto; apply alldefs_in_node; left; rewrite Eo; split; auto; now left).
    split; intros <-; [apply (proj1 (Fr y (or_introl eq_refl)))|apply (proj1 (Fr y (or_intror (or_introl eq_refl))))]; exact D. }
  assert (Other : forall h, In h (l1 ++ l2) -> In h (f_nodes g) /\ h <> n).
  { intros h Hh'. split; [rewrite E1; rewrite in_app_iff in *; cbn [In]; tauto|]. intros ->. rewrite map_app in Nm. cbn [map] in Nm. apply NoDup_remove_2 in Nm. apply Nm. rewrite <- map_app. now apply in_map. }
  assert (Conv : forall h, In h (f_nodes g) -> h <> n -> In h (l1 ++ l2)).
  { intros h Hg Ng. rewrite E1 in Hg. rewrite in_app_iff in *. cbn [In] in Hg. destruct Hg as [Hg|[Hg|Hg]]; auto. congruence. }
  rewrite attr_int_val in H. destruct (int_attr "keepdims" (f_attrs n) 1 =? 0)%Z eqn:Ekp.
  - (* a Squeeze is put behind *)
    assert (Gy : ~ In y (f_outs g)). { intro K. apply mem_in in K. congruence. }
    rewrite E1 in H. rewrite (map_at (put_node n' y y') (subst_node y y') n' Nm) in H.
    2:{ unfold put_node. cbn [f_name n']. now rewrite String.eqb_refl. }
    2:{ intros h Hh'. unfold put_node. cbn [f_name n']. destruct (String.eqb_spec (f_name h) (f_name n)); congruence. }
    unfold make_squeeze in H. assert (Ms0 := p_squeeze _ _ _ _ M). destruct (Nat.ltb opset 13) eqn:Eop.
    + injection H as <-. cbn [app]. set (m := FNode sq "Squeeze" "" [("axes", AInts axes)] [y] [y'] []) in *.
      assert (Sp : splittable rk l1 n l2 (f_ins g) (f_outs g) n' m y y').
      { constructor; rewrite <- ?Egr, <- ?E1; auto.
        - apply Fr. now left.
        - apply Frn. now left.
        - cbn [n' f_in In]. intros i [<-|[]]. auto.
        - cbn [m f_in In]. intros i [<-|[]]. split; [lia|]. left. apply in_defs. split; auto. right. exists n. rewrite Eo. split; auto. now left. }
      assert (Eg' : FGraph ((map (subst_node y y') l1 ++ n' :: map (subst_node y y') l2) ++ [m]) (f_ins g) (f_outs g) = split_graph y y' l1 n' l2 m (f_ins g) (f_outs g)).
      { unfold split_graph. rewrite <- app_assoc. reflexivity. }
      rewrite Eg'. split.
      * destruct (split_valid _ _ _ _ _ _ _ _ _ _ Sp) as (RK & W' & F'). exists RK. split; auto. intros v Hv. rewrite Egr. auto.
      * intros r0 args res Kn. rewrite Egr at 1. apply (split_call V op_rel ext rk l1 n l2 (f_ins g) (f_outs g) n' m y y' Sp r0 args).
        -- intros r [C1 C2] Ho Hol. rewrite <- Egr in C1. assert (L : length (shape (r x)) = k). { apply Kn; auto. }
           apply (Hh r L) in Hol. unfold keep in Hol. cbn [negb] in Hol. destruct Hol as (z & P & Q). exists z. split.
           ++ apply Hp. rewrite upd_same. rewrite !upd_other by (tauto || (intro K; subst; lia)). exact P.
           ++ destruct Ms0 as (any & Ms). unfold m. rewrite (holds_one _ _ _ _ _ _ _ _ Ms Fy). cbn [existsb fst String.eqb]. cbn. split; auto. rewrite upd_same. rewrite upd_other, upd_same by (intro K; apply (proj1 Yc); congruence). exact Q.
        -- intros r [C1 C2] Ho H1 H2. rewrite <- Egr in C1. apply Hp in H1. destruct Ms0 as (any & Ms). unfold m in H2. rewrite (holds_one _ _ _ _ _ _ _ _ Ms Fy) in H2. cbn in H2. destruct H2 as [_ H2].
           assert (Ux : upd V r y (r y') x = r x) by (apply upd_other; intros ->; lia).
           apply Hh; [apply Kn; auto|]. unfold keep. cbn [negb]. rewrite Ux. rewrite upd_same. eauto.
    + injection H as <-. set (cd := FNode cn "Const" "" [("value", AInts axes)] [] [c] []) in *. set (m := FNode sq "Squeeze" "" [] [y; c] [y'] []) in *.
      set (g1 := FGraph (l1 ++ n :: (l2 ++ [cd])) (f_ins g) (f_outs g)) in *.
      assert (Eg1 : g1 = FGraph (f_nodes g ++ [cd]) (f_ins g) (f_outs g)). { unfold g1. rewrite E1, <- app_assoc. reflexivity. }
      assert (Eng : FGraph (f_nodes g) (f_ins g) (f_outs g) = g) by (destruct g; reflexivity).
      assert (AS : exists rk1, (forall t, ~ In t (nonempty (f_out cd)) -> rk1 t = rk t) /\ (forall t, In t (nonempty (f_out cd)) -> rk1 t = 0) /\
        WW rk1 g1 /\ equiv op_rel g g1 /\ (forall t, In t (fv_graph g1) -> In t (fv_graph g))).
      { rewrite Eg1. assert (AS := add_source V op_rel ext rk (f_nodes g) (f_ins g) (f_outs g) cd). rewrite Eng in AS. apply AS; auto.
        - apply Frn. right. now left.
        - cbn [cd f_out]. apply NoDup_filter. repeat constructor. intros [].
        - cbn [cd f_out In]. intros o [<-|[]] _. apply Fr. right. now left.
        - exists [of_ints axes]. split; [apply (p_const _ _ _ _ M); reflexivity|cbn; lia]. }
      destruct AS as (rk1 & R1 & R2 & W1 & Q1 & F1).
      assert (Nec : nonempty (f_out cd) = [c]). { cbn. destruct (String.eqb_spec c ""); [contradiction|reflexivity]. }
      assert (Rc : rk1 c = 0) by (apply R2; rewrite Nec; now left).
      assert (Rr : forall t, t <> c -> rk1 t = rk t). { intros t Ht. apply R1. rewrite Nec. intros [K|[]]. congruence. }
      assert (Dg1 : forall t, In t (defs g1) <-> In t (defs g) \/ t = c).
      { intro t. rewrite Eg1, !in_defs. cbn [f_ins f_nodes]. split.
        - intros [Nt [K|(h & K & Q)]]; auto. apply in_app_iff in K. destruct K as [K|[<-|[]]]; [left; eauto|]. destruct Q as [Q|[]]; auto.
        - intros [[Nt [K|(h & K & Q)]]| ->]; (split; [assumption|]); auto; right; [exists h|exists cd]; rewrite in_app_iff; cbn [In]; auto. split; auto. now left. }
      assert (Ag1 : forall t, In t (alldefs g1) -> In t (alldefs g) \/ t = c).
      { intros t Ht. rewrite Eg1 in Ht. apply alldefs_in in Ht. cbn [f_ins f_nodes] in Ht. destruct Ht as [K|(h & K & Q)]; [left; apply alldefs_in; auto|].
        apply in_app_iff in K. destruct K as [K|[<-|[]]]; [left; apply alldefs_in; eauto|]. apply alldefs_in_node in Q. cbn in Q. destruct Q as [[[Q|[]] _]|(b & [] & _)]. auto. }
      assert (Kd : forall t, In t (defs g) \/ In t (fv_graph g) -> In t (defs g1) \/ In t (fv_graph g1)).
      { intros t [K|K]; [left; apply Dg1; auto|]. destruct (string_dec t c) as [->|Nc]; [left; apply Dg1; auto|]. right. apply in_fv_graph in K. apply in_fv_graph. rewrite Dg1. split; [tauto|].
        destruct K as [_ [K|[K|(h & K & Q)]]]; auto. right. right. exists h. rewrite Eg1. cbn [f_nodes]. rewrite in_app_iff. auto. }
      assert (Sp : splittable rk1 l1 n (l2 ++ [cd]) (f_ins g) (f_outs g) n' m y y').
      { constructor; fold g1; auto.
        - split; [intro K; apply Ag1 in K; destruct K as [K|K]; [apply (proj1 (Fr y' (or_introl eq_refl)) K)|congruence]|]. intro K. apply F1 in K. apply (proj2 (Fr y' (or_introl eq_refl)) K).
        - change (l1 ++ n :: l2 ++ [cd]) with (f_nodes g1). rewrite Eg1. cbn [f_nodes m f_name]. rewrite map_app, in_app_iff. cbn [map In cd f_name]. intros [K|[K|[]]]; [|congruence]. apply (Frn sq (or_introl eq_refl) K).
        - cbn [n' f_in In]. intros i [<-|[]]. split; [rewrite !Rr by tauto; exact Rx|]. apply Kd. exact Dx.
        - cbn [m f_in In]. intros i [<-|[<-|[]]]; (split; [try rewrite Rc; lia|]); left; apply Dg1; auto. left. apply in_defs. split; auto. right. exists n. rewrite Eo. split; auto. now left. }
      assert (Eg' : FGraph ((map (subst_node y y') l1 ++ n' :: map (subst_node y y') l2) ++ [cd; m]) (f_ins g) (f_outs g) = split_graph y y' l1 n' (l2 ++ [cd]) m (f_ins g) (f_outs g)).
      { unfold split_graph. rewrite map_app, <- app_assoc. cbn [app map]. rewrite <- app_assoc. reflexivity. }
      rewrite Eg'.
      assert (Hc : forall r : env V, holds op_rel r cd -> r c = of_ints axes).
      { intros r K. rewrite holds_eq in K. cbn in K. destruct K as (vs & K1 & K2). apply (p_const _ _ _ _ M) in K1. subst vs. specialize (K2 0 c eq_refl Fc). cbn in K2. congruence. }
      assert (Oth1 : forall r : env V, all_hold op_rel r (l1 ++ l2 ++ [cd]) -> holds op_rel r cd /\ all_hold op_rel r (l1 ++ l2)).
      { intros r K. split; [apply K; rewrite !in_app_iff; right; right; now left|]. intros h Hh'. apply K. rewrite !in_app_iff in *. tauto. }
      split.
      * destruct (split_valid _ _ _ _ _ _ _ _ _ _ Sp) as (RK & W' & F'). exists RK. split; auto.
      * intros r0 args res Kn. etransitivity; [apply (Q1 r0 args res)|].
        apply (split_call V op_rel ext rk1 l1 n (l2 ++ [cd]) (f_ins g) (f_outs g) n' m y y' Sp r0 args).
        -- intros r [C1 C2] Ho Hol. fold g1 in C1. destruct (Oth1 r Ho) as [Hcd Ho']. assert (L : length (shape (r x)) = k). { apply Kn; auto. intros t Q2 Q3 Q4. apply C1; auto. rewrite Dg1. tauto. }
           apply (Hh r L) in Hol. unfold keep in Hol. cbn [negb] in Hol. destruct Hol as (z & P & Q). exists z. split.
           ++ apply Hp. rewrite upd_same. rewrite !upd_other by (tauto || (intro K; subst; lia)). exact P.
           ++ unfold m. rewrite (holds_two _ _ _ _ _ _ _ _ _ Ms0 Fy). exists (of_ints axes), axes. rewrite upd_same. rewrite !upd_other by (intro K; subst; tauto). rewrite (Hc r Hcd), upd_same. split; [reflexivity|]. split; [apply (p_ints _ _ _ _ M)|exact Q].
        -- intros r [C1 C2] Ho H1 H2. fold g1 in C1. destruct (Oth1 _ Ho) as [Hcd Ho']. apply Hp in H1. unfold m in H2. rewrite (holds_two _ _ _ _ _ _ _ _ _ Ms0 Fy) in H2. destruct H2 as (a & l & Q2 & Q3 & Q4).
           assert (Ux : upd V r y (r y') x = r x) by (apply upd_other; intros ->; lia).
           assert (Uc := Hc _ Hcd). rewrite upd_other in Uc by (intro K; apply (proj2 Yc); congruence). injection Q2 as <-. rewrite Uc, (p_ints _ _ _ _ M) in Q3. injection Q3 as <-.
           apply Hh; [apply Kn; auto|]. { intros t Z2 Z3 Z4. apply C1; auto. rewrite Dg1. tauto. }
           unfold keep. cbn [negb]. rewrite Ux, upd_same. eauto.
  - injection H as <-. rewrite E1.
    match goal with |- context [map ?f (l1 ++ n :: l2)] => rewrite (map_at f (fun h => h) n' Nm) end.
    2:{ cbn [f_name n']. now rewrite String.eqb_refl. }
    2:{ intros h Hh'. cbn [f_name n']. destruct (String.eqb_spec (f_name h) (f_name n)); congruence. }
    rewrite !map_id. split.
    + rewrite Egr in W. destruct (replace_valid rk l1 n n' l2 (f_ins g) (f_outs g) W) as [W' F']; auto.
      * cbn [n' f_in In]. intros t [<-|[]]. rewrite <- Egr. exact Dx.
      * cbn [n' f_in In]. rewrite Eo. intros t o [<-|[]] [<-|[]] _. exact Rx.
      * exists rk. split; auto. intros v Hv. rewrite Egr. auto.
    + intros r0 args res Kn. rewrite Egr at 1. apply replace_call; [cbn; auto|]. intros r C1 C2 Ho. rewrite <- Egr in C1. rewrite Hp.
      rewrite Hh; [|apply Kn; auto; intros h Hg Ng; apply Ho, Conv; [rewrite E1; exact Hg|exact Ng]]. unfold keep. cbn [negb]. split; [intros (z & P & Q); congruence|eauto].
Qed.
End Pool.
