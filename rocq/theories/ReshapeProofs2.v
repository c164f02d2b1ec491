(** Slice and ReduceProd in the symbolic executor. *)
From Coq Require Import String List Arith ZArith Bool Lia Permutation.
From Verif Require Import Tensor FGraph OnnxSpec PushSpec NNSpec FoldModel TensorProofs FoldProofs FoldFunProofs ReshapeSpec ReshapeModel QdqProofs3 ReshapeProofs.
Import ListNotations.
Local Open Scope list_scope.

(** ** Slice *)
Lemma py_slice_axis d s e st f c : py_slice d s e st = Some (f, c) -> (0 < st \/ - Z.of_nat d <= s)%Z ->
  c = snd (slice_axis d s e st) /\ (0 < c -> f = fst (slice_axis d s e st)) /\ st <> 0%Z.
Proof.
  unfold py_slice, slice_axis. destruct (Z.eqb_spec st 0) as [->|Nz]; [discriminate|]. intros E H.
  assert (D : (0 <= Z.of_nat d)%Z) by lia. set (n := Z.of_nat d) in *.
  destruct (Z.ltb_spec st 0) as [Neg|Pos].
  - destruct H as [H|H]; [lia|]. destruct (Z.ltb_spec 0 st); [lia|]. injection E as <- <-.
    set (a := if (s <? 0)%Z then (if (s + n <? 0)%Z then (-1)%Z else (s + n)%Z) else if (n <=? s)%Z then (n - 1)%Z else s).
    set (b := if (e <? 0)%Z then (if (e + n <? 0)%Z then (-1)%Z else (e + n)%Z) else if (n <=? e)%Z then (n - 1)%Z else e).
    destruct (Nat.eqb_spec d 0) as [->|Nd].
    + assert (a = -1 /\ b = -1)%Z as [-> ->] by (subst n a b; change (Z.of_nat 0) with 0%Z in *; split;
        repeat match goal with |- context [Z.ltb ?x ?y] => destruct (Z.ltb_spec x y) | |- context [Z.leb ?x ?y] => destruct (Z.leb_spec x y) end; lia).
      cbn. repeat split; auto; lia.
    + assert (N : (1 <= n)%Z) by (subst n; lia). cbn [fst snd].
      assert (A : a = Z.max 0 (Z.min (n - 1) (if (s <? 0)%Z then (s + n)%Z else s))).
      { subst a. destruct (Z.ltb_spec s 0); [destruct (Z.ltb_spec (s + n) 0); lia|destruct (Z.leb_spec n s); lia]. }
      assert (B : b = Z.max (-1) (Z.min (n - 1) (if (e <? 0)%Z then (e + n)%Z else e))).
      { subst b. destruct (Z.ltb_spec e 0); [destruct (Z.ltb_spec (e + n) 0); lia|destruct (Z.leb_spec n e); lia]. }
      rewrite <- A, <- B. clearbody a b. split; [|auto]. destruct (Z.ltb_spec b a) as [L|L].
      * replace (a - b + - st - 1)%Z with ((a - b - 1) + 1 * (- st))%Z by lia. rewrite Z.div_add by lia. reflexivity.
      * assert ((a - b + - st - 1) / - st < 1)%Z by (apply Z.div_lt_upper_bound; lia). lia.
  - destruct (Z.ltb_spec 0 st); [|lia]. injection E as <- <-.
    set (a := if (s <? 0)%Z then (if (s + n <? 0)%Z then 0%Z else (s + n)%Z) else if (n <=? s)%Z then n else s).
    set (b := if (e <? 0)%Z then (if (e + n <? 0)%Z then 0%Z else (e + n)%Z) else if (n <=? e)%Z then n else e).
    assert (A : a = Z.max 0 (Z.min n (if (s <? 0)%Z then (s + n)%Z else s))).
    { subst a. destruct (Z.ltb_spec s 0); [destruct (Z.ltb_spec (s + n) 0); lia|destruct (Z.leb_spec n s); lia]. }
    assert (B : b = Z.max 0 (Z.min n (if (e <? 0)%Z then (e + n)%Z else e))).
    { subst b. destruct (Z.ltb_spec e 0); [destruct (Z.ltb_spec (e + n) 0); lia|destruct (Z.leb_spec n e); lia]. }
    destruct (Nat.eqb_spec d 0) as [->|Nd].
    + assert (a = 0 /\ b = 0)%Z as [-> ->] by (subst n; change (Z.of_nat 0) with 0%Z in *; lia). cbn. repeat split; auto; lia.
    + rewrite <- A, <- B. cbn [fst snd]. clearbody a b. split; [|auto]. destruct (Z.ltb_spec a b) as [L|L].
      * replace (b - a + st - 1)%Z with ((b - a - 1) + 1 * st)%Z by lia. rewrite Z.div_add by lia. reflexivity.
      * assert ((b - a + st - 1) / st < 1)%Z by (apply Z.div_lt_upper_bound; lia). lia.
Qed.

Lemma set_slices_spec params : forall slices res, set_slices params slices = Some res -> length res = length slices /\
  exists ax, norm_axes (length slices) (map fst params) = Some ax /\
    (forall k, ~ In k ax -> nth_error res k = nth_error slices k) /\
    (NoDup ax -> forall q k s, nth_error ax q = Some k -> nth_error (map snd params) q = Some s -> nth_error res k = Some (Some s)).
Proof.
  induction params as [|[a s0] params IH]; intros slices res E; cbn [set_slices] in E.
  - injection E as <-. split; auto. exists []. cbn. repeat split; auto. intros _ q k s H. destruct q; discriminate.
  - destruct (py_index (length slices) a) as [k0|] eqn:P; [|discriminate]. apply IH in E. destruct E as (L & ax & Na & K1 & K2).
    rewrite upd_length in L, Na. split; auto. exists (k0 :: ax). cbn [map norm_axes fst snd]. rewrite norm_py, P, Na. split; auto. split.
    + intros k N. rewrite K1 by (intro; apply N; cbn; auto). rewrite upd_nth_error. destruct (Nat.eqb_spec k k0); [exfalso; apply N; cbn; auto|reflexivity].
    + intros Nd q k s Eq Es. inversion Nd as [|? ? N1 N2]; subst. destruct q as [|q]; cbn in Eq, Es.
      * injection Eq as <-. injection Es as <-. rewrite K1 by auto. rewrite upd_nth_error, Nat.eqb_refl. rewrite <- norm_py in P.
        apply norm_axis_lt in P. apply Nat.ltb_lt in P. rewrite P. reflexivity.
      * eapply K2; eauto.
Qed.
Lemma combine_nth_error {A B} (l : list A) (m : list B) : forall k, nth_error (combine l m) k =
  match nth_error l k, nth_error m k with Some a, Some b => Some (a, b) | _, _ => None end.
Proof.
  revert m. induction l as [|a l IH]; intros [|b m] [|k]; cbn; auto. { destruct (nth_error l k); reflexivity. }
Qed.
Lemma nth_of {A} (l : list A) d k : k < length l -> nth_error l k = Some (nth k l d).
Proof. intro H. apply nth_error_nth'. auto. Qed.
Lemma slice_ok {A} (t z : tensor A) params slices ax : wf t ->
  set_slices params (repeat None (length (shape t))) = Some slices -> np_slice t slices = Some z ->
  norm_axes (length (shape t)) (map fst params) = Some ax -> NoDup ax ->
  (forall q k s e st, nth_error ax q = Some k -> nth_error (map snd params) q = Some (s, e, st) -> (0 < st \/ - Z.of_nat (nth k (shape t) 0%nat) <= s)%Z) ->
  slice_rel params t z.
Proof.
  intros W E N Na Nd Pl. apply set_slices_spec in E. rewrite repeat_length in E. destruct E as (L & ax' & Na' & K1 & K2).
  assert (ax' = ax) by congruence. subst ax'. specialize (K2 Nd). unfold np_slice in N.
  set (F := fun '(d, s) => match s with None => Some (0%Z, d, 1%Z) | Some (start, stop, step) =>
            match py_slice d start stop step with Some (first, count) => Some (first, count, step) | None => None end end : option (Z * nat * Z)) in N.
  destruct (sequence (map F (combine (shape t) slices))) as [ranges|] eqn:Es; [|discriminate]. apply sequence_spec in Es. apply build_spec in N. destruct N as (Sz & Wz & G).
  assert (Lr : length ranges = length (shape t)).
  { apply (f_equal (@length _)) in Es. rewrite !map_length, combine_length in Es. lia. }
  assert (R : forall k, k < length (shape t) -> exists s, nth_error slices k = Some s /\ F (nth k (shape t) 0, s) = Some (nth k ranges (0%Z, 0, 0%Z))).
  { intros k H. assert (Q := f_equal (fun l => nth_error l k) Es). cbv beta in Q. rewrite !nth_error_map, combine_nth_error in Q.
    rewrite (nth_of (shape t) 0 k H) in Q. destruct (nth_error slices k) as [s|] eqn:Ek; [|apply nth_error_None in Ek; lia].
    rewrite (nth_of ranges (0%Z, 0, 0%Z) k) in Q by lia. cbn [option_map] in Q. exists s. split; auto. congruence. }
  assert (Sk : forall k, k < length (shape t) -> nth k (shape z) 0 = snd (fst (nth k ranges (0%Z, 0, 0%Z)))).
  { intros k H. rewrite Sz. change 0 with ((fun '(_, count, _) => count) (0%Z, 0, 0%Z) : nat) at 1. rewrite map_nth. destruct (nth k ranges _) as [[? ?] ?]. reflexivity. }
  assert (Out : forall k, k < length (shape t) -> ~ In k ax -> nth k ranges (0%Z, 0, 0%Z) = (0%Z, nth k (shape t) 0, 1%Z)).
  { intros k H Ni. destruct (R k H) as (s & Ek & Ef). rewrite K1 in Ek by auto. assert (X := nth_error_In _ _ Ek). apply repeat_spec in X. subst s. cbn in Ef. congruence. }
  assert (In_ : forall q k s e st, nth_error ax q = Some k -> nth_error (map snd params) q = Some (s, e, st) -> k < length (shape t) /\
     exists f c, py_slice (nth k (shape t) 0) s e st = Some (f, c) /\ nth k ranges (0%Z, 0, 0%Z) = (f, c, st)).
  { intros q k s e st Eq Ep. assert (H : k < length (shape t)) by (eapply FoldProofs.norm_axes_lt; eauto; eapply nth_error_In; eauto). split; auto.
    destruct (R k H) as (s' & Ek & Ef). rewrite (K2 _ _ _ Eq Ep) in Ek. injection Ek as <-. cbn in Ef. destruct (py_slice _ s e st) as [[f c]|]; [|discriminate].
    exists f, c. split; auto. congruence. }
  assert (Lz : length (shape z) = length (shape t)) by (rewrite Sz, map_length; auto).
  split; auto. split; auto. split; auto. split.
  { intros a s e st I. apply In_nth_error in I. destruct I as [q Eq]. assert (Lq : length ax = length params) by (erewrite norm_axes_length, map_length; eauto).
    destruct (nth_error ax q) as [k|] eqn:Ek; [|apply nth_error_None in Ek; assert (q < length params) by (apply nth_error_Some; congruence); lia].
    destruct (In_ q k s e st Ek) as (_ & f & c & P & _); [rewrite nth_error_map, Eq; reflexivity|].
    apply (py_slice_axis _ _ _ _ _ _ P). eapply Pl; eauto. rewrite nth_error_map, Eq. reflexivity. }
  exists ax. split; auto. split; auto. split; [|split].
  - intros q k s e st Eq Ep. destruct (In_ q k s e st Eq Ep) as (H & f & c & P & Er). rewrite Sk, Er by auto. cbn.
    apply (py_slice_axis _ _ _ _ _ _ P). eapply Pl; eauto.
  - intros k H Ni. rewrite Sk, Out by auto. reflexivity.
  - intros ix jx I J H. rewrite Sz in I. rewrite (G ix I). f_equal. rewrite <- Sz in I. assert (Li := inb_length _ _ I). assert (Lj := inb_length _ _ J).
    apply list_nth_ext; [rewrite map_length, combine_length; lia|]. rewrite map_length, combine_length, Lr. intros k Hk. assert (H' : k < length (shape t)) by lia.
    destruct (H k H') as [H1 H2]. apply inb_nth in I. destruct I as [_ I]. specialize (I k ltac:(lia)). rewrite Sk in I by auto.
    apply nth_error_nth. rewrite nth_error_map, combine_nth_error, (nth_of ranges (0%Z, 0, 0%Z) k) by lia. rewrite (nth_of ix 0 k) by lia.
    destruct (in_dec Nat.eq_dec k ax) as [Ia|Ni].
    + apply In_nth_error in Ia. destruct Ia as [q Eq]. assert (Lq : length ax = length params) by (erewrite norm_axes_length, map_length; eauto).
      destruct (nth_error (map snd params) q) as [[[s e] st]|] eqn:Ep;
        [|apply nth_error_None in Ep; rewrite map_length in Ep; assert (q < length ax) by (apply nth_error_Some; congruence); lia].
      destruct (In_ q k s e st Eq Ep) as (_ & f & c & P & Er). rewrite Er in *. cbn in I. cbn [option_map]. f_equal.
      destruct (py_slice_axis _ _ _ _ _ _ P (Pl _ _ _ _ _ Eq Ep)) as (_ & Hf & _). rewrite Hf by lia. rewrite <- (H2 q s e st Eq Ep). apply Nat2Z.id.
    + rewrite Out in * by auto. cbn [option_map]. f_equal. rewrite (H1 Ni). lia.
Qed.
Lemma slice_fun {A} params (x y z : tensor A) : slice_rel params x y -> slice_rel params x z -> y = z.
Proof.
  intros (Wx & Wy & Ly & Nz & ax & Na & Nd & S1 & S2 & P) (_ & Wz & Lz & _ & ax' & Na' & _ & S1' & S2' & P'). assert (ax' = ax) by congruence. subst ax'.
  assert (Lq : length ax = length params) by (erewrite norm_axes_length, map_length; eauto).
  assert (Pq : forall q k, nth_error ax q = Some k -> exists s e st, nth_error (map snd params) q = Some (s, e, st) /\ st <> 0%Z).
  { intros q k Eq. assert (q < length ax) by (apply nth_error_Some; congruence). destruct (nth_error params q) as [[a [[s e] st]]|] eqn:Ep; [|apply nth_error_None in Ep; lia].
    exists s, e, st. split; [rewrite nth_error_map, Ep; reflexivity|]. eapply Nz. eapply nth_error_In. eauto. }
  apply tensor_ext; auto.
  - apply list_nth_ext; [congruence|]. rewrite Ly. intros k H. destruct (in_dec Nat.eq_dec k ax) as [I|Ni]; [|rewrite S2, S2'; auto].
    apply In_nth_error in I. destruct I as [q Eq]. destruct (Pq q k Eq) as (s & e & st & Ep & _). rewrite (S1 _ _ _ _ _ Eq Ep), (S1' _ _ _ _ _ Eq Ep). reflexivity.
  - assert (Es : shape y = shape z).
    { apply list_nth_ext; [congruence|]. rewrite Ly. intros k H. destruct (in_dec Nat.eq_dec k ax) as [I|Ni]; [|rewrite S2, S2'; auto].
      apply In_nth_error in I. destruct I as [q Eq]. destruct (Pq q k Eq) as (s & e & st & Ep & _). rewrite (S1 _ _ _ _ _ Eq Ep), (S1' _ _ _ _ _ Eq Ep). reflexivity. }
    intros ix I. assert (I0 := I). apply inb_nth in I. destruct I as [Li I].
    destruct (axiswise (fun k j => (~ In k ax -> j = nth k ix 0) /\ forall q s e st, nth_error ax q = Some k -> nth_error (map snd params) q = Some (s, e, st) ->
       Z.of_nat j = (fst (slice_axis (nth k (shape x) 0%nat) s e st) + Z.of_nat (nth k ix 0%nat) * st)%Z) (shape x)) as (jx & J & K).
    { intros k L. specialize (I k ltac:(lia)). destruct (in_dec Nat.eq_dec k ax) as [Hk|Hk].
      - apply In_nth_error in Hk. destruct Hk as [q Eq]. destruct (Pq q k Eq) as (s & e & st & Ep & Hst). rewrite (S1 _ _ _ _ _ Eq Ep) in I.
        destruct (slice_axis_in _ _ _ _ _ Hst I) as (j & Lj & Ej). exists j. split; auto. split.
        + intro N. exfalso. apply N. eapply nth_error_In; eauto.
        + intros q' s' e' st' Eq' Ep'. assert (q' = q) by (eapply NoDup_nth_error_eq; eauto). subst q'. rewrite Ep in Ep'. inversion Ep'. subst. exact Ej.
      - rewrite S2 in I by auto. exists (nth k ix 0). split; auto. split; auto. intros q s e st Eq. exfalso. apply Hk. eapply nth_error_In; eauto. }
    rewrite (P ix jx I0 J K). rewrite Es in I0. rewrite (P' ix jx I0 J K). reflexivity.
Qed.

(** ** ReduceProd *)
Lemma seq_shift_map s n : seq s n = map (fun k => s + k) (seq 0 n).
Proof.
  revert s. induction n as [|n IH]; intro s; [reflexivity|]. cbn [seq map]. f_equal; [lia|]. rewrite IH, (IH 1), map_map. apply map_ext. intro. lia.
Qed.
Lemma indices_unravel sh : indices sh = map (unravel sh) (seq 0 (size sh)).
Proof.
  induction sh as [|d sh IH]; [reflexivity|]. cbn [indices]. rewrite size_cons, IH.
  assert (K : forall n i, flat_map (fun i => map (cons i) (map (unravel sh) (seq 0 (size sh)))) (seq i n) = map (unravel (d :: sh)) (seq (i * size sh) (n * size sh))).
  { induction n as [|n IHn]; intro i; [reflexivity|]. cbn [seq flat_map]. rewrite IHn. replace (S n * size sh) with (size sh + n * size sh) by lia.
    rewrite seq_app, map_app. f_equal.
    - rewrite map_map, (seq_shift_map (i * size sh)), map_map. apply map_ext_in. intros k Hk. apply in_seq in Hk. cbn [unravel].
      rewrite Nat.add_comm, Nat.div_add, Nat.div_small, Nat.mod_add, Nat.mod_small by lia. reflexivity.
    - f_equal. f_equal. lia. }
  rewrite K. f_equal.
Qed.
Lemma filter_map_swap {A B} (f : A -> B) (p : B -> bool) l : filter p (map f l) = map f (filter (fun x => p (f x)) l).
Proof. induction l as [|x l IH]; [reflexivity|]. cbn [map filter]. rewrite IH. destruct (p (f x)); reflexivity. Qed.
Lemma keep_or_drop ax sh : forall k, keep_or None ax k sh = drop_from k ax sh.
Proof. induction sh as [|d sh IH]; intro k; cbn [keep_or drop_from]; [reflexivity|]. rewrite IH. reflexivity. Qed.
Lemma keep_or_one ax sh : forall k, length (keep_or (Some 1) ax k sh) = length sh /\
  (forall j, j < length sh -> nth j (keep_or (Some 1) ax k sh) 0 = if existsb (Nat.eqb (k + j)) ax then 1 else nth j sh 0) /\
  drop_from k ax (keep_or (Some 1) ax k sh) = drop_from k ax sh.
Proof.
  induction sh as [|d sh IH]; intro k; [cbn; repeat split; intros; lia|]. destruct (IH (S k)) as (A & B & C). cbn [keep_or].
  split; [|split].
  - destruct (existsb _ ax); cbn [length]; lia.
  - intros [|j] Hj; [rewrite Nat.add_0_r; destruct (existsb _ ax); reflexivity|]. cbn [length] in Hj. replace (k + S j) with (S k + j) by lia.
    destruct (existsb (Nat.eqb k) ax); cbn [nth]; apply B; lia.
  - cbn [drop_from]. destruct (existsb (Nat.eqb k) ax) eqn:E; cbn [drop_from]; rewrite E; [exact C|]. f_equal. exact C.
Qed.
Lemma product_prod_of v l : product (map (eeval v) l) = eeval v (prod_of l).
Proof.
  destruct l as [|e l]; [reflexivity|]. cbn [prod_of map]. revert e. induction l as [|a l IH]; intro e.
  - unfold product. cbn. ring.
  - cbn [fold_left]. rewrite <- IH. rewrite eeval_mul. unfold product. cbn [map fold_right]. ring.
Qed.
Lemma squeeze_by_data {A} axes ax (z : tensor A) : wf z -> norm_axes (length (shape z)) axes = Some ax -> NoDup ax ->
  (forall a, In a ax -> nth a (shape z) 0 = 1) -> size (drop_axes ax (shape z)) = size (shape z) -> squeeze_rel axes z (Tensor (drop_axes ax (shape z)) (data z)).
Proof.
  intros W Na Nd One Sz. split; auto. split. { unfold wf in *. cbn [shape data]. congruence. } exists ax. repeat (split; auto). intros ix I. unfold get. cbn [shape data].
  f_equal. symmetry. apply ravel_drop; auto. intros. rewrite Nat.sub_0_r. auto.
Qed.
Lemma drop_size ax : forall sh k, (forall a, In a ax -> k <= a -> a < k + length sh -> nth (a - k) sh 0 = 1) -> size (drop_from k ax sh) = size sh.
Proof.
  induction sh as [|d sh IH]; intros k H; [reflexivity|]. cbn [drop_from].
  assert (T : size (drop_from (S k) ax sh) = size sh).
  { apply IH. intros a I1 I2 I3. assert (X := H a I1 ltac:(lia) ltac:(cbn; lia)). replace (a - k) with (S (a - S k)) in X by lia. exact X. }
  destruct (existsb (Nat.eqb k) ax) eqn:E.
  - apply existsb_exists in E. destruct E as (a & I & E). apply Nat.eqb_eq in E. subst a. assert (X := H k I ltac:(lia) ltac:(cbn; lia)).
    rewrite Nat.sub_diag in X. cbn in X. subst d. rewrite size_cons. lia.
  - rewrite !size_cons. lia.
Qed.
Lemma distinct_NoDup l : distinct l = true -> NoDup l.
Proof.
  induction l as [|x l IH]; intro H; constructor; cbn [distinct] in H; apply andb_true_iff in H; destruct H as [H1 H2]; auto.
  intro I. apply negb_true_iff in H1. assert (existsb (Nat.eqb x) l = true); [|congruence]. apply existsb_exists. exists x. split; auto. apply Nat.eqb_refl.
Qed.
Lemma py_axes r axes ax : sequence (map (py_index r) axes) = Some ax -> norm_axes r axes = Some ax.
Proof.
  revert ax. induction axes as [|a axes IH]; intros ax E; cbn [map sequence norm_axes] in *; [congruence|].
  rewrite norm_py. destruct (py_index r a) as [k|]; [|discriminate]. destruct (sequence (map (py_index r) axes)) as [l|]; [|discriminate].
  injection E as <-. rewrite (IH l eq_refl). reflexivity.
Qed.
Lemma prod_ok v (t : tensor elt) axes keep z : wf t -> np_prod t axes keep = Some z ->
  reduce_rel product axes keep (tmap (eeval v) t) (tmap (eeval v) z).
Proof.
  intros W N. unfold np_prod in N. destruct (sequence (map (py_index (length (shape t))) axes)) as [ax|] eqn:E; [|discriminate]. apply py_axes in E.
  destruct (distinct ax) eqn:D; [|discriminate]. apply distinct_NoDup in D.
  destruct (build _ _) as [z0|] eqn:B; [|discriminate]. apply build_spec in B. destruct B as (S0 & W0 & G).
  destruct (keep_or_one ax (shape t) 0) as (L1 & K1 & D1).
  assert (R : reduce_keep product ax (tmap (eeval v) t) (tmap (eeval v) z0)).
  { split; [now apply tmap_wf|]. split; [now apply tmap_wf|]. cbn [tmap shape]. rewrite S0, L1. split; auto. split.
    - intros k Hk. rewrite K1 by auto. reflexivity.
    - intros ix I. assert (Q := G ix I). destruct (get_wf z0 ix W0) as [e Ee]; [rewrite S0; exact I|]. rewrite Ee in Q. symmetry in Q. apply option_map_inv in Q.
      destruct Q as (l & Q & ->). apply sequence_spec in Q. exists (map (eeval v) l). rewrite product_prod_of, get_tmap, Ee. split; auto.
      rewrite indices_unravel, filter_map_swap, map_map. rewrite map_map.
      transitivity (map (option_map (eeval v)) (map Some l)); [|now rewrite map_map]. rewrite <- Q, map_map. apply map_ext. intro k. apply get_tmap. }
  exists ax, (tmap (eeval v) z0). split; [exact E|]. split; auto. split; auto. destruct keep; injection N as <-; auto.
  rewrite keep_or_drop, <- D1, <- S0. change (tmap (eeval v) (Tensor (drop_from 0 ax (shape z0)) (data z0))) with (Tensor (drop_axes ax (shape (tmap (eeval v) z0))) (data (tmap (eeval v) z0))).
  assert (One : forall a, In a ax -> nth a (shape z0) 0 = 1).
  { intros a I. rewrite S0, K1 by (eapply FoldProofs.norm_axes_lt; eauto). replace (existsb (Nat.eqb (0 + a)) ax) with true; auto. symmetry. apply existsb_exists. exists a. split; auto. apply Nat.eqb_refl. }
  apply squeeze_by_data; auto; [now apply tmap_wf|cbn [tmap shape]; rewrite S0, L1; exact E|]. apply drop_size. intros. rewrite Nat.sub_0_r. apply One. auto.
Qed.
Lemma squeeze_fun {A} axes (x y z : tensor A) : squeeze_rel axes x y -> squeeze_rel axes x z -> y = z.
Proof.
  intros R R'. assert (D := squeeze_data _ _ _ R). assert (D' := squeeze_data _ _ _ R'). destruct R as (_ & _ & ax & Na & _ & _ & S & _), R' as (_ & _ & ax' & Na' & _ & _ & S' & _).
  assert (ax' = ax) by congruence. subst ax'. destruct y as [ys yd], z as [zs zd]. cbn [shape data] in *. congruence.
Qed.
Lemma map_Some_inj {A} (l l' : list A) : map Some l = map Some l' -> l = l'.
Proof. revert l'. induction l as [|x l IH]; intros [|y l'] H; try discriminate; auto. cbn in H. injection H as -> H. f_equal. auto. Qed.
Lemma reduce_fun {A} (agg : list A -> A) axes keep (x y z : tensor A) : reduce_rel agg axes keep x y -> reduce_rel agg axes keep x z -> y = z.
Proof.
  intros (ax & u & Na & Nd & R & E) (ax' & u' & Na' & _ & R' & E'). assert (ax' = ax) by congruence. subst ax'.
  assert (u = u').
  { destruct R as (W & Wu & L & S & G), R' as (_ & Wu' & L' & S' & G'). assert (Es : shape u = shape u').
    { apply list_nth_ext; [congruence|]. rewrite L. intros k Hk. rewrite S, S'; auto. }
    apply tensor_ext; auto. intros ix I. destruct (G ix I) as (vs & A1 & A2). rewrite Es in I. destruct (G' ix I) as (vs' & B1 & B2).
    rewrite A1 in B1. apply map_Some_inj in B1. congruence. }
  subst u'. destruct keep; [congruence|]. eapply squeeze_fun; eauto.
Qed.
Lemma map_rel_fun {A B} (f : A -> B) x y z : map_rel f x y -> map_rel f x z -> y = z.
Proof.
  intros (W & Wy & S & G) (_ & Wz & S' & G'). apply tensor_ext; auto; [congruence|]. intros ix I. rewrite S in I. rewrite G, G'; auto.
Qed.
