(** Proofs for C76: the layout VALUE_ROWIDS. *)
From Coq Require Import String List Arith ZArith Bool Lia.
From Verif Require Import OnnxSpec SegSpec SegProofs RagSpec RagModel RagProofs.
From Verif Require SpSpec.
Import ListNotations.
Local Open Scope list_scope.
Local Notation length := List.length.

Definition ids (a : nat) (ls : list nat) : list Z := concat (map (fun p => repeat (Z.of_nat (fst p)) (snd p)) (combine (seq a (length ls)) ls)).
Lemma ids_cons a n ls : ids a (n :: ls) = repeat (Z.of_nat a) n ++ ids (S a) ls.
Proof. reflexivity. Qed.
Lemma ids_ge ls : forall a z, In z (ids a ls) -> (Z.of_nat a <= z)%Z.
Proof. induction ls as [|n ls IH]; intros a z H; [destruct H|]. rewrite ids_cons in H. apply in_app_or in H. destruct H as [H|H]; [apply repeat_spec in H; lia|apply IH in H; lia]. Qed.
Lemma ids_rows ls : ids 0 ls = rows_of ls.
Proof.
  unfold rows_of. rewrite map_pairs. cbn [fst].
  assert (G : forall ms a, (forall i, i < length ms -> nth (a + i) ls 0 = nth i ms 0) -> ids a ms = flat_map (fun i => map (fun _ => Z.of_nat i) (seq 0 (nth i ls 0))) (seq a (length ms))).
  { induction ms as [|n ms IH]; intros a H; [reflexivity|]. rewrite ids_cons. cbn [length seq flat_map]. f_equal.
    - specialize (H 0 ltac:(cbn; lia)). rewrite Nat.add_0_r in H. rewrite H. cbn [nth]. clear H IH. generalize 0. induction n as [|n IHn]; intro b; [reflexivity|]. cbn. f_equal. apply IHn.
    - apply IH. intros i Hi. specialize (H (S i) ltac:(cbn; lia)). rewrite <- Nat.add_succ_comm in H. exact H. }
  apply G. auto.
Qed.
(** the rows that are not empty: row number, (offset, 0, length) *)
Fixpoint keyed (a off : nat) (ls : list nat) : list (Z * triple) :=
  match ls with [] => [] | n :: ls' => (if Nat.ltb 0 n then [(Z.of_nat a, (off, 0, n))] else []) ++ keyed (S a) (off + n) ls' end.
Lemma keyed_ge ls : forall a off k t, In (k, t) (keyed a off ls) -> (Z.of_nat a <= k)%Z.
Proof. induction ls as [|n ls IH]; intros a off k t H; [destruct H|]. cbn [keyed] in H. apply in_app_or in H. destruct H as [H|H]; [|apply IH in H; lia]. destruct (Nat.ltb 0 n); [|destruct H]. destruct H as [E|[]]. injection E as <- _. lia. Qed.
Lemma keyed_triples ls : forall a off, map snd (keyed a off ls) = filter nonempty (attach off (map (fun n => (0, n)) ls)).
Proof. induction ls as [|n ls IH]; intros a off; [reflexivity|]. cbn [keyed map attach filter]. unfold nonempty at 1. cbn [t_len snd]. rewrite map_app, IH. destruct (Nat.ltb 0 n); reflexivity. Qed.
Lemma distinct_block z n l : (forall w, In w l -> (z < w)%Z) -> 0 < n -> distinct (repeat z n ++ l) = z :: distinct l.
Proof.
  intros H P. destruct n as [|n]; [lia|]. clear P. induction n as [|n IH].
  - cbn [repeat app]. change (distinct (z :: l)) with (insert_new z (distinct l)). destruct (distinct l) as [|q m] eqn:E; [reflexivity|]. cbn [insert_new]. assert (z < q)%Z by (apply H; apply distinct_in; rewrite E; now left). replace (Z.eqb z q) with false by (symmetry; apply Z.eqb_neq; lia). now replace (Z.ltb z q) with true by (symmetry; apply Z.ltb_lt; lia).
  - change (repeat z (S (S n)) ++ l) with (z :: (repeat z (S n) ++ l)). change (insert_new z (distinct (repeat z (S n) ++ l)) = z :: distinct l). rewrite IH. cbn [insert_new]. now rewrite Z.eqb_refl.
Qed.
Lemma distinct_ids ls : forall a off, distinct (ids a ls) = map fst (keyed a off ls).
Proof.
  induction ls as [|n ls IH]; intros a off; [reflexivity|]. rewrite ids_cons. cbn [keyed]. rewrite map_app, <- IH. destruct (Nat.ltb_spec 0 n).
  - rewrite distinct_block; [reflexivity| |assumption]. intros w Hw. apply ids_ge in Hw. lia.
  - now replace n with 0 by lia.
Qed.
Lemma count_app z l m : count z (l ++ m) = count z l + count z m.
Proof. apply count_occ_app. Qed.
Lemma count_repeat z n : count z (repeat z n) = n.
Proof. unfold count. induction n as [|n IH]; [reflexivity|]. cbn. destruct (Z.eq_dec z z); [congruence|contradiction]. Qed.
Lemma count_none z l : ~ In z l -> count z l = 0.
Proof. unfold count. apply count_occ_not_In. Qed.
Lemma position_app z l m : ~ In z l -> position z (l ++ m) = length l + position z m.
Proof. induction l as [|q l IH]; intro N; [reflexivity|]. cbn. destruct (Z.eqb_spec z q); [exfalso; apply N; now left|]. rewrite IH; [reflexivity|]. intro H. apply N. now right. Qed.
Lemma keyed_ok ls : forall a off k t, In (k, t) (keyed a off ls) -> count k (ids a ls) = t_len t /\ off + position k (ids a ls) = t_off t /\ t_src t = 0.
Proof.
  induction ls as [|n ls IH]; intros a off k t H; [destruct H|]. rewrite ids_cons. cbn [keyed] in H. rewrite count_app. apply in_app_or in H. destruct H as [H|H].
  - destruct (Nat.ltb_spec 0 n) as [P|P]; [|destruct H]. destruct H as [E|[]]. injection E as <- <-. rewrite count_repeat, count_none by (intro Hi; apply ids_ge in Hi; lia). destruct n as [|n]; [lia|]. cbn [repeat app position]. rewrite Z.eqb_refl. cbn. lia.
  - assert (G := keyed_ge _ _ _ _ _ H). destruct (IH _ _ _ _ H) as (E1 & E2 & E3). assert (N : ~ In k (repeat (Z.of_nat a) n)) by (intro Hi; apply repeat_spec in Hi; lia). rewrite count_none, position_app, repeat_length by exact N. split; [exact E1|]. split; [lia|exact E3].
Qed.
Lemma count_of_ids ls : map (fun z => Z.of_nat (count z (ids 0 ls))) (distinct (ids 0 ls)) = map (fun t => Z.of_nat (t_len t)) (map snd (keyed 0 0 ls)).
Proof. rewrite (distinct_ids ls 0 0), !map_map. apply map_ext_in. intros [k t] H. cbn [fst snd]. now destruct (keyed_ok ls 0 0 k t H) as (-> & _). Qed.
Lemma first_of_ids ls : map (fun z => Z.of_nat (position z (ids 0 ls))) (distinct (ids 0 ls)) = map (fun t => Z.of_nat (t_off t)) (map snd (keyed 0 0 ls)).
Proof. rewrite (distinct_ids ls 0 0), !map_map. apply map_ext_in. intros [k t] H. cbn [fst snd]. now destruct (keyed_ok ls 0 0 k t H) as (_ & <- & _). Qed.
Lemma max_filter ls : forall off, list_max (map t_len (filter nonempty (attach off (map (fun n => (0, n)) ls)))) = list_max ls.
Proof.
  induction ls as [|n ls IH]; intro off; [reflexivity|]. cbn [map attach filter]. unfold nonempty at 1. cbn [t_len snd]. change (list_max (n :: ls)) with (Nat.max n (list_max ls)). destruct (Nat.ltb_spec 0 n).
  - cbn [map]. change (list_max (?x :: ?l)) with (Nat.max x (list_max l)). cbn [t_len snd]. now rewrite <- (IH (off + n)).
  - rewrite IH. lia.
Qed.
Lemma shifted_deltas T : (forall t, In t T -> t_src t = 0) -> slice (0%Z :: map (fun t => 1 - Z.of_nat (t_len t))%Z T) 0 (-1) = deltas_from 1 0 T.
Proof.
  intro H. assert (S1 : forall l : list Z, slice l 0 (-1) = removelast l).
  { intro l. unfold slice, slice_bound. cbn [Z.ltb Z.compare]. rewrite removelast_firstn_len. replace (Z.to_nat (Z.max 0 (Z.min (Z.of_nat (length l)) 0))) with 0 by lia. cbn [skipn]. f_equal. lia. }
  rewrite S1. clear S1. destruct T as [|t T]; [reflexivity|]. cbn [map].
  assert (G : forall T x, (forall t, In t T -> t_src t = 0) -> removelast (x :: map (fun t => 1 - Z.of_nat (t_len t))%Z T) = match T with [] => [] | t :: T' => x :: removelast ((1 - Z.of_nat (t_len t))%Z :: map (fun t => 1 - Z.of_nat (t_len t))%Z T') end) by (intros [|u U] x _; reflexivity).
  cbn [deltas_from]. rewrite (H t) by (now left). change (removelast (0%Z :: (1 - Z.of_nat (t_len t))%Z :: map (fun t => 1 - Z.of_nat (t_len t))%Z T)) with (0%Z :: removelast ((1 - Z.of_nat (t_len t))%Z :: map (fun t => 1 - Z.of_nat (t_len t))%Z T)). f_equal.
  revert t H. induction T as [|u T IH]; intros t H; [reflexivity|]. cbn [map deltas_from]. change (removelast ((1 - Z.of_nat (t_len t))%Z :: (1 - Z.of_nat (t_len u))%Z :: map (fun t => 1 - Z.of_nat (t_len t))%Z T)) with ((1 - Z.of_nat (t_len t))%Z :: removelast ((1 - Z.of_nat (t_len u))%Z :: map (fun t => 1 - Z.of_nat (t_len t))%Z T)).
  rewrite (H u) by (right; now left). f_equal; [lia|]. apply IH. intros v Hv. apply H. destruct Hv as [->|Hv]; [right; now left|right; now right].
Qed.
Section Ids.
Variables (A : Type) (env : string -> option (rval A)).
Lemma row_ids_ok e ls num_cols cols : value env e = Some (V1 (ids 0 ls)) -> 0 < list_sum ls -> row_ids_to_sparse e = (num_cols, cols) ->
  value env num_cols = Some (V1 [Z.of_nat (list_max ls)]) /\ value env cols = Some (V1 (cols_of ls)).
Proof.
  intros He P Hr. unfold row_ids_to_sparse in Hr. cbv zeta in Hr. set (T0 := attach 0 (map (fun n => (0, n)) ls)). set (T := filter nonempty T0).
  assert (ET : map snd (keyed 0 0 ls) = T) by apply keyed_triples.
  set (counts := E (KUnique Counts) [e]) in Hr. set (shifted := E (KSlice 0 (-1)) _) in Hr. set (deltas := E KScatterElements _) in Hr. injection Hr as <- <-.
  assert (X1 : value env counts = Some (V1 (map (fun t => Z.of_nat (t_len t)) T))) by (unfold counts; rewrite (value_1 _ _ _ _ _ He); cbn [op_value]; cbv zeta; rewrite count_of_ids, ET; reflexivity).
  assert (Tt : total T = list_sum ls). { unfold T. rewrite total_filter. unfold total, T0. rewrite attach_len, map_map. cbn [snd]. now rewrite map_id. }
  assert (NT : map t_len T <> []). { intro N. unfold total in Tt. rewrite N in Tt. cbn in Tt. lia. }
  split.
  { rewrite (value_1 _ _ _ _ _ X1). cbn [op_value]. rewrite <- (map_map t_len Z.of_nat), (max_list_nat _ NT). cbn [option_map]. unfold T, T0. now rewrite max_filter. }
  assert (Src : forall t, In t T -> t_src t = 0). { intros t Ht. rewrite <- ET in Ht. apply in_map_iff in Ht. destruct Ht as ([k u] & E1 & Hk). cbn in E1. subst u. now apply (keyed_ok ls 0 0 k t). }
  assert (X2 : value env shifted = Some (V1 (deltas_from 1 0 T))).
  { unfold shifted. rewrite (value_1 A env _ _ (V1 (0%Z :: map (fun t => 1 - Z.of_nat (t_len t))%Z T))); [cbn [op_value]; now rewrite shifted_deltas|].
    rewrite (value_2 A env KConcat _ _ (V1 [0%Z]) (V1 (map (fun t => 1 - Z.of_nat (t_len t))%Z T))); [reflexivity|reflexivity|]. rewrite (value_2 A env (KArith Sub) _ _ (S0 1%Z) _ (const_z env _) X1). cbn [op_value]. rewrite (RagProofs.all_of_map _ _ (fun t => 1 - Z.of_nat (t_len t))%Z); [reflexivity|]. intros t _. reflexivity. }
  assert (Lids : length (ids 0 ls) = list_sum ls). { generalize 0. clear. induction ls as [|n ls IH]; intro a; [reflexivity|]. rewrite ids_cons, app_length, repeat_length, IH. reflexivity. }
  assert (Ct : contiguous 0 T) by apply attach_contiguous.
  assert (X3 : value env deltas = Some (V1 (concat (map (fun td => snd td :: repeat 1%Z (t_len (fst td) - 1)) (combine T (deltas_from 1 0 T)))))).
  { unfold deltas. rewrite (value_3 A env _ _ _ _ (V1 (repeat 1%Z (list_sum ls))) (V1 (map (fun t => Z.of_nat (t_off t)) T)) _) with (3 := X2).
    - cbn [op_value]. rewrite repeat_length. rewrite (RagProofs.all_of_map _ _ t_off).
      + rewrite map_length. assert (Ld : length T = length (deltas_from 1 0 T)). { generalize 1%Z, 0%Z. clear. induction T as [|t l IH]; intros a b; [reflexivity|]. cbn. now rewrite <- IH. } rewrite <- Ld, Nat.eqb_refl. cbn [andb]. rewrite no_dups_ok; [|intros a b; apply Nat.eqb_eq|now apply (contiguous_nodup _ 0)].
        do 2 f_equal. rewrite <- (scatter_deltas T 0 1 0 Ct), Tt. apply map_ext_in. intros k Hk. apply in_seq in Hk. f_equal. apply nth_repeat_lt. lia.
      + intros t Ht. apply (contiguous_ge _ _ _ Ct) in Ht. rewrite norm_ok by lia. now rewrite Nat2Z.id.
    - rewrite (value_1 A env _ _ (V1 [Z.of_nat (list_sum ls)])); [|rewrite (value_1 _ _ _ _ _ He); cbn [op_value]; now rewrite Lids]. cbn [op_value]. replace (Z.leb 0 (Z.of_nat (list_sum ls))) with true by (symmetry; apply Z.leb_le; lia). now rewrite Nat2Z.id.
    - rewrite (value_1 _ _ _ _ _ He). cbn [op_value]. cbv zeta. rewrite first_of_ids, ET. reflexivity. }
  rewrite (value_2 A env _ _ _ _ (S0 0%Z) X3 (const_z env _)). cbn [op_value]. do 2 f_equal. rewrite (cumsum_deltas T 0 1 0 Ct : cumsum_from false 0 _ = _). unfold T. rewrite (concat_filter (fun t => map (fun j => Z.of_nat (t_src t + j)) (seq 0 (t_len t)))) by (intros t ->; reflexivity).
  unfold cols_of. rewrite map_pairs. cbn [snd].
  assert (G : forall ms a off, (forall i, i < length ms -> nth (a + i) ls 0 = nth i ms 0) -> concat (map (fun t => map (fun j => Z.of_nat (t_src t + j)) (seq 0 (t_len t))) (attach off (map (fun n => (0, n)) ms))) = flat_map (fun i => map (fun j => Z.of_nat j) (seq 0 (nth i ls 0))) (seq a (length ms))).
  { clear. induction ms as [|n ms IH]; intros a off H; [reflexivity|]. cbn [map attach concat length seq flat_map]. f_equal.
    - specialize (H 0 ltac:(cbn; lia)). rewrite Nat.add_0_r in H. rewrite H. reflexivity.
    - apply IH. intros i Hi. specialize (H (S i) ltac:(cbn; lia)). rewrite <- Nat.add_succ_comm in H. exact H. }
  apply (G ls 0 0). auto.
Qed.
Definition ids_level (e : expr) (ls : list nat) : Prop := value env e = Some (V1 (ids 0 ls)) /\ 0 < list_sum ls.
Lemma ids_loop es lens : Forall2 ids_level es lens -> forall sp paths dims vs, value env sp = Some (M2 paths) -> nonempty_value env dims vs -> (match lens with [] => True | l :: _ => length l = length paths end) -> fits lens ->
  exists sp' dims', nested_row_ids_loop es (Some sp) dims = (Some sp', dims') /\ value env sp' = Some (M2 (fold_left extend lens paths)) /\ nonempty_value env dims' (vs ++ map (fun l => Z.of_nat (list_max l)) lens).
Proof.
  induction 1 as [|e ls es lens (He & P) F IH]; intros sp paths dims vs Hs Hd L Fit.
  - exists sp, dims. cbn. rewrite app_nil_r. auto.
  - cbn [nested_row_ids_loop]. destruct (row_ids_to_sparse e) as [num_cols cols] eqn:El. destruct (row_ids_ok e ls _ _ He P El) as (Y2 & Y4). assert (Y3 := He). rewrite ids_rows in Y3.
    destruct (IH (E KConcat1 [E KGather [sp; e]; E KUnsqueeze1 [cols]]) (extend paths ls) (dims ++ [num_cols]) (vs ++ [Z.of_nat (list_max ls)])) as (sp' & dims' & E1 & E2 & E3).
    + apply gather_level; auto.
    + apply Forall2_app; [exact Hd|]. constructor; [exact Y2|constructor].
    + destruct lens as [|l' lens]; [exact Logic.I|]. destruct Fit as [Fit _]. rewrite extend_length by auto. exact Fit.
    + destruct lens; [exact Logic.I|apply Fit].
    + exists sp', dims'. split; [exact E1|]. split; [exact E2|]. rewrite <- app_assoc in E3. exact E3.
Qed.
Lemma ids_to_sparse_ok first es lens out dims : value env first = Some (S0 (Z.of_nat (length (nth 0 lens [])))) -> Forall2 ids_level es lens -> fits lens -> nested_row_ids_to_sparse first es = Some (out, dims) ->
  value env out = Some (M2 (all_paths lens)) /\ value env dims = Some (V1 (dense_dims lens)).
Proof.
  intros Hf F Fit Hn. unfold nested_row_ids_to_sparse in Hn.
  destruct F as [|e ls es lens (He & P) F]; [discriminate|]. cbn [nested_row_ids_loop] in Hn. destruct (row_ids_to_sparse e) as [num_cols cols] eqn:El. destruct (row_ids_ok e ls _ _ He P El) as (Y2 & Y4). assert (Y3 := He). rewrite ids_rows in Y3.
  destruct (ids_loop es lens F (E KConcat1 [E KUnsqueeze1 [e]; E KUnsqueeze1 [cols]]) (extend (first_paths (length ls)) ls) ([E KUnsqueeze0 [first]] ++ [num_cols]) [Z.of_nat (length ls); Z.of_nat (list_max ls)]) as (sp' & dims' & E1 & E2 & E3).
  - apply first_level; auto.
  - constructor; [rewrite (value_1 _ _ _ _ _ Hf); reflexivity|]. constructor; [exact Y2|constructor].
  - destruct lens as [|l' lens]; [exact Logic.I|]. rewrite extend_length by (unfold first_paths; now rewrite map_length, seq_length). apply Fit.
  - destruct lens; [exact Logic.I|apply Fit].
  - rewrite E1 in Hn. destruct (concat_all dims') as [d|] eqn:Ed; [|discriminate]. injection Hn as <- <-. split; [exact E2|]. rewrite (concat_all_ok env dims' _ _ E3 Ed). reflexivity.
Qed.
End Ids.
(** ** paths *)
Definition at_depth (k : nat) (paths : list (list Z)) : Prop := NoDup paths /\ Forall (fun p => length p = k /\ Forall (fun z => (0 <= z)%Z) p) paths.
Lemma snoc_inj {X} (a b : list X) x y : a ++ [x] = b ++ [y] -> a = b /\ x = y.
Proof. apply app_inj_tail. Qed.
Lemma extend_depth k paths ls : at_depth k paths -> at_depth (S k) (extend paths ls).
Proof.
  intros [N F]. unfold extend. assert (Nc : NoDup (map fst (combine paths ls))). { clear F. revert ls. induction N as [|p paths H N IH]; intros [|n ls]; try constructor. - intro Hi. apply in_map_iff in Hi. destruct Hi as ([q m] & E & Hi). cbn in E. subst q. apply in_combine_l in Hi. auto. - apply IH. }
  assert (Fc : Forall (fun p => length (fst p) = k /\ Forall (fun z => (0 <= z)%Z) (fst p)) (combine paths ls)). { apply Forall_forall. intros [q m] Hi. apply in_combine_l in Hi. rewrite Forall_forall in F. exact (F q Hi). }
  set (C := combine paths ls) in *. clearbody C. clear N F. split.
  - induction C as [|[q m] C IH]; [constructor|]. cbn [map concat fst snd]. inversion Nc as [|? ? Hq Nc']; subst. inversion Fc; subst.
    assert (G : NoDup (map (fun j => q ++ [Z.of_nat j]) (seq 0 m))). { apply FinFun.Injective_map_NoDup; [|apply seq_NoDup]. intros x y Exy. apply snoc_inj in Exy. lia. }
    assert (D : forall x, In x (map (fun j => q ++ [Z.of_nat j]) (seq 0 m)) -> ~ In x (concat (map (fun p => map (fun j => fst p ++ [Z.of_nat j]) (seq 0 (snd p))) C))).
    { intros x Hx Hc. apply in_map_iff in Hx. destruct Hx as (j & <- & _). apply in_concat in Hc. destruct Hc as (l & Hl & Hx). apply in_map_iff in Hl. destruct Hl as (p & <- & Hp). apply in_map_iff in Hx. destruct Hx as (j' & E & _). apply snoc_inj in E. destruct E as [E _]. apply Hq. cbn. rewrite <- E. now apply in_map. }
    specialize (IH Nc' ltac:(assumption)). revert G D IH. generalize (map (fun j => q ++ [Z.of_nat j]) (seq 0 m)) (concat (map (fun p => map (fun j => fst p ++ [Z.of_nat j]) (seq 0 (snd p))) C)). clear. intros l m. induction l as [|x l IH]; intros G D N; [exact N|]. inversion G; subst. cbn. constructor.
    + rewrite in_app_iff. intros [H|H]; [contradiction|]. exact (D x (or_introl eq_refl) H).
    + apply IH; auto. intros y Hy. apply D. now right.
  - apply Forall_forall. intros x Hx. apply in_concat in Hx. destruct Hx as (l & Hl & Hx). apply in_map_iff in Hl. destruct Hl as (p & <- & Hp). apply in_map_iff in Hx. destruct Hx as (j & <- & _). rewrite Forall_forall in Fc. destruct (Fc p Hp) as [E1 E2]. split; [rewrite app_length; cbn; lia|]. apply Forall_app. split; [exact E2|]. constructor; [lia|constructor].
Qed.
Lemma all_paths_depth lens : lens <> [] -> at_depth (S (length lens)) (all_paths lens).
Proof.
  intro Ne. unfold all_paths. destruct lens as [|l lens]; [contradiction|]. set (L := l :: lens) in *.
  assert (G : forall ls k paths, at_depth k paths -> at_depth (k + length ls) (fold_left extend ls paths)).
  { clear. induction ls as [|l ls IH]; intros k paths H; cbn; [now rewrite Nat.add_0_r|]. rewrite <- Nat.add_succ_comm. apply IH, extend_depth, H. }
  change (S (length L)) with (1 + length L). apply G. split.
  - unfold first_paths. apply FinFun.Injective_map_NoDup; [|apply seq_NoDup]. intros x y E. injection E. lia.
  - apply Forall_forall. intros x Hx. apply in_map_iff in Hx. destruct Hx as (i & <- & _). split; [reflexivity|]. constructor; [lia|constructor].
Qed.
(** every path is within the dense dims *)
Lemma all_paths_bounds lens : lens <> [] -> fits lens -> Forall (SpSpec.in_bounds (dense_dims lens)) (all_paths lens).
Proof.
  intro Ne. unfold all_paths, dense_dims. destruct lens as [|l lens]; [contradiction|]. set (L := l :: lens). intro Fit.
  assert (G : forall ls dims paths, Forall (SpSpec.in_bounds dims) paths -> Forall (SpSpec.in_bounds (dims ++ map (fun l => Z.of_nat (list_max l)) ls)) (fold_left extend ls paths)).
  { clear. induction ls as [|l ls IH]; intros dims paths H; cbn [map fold_left]; [now rewrite app_nil_r|]. change (Z.of_nat (list_max l) :: map (fun l => Z.of_nat (list_max l)) ls) with ([Z.of_nat (list_max l)] ++ map (fun l => Z.of_nat (list_max l)) ls). rewrite app_assoc. apply IH.
    apply Forall_forall. intros x Hx. unfold extend in Hx. apply in_concat in Hx. destruct Hx as (m & Hl & Hx). apply in_map_iff in Hl. destruct Hl as ([p n] & <- & Hp). apply in_map_iff in Hx. destruct Hx as (j & <- & Hj). apply in_seq in Hj. cbn [fst snd] in *. rewrite Forall_forall in H. unfold SpSpec.in_bounds in *.
    apply Forall2_app; [apply H; apply in_combine_l in Hp; exact Hp|]. constructor; [|constructor]. apply in_combine_r in Hp. assert (Q := proj1 (list_max_le l (list_max l)) (le_n _)). rewrite Forall_forall in Q. specialize (Q n Hp). lia. }
  apply (G L [Z.of_nat (length l)]). apply Forall_forall. intros x Hx. apply in_map_iff in Hx. destruct Hx as (i & <- & Hi). apply in_seq in Hi. constructor; [lia|constructor].
Qed.
