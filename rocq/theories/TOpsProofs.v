(** Facts about the operators of TOps. *)
From Coq Require Import List Arith ZArith Bool Lia Permutation.
From Verif Require Import Tensor FoldModel OnnxSpec TensorProofs TOps Util.
Import ListNotations.
Local Open Scope list_scope.

(** ** building *)
Lemma sequence_map_some {T} (l : list T) : sequence (map Some l) = Some l.
Proof. induction l as [|x l IH]; cbn [map sequence]; auto. now rewrite IH. Qed.
Lemma build_is {T} sh (f : list nat -> option T) t : shape t = sh -> wf t -> (forall ix, inb ix sh -> f ix = get t ix) -> build sh f = Some t.
Proof.
  intros Hs W H. destruct (build_total sh f) as [u E].
  - intros ix I. rewrite (H _ I). destruct (get_wf t ix W) as [v ->]; [now rewrite Hs|discriminate].
  - rewrite E. f_equal. destruct (build_spec _ _ _ E) as (Su & Wu & Gu). apply tensor_ext; auto; [congruence|].
    intros ix I. rewrite Su in I. rewrite (Gu _ I). auto.
Qed.
Lemma build_ex {T} sh (f : list nat -> option T) : (forall ix, inb ix sh -> f ix <> None) ->
  exists t, build sh f = Some t /\ shape t = sh /\ wf t /\ forall ix, inb ix sh -> get t ix = f ix.
Proof. intro H. destruct (build_total sh f H) as [t E]. exists t. split; auto. apply build_spec. auto. Qed.
Lemma get_some {T} (t : tensor T) ix : wf t -> inb ix (shape t) -> get t ix <> None.
Proof. intros W I. destruct (get_wf t ix W I) as [v ->]. discriminate. Qed.

(** ** vectors *)
Definition tvec {T} (l : list T) : tensor T := Tensor [length l] l.
Lemma zvec_tvec l : zvec l = tvec l. Proof. reflexivity. Qed.
Lemma wf_tvec {T} (l : list T) : wf (tvec l). Proof. unfold wf, tvec. cbn [shape data]. rewrite size_cons. change (size []) with 1. lia. Qed.
Lemma get_vec {T} n (l : list T) i : get (Tensor [n] l) [i] = nth_error l i.
Proof. unfold get. cbn [shape data ravel]. change (size []) with 1. f_equal. lia. Qed.
Lemma inb_1 ix n : inb ix [n] -> exists i, ix = [i] /\ i < n.
Proof. destruct ix as [|i [|j ix]]; cbn; try tauto. intros [H _]. eauto. Qed.
Lemma build_vec {T} n f (l : list T) : length l = n -> (forall i, i < n -> f [i] = nth_error l i) -> build [n] f = Some (tvec l).
Proof.
  intros <- H. apply build_is; auto; [apply wf_tvec|]. intros ix I. apply inb_1 in I. destruct I as (i & -> & L).
  rewrite (H _ L). unfold tvec. now rewrite get_vec.
Qed.
Lemma as_vec_tvec {T} (l : list T) : as_vec (tvec l) = Some l. Proof. reflexivity. Qed.

Lemma nodupb_spec l : nodupb l = true <-> NoDup l.
Proof.
  induction l as [|x l IH]; cbn [nodupb]; [split; auto; constructor|]. rewrite andb_true_iff, negb_true_iff, IH. split.
  - intros [H K]. constructor; auto. intro Hin. assert (E : existsb (Nat.eqb x) l = true) by (apply existsb_exists; exists x; split; auto; apply Nat.eqb_refl). congruence.
  - intro H. inversion H; subst. split; auto. destruct (existsb (Nat.eqb x) l) eqn:E; auto. apply existsb_exists in E. destruct E as (y & Hy & E).
    apply Nat.eqb_eq in E. subst. contradiction.
Qed.
Lemma seq_axis r k : k < r -> norm_axis r (Z.of_nat k) = Some k.
Proof.
  intro H. unfold norm_axis. destruct (0 <=? Z.of_nat k)%Z eqn:E; [|apply Z.leb_gt in E; lia].
  destruct (Z.of_nat k <? Z.of_nat r)%Z eqn:N; [|apply Z.ltb_ge in N; lia]. f_equal. lia.
Qed.
Lemma nat_axes r l : Forall (fun k => k < r) l -> norm_axes r (map Z.of_nat l) = Some l.
Proof. induction l as [|k l IH]; intro H; auto. inversion H; subst. cbn [map norm_axes]. now rewrite seq_axis, IH. Qed.

Lemma slice_vec {T} (l : list T) a b : f_slice [a] [b] None (tvec l) =
  Some (tvec (firstn (clamp (length l) b - clamp (length l) a) (skipn (clamp (length l) a) l))).
Proof.
  unfold f_slice, tvec. cbn [shape length seq map]. change (norm_axes 1 [Z.of_nat 0]) with (Some [0]). cbn -[clamp build get firstn skipn].
  set (lo := clamp _ a). set (hi := clamp _ b). assert (hi <= length l) by (subst hi; unfold clamp; lia).
  apply build_vec.
  - rewrite firstn_length, skipn_length. lia.
  - intros i Hi. cbn [addix]. rewrite get_vec. rewrite nth_error_firstn, nth_error_skipn by auto. f_equal.
Qed.

Lemma find_part_vecs {T} (ls : list (list T)) : forall c, c < length (concat ls) ->
  exists l k, find_part 0 c (map tvec ls) = Some (tvec l, k) /\ nth_error l k = nth_error (concat ls) c.
Proof.
  induction ls as [|l ls IH]; intros c H; [cbn in H; lia|]. cbn [map find_part tvec shape nth]. cbn [concat] in *. rewrite app_length in H.
  destruct (Nat.ltb c (length l)) eqn:E.
  - apply Nat.ltb_lt in E. exists l, c. split; auto. rewrite nth_error_app1; auto.
  - apply Nat.ltb_ge in E. destruct (IH (c - length l)) as (l' & k & E1 & E2); [lia|]. exists l', k. split; auto.
    rewrite nth_error_app2; auto.
Qed.
Lemma total_vecs {T} (ls : list (list T)) : fold_right Nat.add 0 (map (fun t => nth 0 (shape t) 0) (map tvec ls)) = length (concat ls).
Proof. induction ls as [|a b IH]; auto. cbn [map fold_right concat tvec shape nth]. rewrite app_length. now rewrite IH. Qed.
Lemma concat_vecs {T} (ls : list (list T)) : ls <> [] -> f_concat 0 (map tvec ls) = Some (tvec (concat ls)).
Proof.
  intro H. unfold f_concat. destruct (map tvec ls) as [|t0 ts] eqn:M; [destruct ls; [congruence|discriminate]|].
  assert (S0 : exists d, shape t0 = [d]). { destruct ls; [discriminate|]. injection M as <- _. eexists. reflexivity. }
  destruct S0 as [d S0]. rewrite S0. change (norm_axis _ 0) with (Some 0). cbv beta iota. rewrite <- M.
  match goal with |- (if ?b then _ else _) = _ => replace b with true end.
  2:{ symmetry. apply forallb_forall. intros t Ht. apply in_map_iff in Ht. destruct Ht as (u & <- & _). reflexivity. }
  rewrite total_vecs. cbn [set_dim]. apply build_vec; auto. intros i Hi. cbn [nth].
  destruct (find_part_vecs ls i Hi) as (u & k & -> & E). cbn [set_dim]. unfold tvec. rewrite get_vec. auto.
Qed.

(** ** broadcasting *)
Fixpoint zip2 {X Y W} (f : X -> Y -> W) (a : list X) (b : list Y) : list W :=
  match a, b with x :: a', y :: b' => f x y :: zip2 f a' b' | _, _ => [] end.
Lemma zip2_length {X Y W} (f : X -> Y -> W) : forall a b, length a = length b -> length (zip2 f a b) = length a.
Proof. induction a as [|x a IH]; intros [|y b] H; cbn in *; try discriminate; auto. Qed.
Lemma zip2_nth {X Y W} (f : X -> Y -> W) : forall a b i, nth_error (zip2 f a b) i =
  match nth_error a i, nth_error b i with Some x, Some y => Some (f x y) | _, _ => None end.
Proof.
  induction a as [|x a IH]; intros [|y b] [|i]; cbn [zip2 nth_error]; auto.
  - destruct (nth_error a i); auto.
Qed.
Lemma binary_vec {X Y W} (f : X -> Y -> W) a b : length a = length b -> f_binary f (tvec a) (tvec b) = Some (tvec (zip2 f a b)).
Proof.
  intro H. unfold f_binary. change (shape (tvec a)) with [length a]. change (shape (tvec b)) with [length b]. unfold tvec at 1 2.
  change (Nat.max _ _) with 1. unfold pad_ones. cbn [Nat.sub length repeat app bcast_dims].
  rewrite H, Nat.eqb_refl. apply build_vec; [now rewrite zip2_length|]. intros i Hi. unfold bcast_ix. cbn [length Nat.sub skipn combine map].
  rewrite zip2_nth. destruct (Nat.eqb (length b) 1) eqn:E; rewrite !get_vec; auto.
  apply Nat.eqb_eq in E. replace i with 0 by lia. auto.
Qed.
Lemma binary_vec_1 {X Y W} (f : X -> Y -> W) a y : length a <> 1 -> f_binary f (tvec a) (tvec [y]) = Some (tvec (map (fun x => f x y) a)).
Proof.
  intro H. unfold f_binary. change (shape (tvec a)) with [length a]. change (shape (tvec [y])) with [1]. unfold tvec at 1 2.
  change (Nat.max _ _) with 1. unfold pad_ones. cbn [Nat.sub length repeat app bcast_dims].
  apply Nat.eqb_neq in H. rewrite H. cbn [Nat.eqb]. apply build_vec; [now rewrite map_length|]. intros i Hi. unfold bcast_ix. cbn [length Nat.sub skipn combine map].
  rewrite H. cbn [Nat.eqb]. rewrite !get_vec, nth_error_map. cbn [nth_error]. now destruct (nth_error a i).
Qed.
Lemma binary_scalar_1 {X Y W} (f : X -> Y -> W) x y : f_binary f (Tensor [] [x]) (tvec [y]) = Some (tvec [f x y]).
Proof. reflexivity. Qed.

(** ** Gather *)
Lemma gather_vec {T} (d : T) l idx : Forall (fun i => i < length l) idx ->
  f_gather 0 (tvec l) (zvec (map Z.of_nat idx)) = Some (tvec (map (fun i => nth i l d) idx)).
Proof.
  intro H. unfold f_gather. change (norm_axis _ 0) with (Some 0). cbv beta iota. unfold zvec. cbn [shape tvec length firstn skipn app].
  apply build_vec; [now rewrite !map_length|]. intros i Hi. rewrite map_length in Hi. cbn [firstn skipn Nat.add nth app]. rewrite get_vec, !nth_error_map.
  destruct (nth_error idx i) as [k|] eqn:E; [|apply nth_error_None in E; lia]. cbn [option_map].
  assert (L : k < length l) by (rewrite Forall_forall in H; apply H; eapply nth_error_In; eauto).
  rewrite seq_axis by auto. unfold tvec. rewrite get_vec. now apply nth_error_nth'.
Qed.

(** ** Transpose *)
Lemma transpose_spec {T} p (x : tensor T) : wf x -> is_perm p (length (shape x)) ->
  exists y, f_transpose (Some p) x = Some y /\ shape y = pick p (shape x) /\ wf y /\
    forall ix, inb ix (shape x) -> get y (pick p ix) = get x ix.
Proof.
  intros W P. unfold f_transpose. set (r := length (shape x)) in *. assert (L := is_perm_length _ _ P).
  replace (Nat.eqb (length p) r && forallb (fun k => Nat.ltb k r) p && nodupb p) with true.
  2:{ symmetry. rewrite !andb_true_iff. repeat split; [now apply Nat.eqb_eq| |apply nodupb_spec; eapply is_perm_NoDup; eauto].
      apply forallb_forall. intros k Hk. apply Nat.ltb_lt. now apply (is_perm_in _ _ P). }
  assert (E : forall jx, map (fun k => nth (index_of k p) jx 0) (seq 0 r) = pick (inv_perm p) jx).
  { intro jx. unfold pick, inv_perm. now rewrite map_map, L. }
  destruct (build_ex (pick p (shape x)) (fun jx => get x (map (fun k => nth (index_of k p) jx 0) (seq 0 r)))) as (y & B & S1 & W1 & G1).
  - intros ix I. rewrite E. apply get_some; auto. eapply pick_inb_inv; eauto.
  - exists y. split; auto. split; auto. split; auto. intros ix I. rewrite G1 by (eapply pick_inb; eauto). rewrite E. f_equal.
    eapply pick_inv; eauto. now apply inb_length in I.
Qed.
Lemma transpose_2 {T} m n (d d' : list T) : length d = m * n -> length d' = n * m ->
  (forall i j, i < m -> j < n -> nth_error d' (j * m + i) = nth_error d (i * n + j)) ->
  f_transpose None (Tensor [m; n] d) = Some (Tensor [n; m] d').
Proof.
  intros L L' H. unfold f_transpose. cbn -[build get]. apply build_is; auto.
  - unfold wf. cbn [shape data]. rewrite !size_cons. change (size []) with 1. lia.
  - intros [|j [|i [|k ix]]] I; cbn in I; try tauto. destruct I as (Ij & Ii & _). unfold get. cbn [shape data ravel nth]. unfold size.
    cbn [fold_right]. rewrite !Nat.mul_1_r, !Nat.add_0_r. symmetry. auto.
Qed.
Fixpoint flat2 {T} (rows : list (T * T)) : list T := match rows with [] => [] | (a, b) :: rows' => a :: b :: flat2 rows' end.
Lemma flat2_length {T} (rows : list (T * T)) : length (flat2 rows) = length rows * 2.
Proof. induction rows as [|[a b] rows IH]; cbn [flat2 length]; lia. Qed.
Lemma flat2_nth {T} (rows : list (T * T)) : forall i, nth_error (flat2 rows) (i * 2) = nth_error (map fst rows) i /\
  nth_error (flat2 rows) (i * 2 + 1) = nth_error (map snd rows) i.
Proof. induction rows as [|[a b] rows IH]; intros [|i]; cbn [flat2 map nth_error Nat.mul Nat.add fst snd]; try apply IH; auto. Qed.
Lemma transpose_rows {T} (rows : list (T * T)) :
  f_transpose None (Tensor [length rows; 2] (flat2 rows)) = Some (Tensor [2; length rows] (map fst rows ++ map snd rows)).
Proof.
  apply transpose_2; [apply flat2_length|rewrite app_length, !map_length; lia|]. intros i j Hi Hj. destruct (flat2_nth rows i) as [E0 E1].
  destruct j as [|[|j]]; [| |lia]; cbn [Nat.mul Nat.add].
  - rewrite Nat.add_0_r, E0, nth_error_app1; auto. now rewrite map_length.
  - rewrite E1, nth_error_app2 by (rewrite map_length; lia). rewrite map_length. f_equal. lia.
Qed.
Lemma map_fst_combine {X Y} (a : list X) : forall b : list Y, length a = length b -> map fst (combine a b) = a.
Proof. induction a as [|x a IH]; intros [|y b] H; cbn in *; try discriminate; auto. f_equal. auto. Qed.
Lemma map_snd_combine {X Y} (a : list X) : forall b : list Y, length a = length b -> map snd (combine a b) = b.
Proof. induction a as [|x a IH]; intros [|y b] H; cbn in *; try discriminate; auto. f_equal. auto. Qed.
Lemma transpose_pair {T} (a b : list T) m : length a = m -> length b = m ->
  f_transpose None (Tensor [2; m] (a ++ b)) = Some (Tensor [m; 2] (flat2 (combine a b))).
Proof.
  intros La Lb. assert (Lc : length (combine a b) = m) by (rewrite combine_length; lia).
  apply transpose_2; [rewrite app_length; lia|rewrite flat2_length; lia|]. intros j i Hj Hi.
  destruct (flat2_nth (combine a b) i) as [E0 E1]. rewrite map_fst_combine in E0 by congruence. rewrite map_snd_combine in E1 by congruence.
  destruct j as [|[|j]]; [| |lia]; cbn [Nat.mul Nat.add].
  - rewrite Nat.add_0_r, E0, nth_error_app1; auto. lia.
  - rewrite E1, nth_error_app2 by lia. f_equal. lia.
Qed.

(** ** Reshape *)
Lemma copy_dims_id l : forall insh, Forall (fun d => d = -1 \/ 0 < d)%Z l -> copy_dims insh l = Some l.
Proof.
  induction l as [|d l IH]; intros insh H; auto. inversion H as [|? ? H1 H2]; subst. cbn [copy_dims]. rewrite IH by auto.
  destruct (Z.eqb_spec d 0); [lia|]. destruct (Z.ltb_spec d (-1)); [lia|]. auto.
Qed.
Lemma zsize_cons d l : zsize (d :: l) = (d * zsize l)%Z. Proof. reflexivity. Qed.
Lemma zsize_nat l : zsize (map Z.of_nat l) = Z.of_nat (size l).
Proof. induction l as [|d l IH]; auto. cbn [map]. rewrite zsize_cons, IH, size_cons. lia. Qed.
Lemma zsize_app a b : zsize (a ++ b) = (zsize a * zsize b)%Z.
Proof. induction a as [|d a IH]; cbn [app]; [change (zsize []) with 1%Z; lia|]. rewrite !zsize_cons, IH. lia. Qed.
Lemma filter_nat_pos l : filter (fun d => negb (Z.eqb d (-1))) (map Z.of_nat l) = map Z.of_nat l.
Proof. induction l as [|d l IH]; auto. cbn [map filter]. destruct (Z.eqb_spec (Z.of_nat d) (-1)); [lia|]. cbn [negb]. now rewrite IH. Qed.
Lemma filter_nat_neg l : filter (fun d => Z.eqb d (-1)) (map Z.of_nat l) = [].
Proof. induction l as [|d l IH]; auto. cbn [map filter]. destruct (Z.eqb_spec (Z.of_nat d) (-1)); [lia|auto]. Qed.
Lemma pos_dims l : Forall (fun d => 0 < d) l -> Forall (fun d => d = -1 \/ 0 < d)%Z (map Z.of_nat l).
Proof. intro H. apply Forall_forall. intros z Hz. apply in_map_iff in Hz. destruct Hz as (d & <- & Hd). rewrite Forall_forall in H. specialize (H _ Hd). lia. Qed.
Lemma reshape_infer {T} pre n post (t : tensor T) : Forall (fun d => 0 < d) pre -> Forall (fun d => 0 < d) post ->
  size (shape t) = size pre * n * size post ->
  f_reshape (map Z.of_nat pre ++ (-1)%Z :: map Z.of_nat post) t = Some (Tensor (pre ++ n :: post) (data t)).
Proof.
  intros Hp Hq Hs. unfold f_reshape. rewrite copy_dims_id.
  2:{ apply Forall_app. split; [now apply pos_dims|]. constructor; [auto|now apply pos_dims]. }
  rewrite !filter_app. cbn [filter]. change (Z.eqb (-1) (-1)) with true. cbn [negb]. rewrite !filter_nat_pos, !filter_nat_neg. cbn [app length].
  rewrite zsize_app, !zsize_nat. apply size_pos in Hp. apply size_pos in Hq.
  destruct (Z.eqb_spec (Z.of_nat (size pre) * Z.of_nat (size post)) 0); [lia|]. cbn [negb andb].
  rewrite Hs. replace (Z.of_nat (size pre * n * size post)) with (Z.of_nat n * (Z.of_nat (size pre) * Z.of_nat (size post)))%Z by lia.
  rewrite Z.mod_mul, Z.div_mul by auto. cbn [Z.eqb]. f_equal. f_equal. rewrite map_app. cbn [map]. change (Z.eqb (-1) (-1)) with true. cbv iota.
  rewrite Nat2Z.id.
  assert (M : forall l, map (fun d => if Z.eqb d (-1) then n else Z.to_nat d) (map Z.of_nat l) = l).
  { intro l. rewrite map_map. rewrite <- (map_id l) at 2. apply map_ext. intro d. destruct (Z.eqb_spec (Z.of_nat d) (-1)); lia. }
  now rewrite !M.
Qed.
Lemma reshape_flat {T} (t : tensor T) : wf t -> f_reshape [(-1)%Z] t = Some (tvec (data t)).
Proof.
  intro W. change [(-1)%Z] with (map Z.of_nat [] ++ (-1)%Z :: map Z.of_nat []). rewrite (reshape_infer [] (size (shape t)) []); auto.
  - unfold tvec. cbn [app]. now rewrite W.
  - change (size []) with 1. lia.
Qed.

(** ** Slice of consecutive axes *)
Lemma combine_app {X Y} : forall (a a' : list X) (b b' : list Y), length a = length b -> combine (a ++ a') (b ++ b') = combine a b ++ combine a' b'.
Proof. induction a as [|x a IH]; intros a' [|y b] b' H; cbn in *; try discriminate; auto. f_equal. auto. Qed.
Lemma assoc_seq {X} m : forall a (l : list X) k, length l = m -> a <= k -> assoc_nat k (combine (seq a m) l) = nth_error l (k - a).
Proof.
  induction m as [|m IH]; intros a [|x l] k L H; cbn in L; try discriminate.
  - cbn. now destruct (k - a).
  - cbn [seq combine assoc_nat]. destruct (Nat.eqb_spec a k).
    + subst. now rewrite Nat.sub_diag.
    + rewrite IH by lia. replace (k - a) with (S (k - S a)) by lia. reflexivity.
Qed.
Lemma assoc_before {X} m : forall a (l : list X) k, k < a -> assoc_nat k (combine (seq a m) l) = None.
Proof.
  induction m as [|m IH]; intros a [|x l] k H; auto. cbn [seq combine assoc_nat]. destruct (Nat.eqb_spec a k); [lia|]. apply IH. lia.
Qed.
Definition seg (d : nat) (p : Z * Z) : nat * nat := (clamp d (fst p), clamp d (snd p) - clamp d (fst p)).
Lemma ranges_out params : forall l k, (forall j, k <= j < k + length l -> assoc_nat j params = None) ->
  map (fun '(k, d) => slice_range params k d) (combine (seq k (length l)) l) = map (fun d => (0, d)) l.
Proof.
  induction l as [|d l IH]; intros k H; auto. cbn [length seq combine map]. f_equal.
  - unfold slice_range. rewrite H; auto. cbn [length]. lia.
  - apply IH. intros j Hj. apply H. cbn [length]. lia.
Qed.
Lemma ranges_in a ps : forall l j, j + length l = length ps ->
  map (fun '(k, d) => slice_range (combine (seq a (length ps)) ps) k d) (combine (seq (a + j) (length l)) l) = zip2 seg l (skipn j ps).
Proof.
  induction l as [|d l IH]; intros j H; [reflexivity|]. cbn [length] in H. cbn [length seq combine map].
  destruct (nth_error ps j) as [[s e]|] eqn:E; [|apply nth_error_None in E; lia].
  assert (K : skipn j ps = (s, e) :: skipn (S j) ps).
  { clear -E. revert j E. induction ps as [|q ps IH]; intros [|j] E; cbn in E; try discriminate; [injection E as ->; reflexivity|]. cbn [skipn]. rewrite IH; auto. }
  rewrite K. cbn [zip2]. f_equal.
  - unfold slice_range. rewrite assoc_seq by lia. replace (a + j - a) with j by lia. rewrite E. reflexivity.
  - replace (S (a + j)) with (a + S j) by lia. apply IH. lia.
Qed.
Lemma addix_zeros l : forall ix, length ix = length l -> addix (map fst (map (fun d : nat => (0, d)) l)) ix = ix.
Proof. induction l as [|d l IH]; intros [|i ix] H; cbn in *; try discriminate; auto. f_equal. auto. Qed.
Lemma addix_app : forall a a' b b', length a = length b -> addix (a ++ a') (b ++ b') = addix a b ++ addix a' b'.
Proof. induction a as [|x a IH]; intros a' [|y b] b' H; cbn in *; try discriminate; auto. f_equal. auto. Qed.
Lemma addix_length : forall a b, length a = length b -> length (addix a b) = length a.
Proof. induction a as [|x a IH]; intros [|y b] H; cbn in *; try discriminate; auto. Qed.
Lemma ranges_snd_id l : map snd (map (fun d : nat => (0, d)) l) = l.
Proof. rewrite map_map. cbn. apply map_id. Qed.
Lemma seg_inb : forall mid ps t, length ps = length mid -> inb t (map snd (zip2 seg mid ps)) -> inb (addix (map fst (zip2 seg mid ps)) t) mid.
Proof.
  induction mid as [|d mid IH]; intros [|[s e] ps] [|v t] L I; cbn in L; try discriminate; cbn [zip2 map inb addix fst snd seg] in *; try tauto.
  destruct I as [I1 I2]. split; [|apply IH; auto]. unfold clamp in *. lia.
Qed.
Lemma slice_spec {T} pre mid post (x : tensor T) ss es : wf x -> shape x = pre ++ mid ++ post -> length ss = length mid -> length es = length mid ->
  exists y, f_slice ss es (Some (map Z.of_nat (seq (length pre) (length mid)))) x = Some y /\ wf y /\
    shape y = pre ++ map snd (zip2 seg mid (combine ss es)) ++ post /\
    forall p t q, inb p pre -> inb t (map snd (zip2 seg mid (combine ss es))) -> inb q post ->
      get y (p ++ t ++ q) = get x (p ++ addix (map fst (zip2 seg mid (combine ss es))) t ++ q).
Proof.
  intros W Sx Ls Le. set (a := length pre). set (m := length mid). set (ps := combine ss es).
  assert (Lp : length ps = m) by (subst ps m; rewrite combine_length; lia).
  unfold f_slice. rewrite nat_axes.
  2:{ apply Forall_forall. intros k Hk. apply in_seq in Hk. rewrite Sx, !app_length. fold a m. lia. }
  replace (nodupb (seq a m) && Nat.eqb (length ss) (length (seq a m)) && Nat.eqb (length es) (length (seq a m))) with true.
  2:{ symmetry. rewrite !andb_true_iff. repeat split; [apply nodupb_spec; apply seq_NoDup| |]; apply Nat.eqb_eq; rewrite seq_length; auto. }
  cbv zeta. fold ps.
  assert (R : map (fun '(k, d) => slice_range (combine (seq a m) ps) k d) (combine (seq 0 (length (shape x))) (shape x)) =
              map (fun d => (0, d)) pre ++ zip2 seg mid ps ++ map (fun d => (0, d)) post).
  { rewrite Sx, !app_length. fold a m. rewrite !seq_app. rewrite combine_app by (rewrite seq_length; auto). rewrite combine_app by (rewrite seq_length; auto).
    rewrite !map_app. f_equal; [|f_equal].
    - apply ranges_out. intros j Hj. apply assoc_before. fold a in Hj. lia.
    - cbn [Nat.add]. pose proof (ranges_in a ps mid 0) as Q. rewrite Lp in Q. fold m in Q. rewrite Nat.add_0_r in Q. apply Q. lia.
    - apply ranges_out. intros j Hj. destruct (assoc_nat j (combine (seq a m) ps)) eqn:E; auto. rewrite assoc_seq in E by lia.
      assert (nth_error ps (j - a) = None) by (apply nth_error_None; lia). congruence. }
  rewrite R. rewrite !map_app, !ranges_snd_id.
  destruct (build_ex (pre ++ map snd (zip2 seg mid ps) ++ post)
     (fun ix => get x (addix (map fst (map (fun d => (0, d)) pre) ++ map fst (zip2 seg mid ps) ++ map fst (map (fun d => (0, d)) post)) ix))) as (y & B & S1 & W1 & G1).
  - intros ix I. apply get_some; auto. rewrite Sx.
    assert (Dx : exists p t q, ix = p ++ t ++ q /\ inb p pre /\ inb t (map snd (zip2 seg mid ps)) /\ inb q post).
    { assert (Li := inb_length _ _ I). rewrite !app_length in Li. exists (firstn a ix), (firstn (length (map snd (zip2 seg mid ps))) (skipn a ix)), (skipn (length (map snd (zip2 seg mid ps))) (skipn a ix)).
      assert (E : ix = firstn a ix ++ firstn (length (map snd (zip2 seg mid ps))) (skipn a ix) ++ skipn (length (map snd (zip2 seg mid ps))) (skipn a ix)) by (now rewrite !firstn_skipn).
      split; auto. rewrite E in I. apply inb_app in I; [|rewrite firstn_length; fold a in Li; lia]. destruct I as [I1 I2]. apply inb_app in I2; [tauto|].
      rewrite firstn_length, skipn_length. fold a in Li. lia. }
    destruct Dx as (p & t & q & -> & Ip & It & Iq). assert (Lq1 := inb_length _ _ Ip). assert (Lq2 := inb_length _ _ It). assert (Lq3 := inb_length _ _ Iq).
    rewrite addix_app by (rewrite !map_length; auto). rewrite addix_app by (rewrite !map_length in *; auto). rewrite !addix_zeros by auto.
    apply inb_app; auto. split; auto. apply inb_app; [|split; auto; apply seg_inb; auto].
    rewrite addix_length by (rewrite !map_length in *; auto). rewrite map_length, zip2_length; auto.
  - exists y. split; auto. split; auto. split; auto. intros p t q Ip It Iq.
    assert (Lq1 := inb_length _ _ Ip). assert (Lq2 := inb_length _ _ It). assert (Lq3 := inb_length _ _ Iq).
    rewrite G1 by (apply inb_app; auto; split; auto; apply inb_app; auto).
    rewrite addix_app by (rewrite !map_length; auto). rewrite addix_app by (rewrite !map_length in *; auto). now rewrite !addix_zeros.
Qed.

(** ** Pad *)
Lemma pad_src_inb : forall sh bs ix jx, pad_src sh bs ix = Some jx -> inb jx sh.
Proof.
  induction sh as [|d sh IH]; intros [|b bs] [|i ix] jx; cbn [pad_src]; try discriminate; [intro E; injection E as <-; exact Logic.I|].
  destruct (Nat.leb b i && Nat.ltb (i - b) d) eqn:C; [|discriminate]. apply andb_true_iff in C. destruct C as [_ C]. apply Nat.ltb_lt in C.
  destruct (pad_src sh bs ix) as [kx|] eqn:E; [|discriminate]. intro Q. injection Q as <-. cbn [inb]. split; auto. eauto.
Qed.
Lemma pad_spec {T} (fill : T) bs as_ (t : tensor T) : wf t -> length bs = length (shape t) -> length as_ = length (shape t) ->
  exists y, f_pad fill (map Z.of_nat (bs ++ as_)) t = Some y /\ wf y /\ shape y = addix bs (addix (shape t) as_) /\
    forall ix, inb ix (shape y) -> get y ix = match pad_src (shape t) bs ix with Some jx => get t jx | None => Some fill end.
Proof.
  intros W Lb La. unfold f_pad. rewrite map_length, app_length, Lb, La, Nat.eqb_refl.
  replace (forallb (fun p => (0 <=? p)%Z) (map Z.of_nat (bs ++ as_))) with true.
  2:{ symmetry. apply forallb_forall. intros z Hz. apply in_map_iff in Hz. destruct Hz as (k & <- & _). apply Z.leb_le. lia. }
  cbn [andb]. cbv zeta. rewrite !map_app. rewrite firstn_app, skipn_app. rewrite firstn_all2 by (rewrite map_length; lia). rewrite skipn_all2 by (rewrite map_length; lia).
  rewrite map_length, Lb, Nat.sub_diag. cbn [firstn skipn app]. rewrite app_nil_r.
  assert (M : forall l, map Z.to_nat (map Z.of_nat l) = l) by (intro l; rewrite map_map, <- (map_id l) at 1; rewrite map_id; rewrite <- (map_id l) at 2; apply map_ext; intro; apply Nat2Z.id).
  rewrite !M. destruct (build_ex (addix bs (addix (shape t) as_)) (fun ix => match pad_src (shape t) bs ix with Some jx => get t jx | None => Some fill end)) as (y & B & S1 & W1 & G1).
  - intros ix I. destruct (pad_src (shape t) bs ix) as [jx|] eqn:E; [|discriminate]. apply get_some; auto. eapply pad_src_inb; eauto.
  - exists y. split; auto. split; auto. split; auto. intros ix I. apply G1. congruence.
Qed.
Lemma pad_src_app : forall sh bs ix sh' bs' ix', length bs = length sh -> length ix = length sh ->
  pad_src (sh ++ sh') (bs ++ bs') (ix ++ ix') =
  match pad_src sh bs ix, pad_src sh' bs' ix' with Some a, Some b => Some (a ++ b) | _, _ => None end.
Proof.
  induction sh as [|d sh IH]; intros [|b bs] [|i ix] sh' bs' ix' Lb Li; cbn in Lb, Li; try discriminate; cbn [app pad_src].
  - now destruct (pad_src sh' bs' ix').
  - destruct (Nat.leb b i && Nat.ltb (i - b) d); auto. rewrite IH by lia. destruct (pad_src sh bs ix), (pad_src sh' bs' ix'); auto.
Qed.
Lemma pad_src_zero : forall sh ix, inb ix sh -> pad_src sh (repeat 0 (length sh)) ix = Some ix.
Proof.
  induction sh as [|d sh IH]; intros [|i ix] I; cbn [inb] in I; try tauto; auto. destruct I as [I1 I2]. cbn [length repeat pad_src].
  cbn [Nat.leb]. replace (i - 0) with i by lia. rewrite (proj2 (Nat.ltb_lt _ _) I1). cbn [andb]. now rewrite IH.
Qed.
Lemma addix_zero_l : forall l, addix (repeat 0 (length l)) l = l.
Proof. induction l as [|d l IH]; auto. cbn [length repeat addix]. now rewrite IH. Qed.
Lemma addix_zero_r : forall l, addix l (repeat 0 (length l)) = l.
Proof. induction l as [|d l IH]; auto. cbn [length repeat addix]. rewrite IH. f_equal. lia. Qed.

(** ** indices *)
Lemma ravel_app : forall sh ix th jx, length ix = length sh -> ravel (sh ++ th) (ix ++ jx) = ravel sh ix * size th + ravel th jx.
Proof.
  induction sh as [|d sh IH]; intros [|i ix] th jx L; cbn in L; try discriminate; [reflexivity|]. cbn [app ravel]. rewrite IH by lia. rewrite size_app. lia.
Qed.
Lemma reindex {T} (t : tensor T) sh ix jx : ravel sh ix = ravel (shape t) jx -> get (Tensor sh (data t)) ix = get t jx.
Proof. intro E. unfold get. cbn [shape data]. now rewrite E. Qed.
Notation inter a b := (flat2 (combine a b)).
Lemma size_inter : forall a b, length a = length b -> size (inter a b) = size (zip2 Nat.mul a b).
Proof.
  induction a as [|x a IH]; intros [|y b] L; cbn in L; try discriminate; auto. cbn [combine flat2 zip2]. rewrite !size_cons, IH by lia. lia.
Qed.
Lemma size_zip_mul : forall a b, length a = length b -> size (zip2 Nat.mul a b) = size a * size b.
Proof.
  induction a as [|x a IH]; intros [|y b] L; cbn in L; try discriminate; auto. cbn [zip2]. rewrite !size_cons, IH by lia. lia.
Qed.
Lemma ravel_inter : forall a b t, length a = length b -> length t = length b -> Forall (fun d => 0 < d) b ->
  ravel (inter a b) (inter (zip2 Nat.div t b) (zip2 Nat.modulo t b)) = ravel (zip2 Nat.mul a b) t.
Proof.
  induction a as [|x a IH]; intros [|y b] [|v t] L L' P; cbn in L, L'; try discriminate; auto. inversion P; subst.
  cbn [combine flat2 zip2 ravel]. rewrite IH by (auto; lia). rewrite !size_cons, size_inter by lia.
  set (s := size (zip2 Nat.mul a b)). set (r := ravel _ _). rewrite (Nat.div_mod v y) at 3 by lia. nia.
Qed.
Lemma inb_inter : forall a b t, length a = length b -> Forall (fun d => 0 < d) b -> inb t (zip2 Nat.mul a b) ->
  inb (inter (zip2 Nat.div t b) (zip2 Nat.modulo t b)) (inter a b).
Proof.
  induction a as [|x a IH]; intros [|y b] [|v t] L P I; cbn in L; try discriminate; auto; cbn [zip2 inb] in I; try tauto. inversion P; subst. destruct I as [I1 I2].
  cbn [combine flat2 zip2 inb]. split; [|split; [apply Nat.mod_upper_bound; lia|auto]]. apply Nat.div_lt_upper_bound; lia.
Qed.
Lemma inb_parts : forall a b t, length a = length b -> Forall (fun d => 0 < d) b -> inb t (zip2 Nat.mul a b) ->
  inb (zip2 Nat.div t b) a /\ inb (zip2 Nat.modulo t b) b.
Proof.
  induction a as [|x a IH]; intros [|y b] [|v t] L P I; cbn in L; try discriminate; auto; cbn [zip2 inb] in I; try tauto. inversion P; subst. destruct I as [I1 I2].
  cbn [zip2 inb]. destruct (IH b t) as [J1 J2]; auto. repeat split; auto; [apply Nat.div_lt_upper_bound; lia|apply Nat.mod_upper_bound; lia].
Qed.
