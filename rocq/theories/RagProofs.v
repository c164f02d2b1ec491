(** Proofs about the graphs of the ragged operators. *)
From Coq Require Import String List Arith ZArith Bool Lia Permutation.
From Verif Require Import OnnxSpec SegSpec SegProofs RagSpec RagModel.
Import ListNotations.
Local Open Scope list_scope.
Local Notation length := List.length.

Section Values.
Variables (A : Type) (env : string -> option (rval A)).
Lemma value_0 o : value env (E o []) = op_value o [].
Proof. reflexivity. Qed.
Lemma value_1 o e v : value env e = Some v -> value env (E o [e]) = op_value o [v].
Proof. intro H. cbn [value]. now rewrite H. Qed.
Lemma value_2 o e1 e2 v1 v2 : value env e1 = Some v1 -> value env e2 = Some v2 -> value env (E o [e1; e2]) = op_value o [v1; v2].
Proof. intros H1 H2. cbn [value]. now rewrite H1, H2. Qed.
Lemma value_3 o e1 e2 e3 v1 v2 v3 : value env e1 = Some v1 -> value env e2 = Some v2 -> value env e3 = Some v3 -> value env (E o [e1; e2; e3]) = op_value o [v1; v2; v3].
Proof. intros H1 H2 H3. cbn [value]. now rewrite H1, H2, H3. Qed.
End Values.
(** ** lists *)
Lemma all_of_in {X Y} (f : X -> option Y) (g : X -> Y) l : (forall x, In x l -> f x = Some (g x)) -> all_of f l = Some (map g l).
Proof. induction l as [|x l IH]; intro H; [reflexivity|]. cbn. rewrite (H x (or_introl eq_refl)), IH by (intros; apply H; now right). reflexivity. Qed.
Lemma all_of_map {X X' Y} (f : X -> option Y) (h : X' -> X) (g : X' -> Y) l : (forall x, In x l -> f (h x) = Some (g x)) -> all_of f (map h l) = Some (map g l).
Proof. induction l as [|x l IH]; intro H; [reflexivity|]. cbn. rewrite (H x (or_introl eq_refl)), IH by (intros; apply H; now right). reflexivity. Qed.
Lemma combine_map {X Y Z'} (f : X -> Y) (g : X -> Z') l : combine (map f l) (map g l) = map (fun x => (f x, g x)) l.
Proof. induction l; cbn; congruence. Qed.
Lemma broadcast_same {X W} (f : Z -> Z -> option X) (h k : W -> Z) (g : W -> X) l : (forall w, In w l -> f (h w) (k w) = Some (g w)) -> broadcast f (map h l) (map k l) = Some (map g l).
Proof. intro H. unfold broadcast. rewrite !map_length, Nat.eqb_refl, combine_map. apply all_of_map. exact H. Qed.
Lemma broadcast_one {X} (f : Z -> Z -> option X) l y : broadcast f l [y] = all_of (fun x => f x y) l.
Proof. unfold broadcast. destruct l as [|x [|x' l]]; reflexivity. Qed.
Lemma compress_map {X W} (f : W -> X) (g : W -> bool) l : compress (map f l) (map g l) = map f (filter g l).
Proof. induction l as [|w l IH]; [reflexivity|]. cbn. destruct (g w); cbn; now rewrite IH. Qed.
Lemma seq_blocks M n : seq 0 (M * n) = flat_map (fun i => map (fun j => i * M + j) (seq 0 M)) (seq 0 n).
Proof.
  induction n as [|n IH]; [now rewrite Nat.mul_0_r|]. rewrite Nat.mul_succ_r, seq_app, IH, seq_S, flat_map_app. cbn [flat_map]. rewrite app_nil_r. f_equal. cbn [Nat.add].
  rewrite (Nat.mul_comm M n). generalize (n * M). intro a. clear. revert a. induction M as [|M IH]; intro a; [reflexivity|]. cbn [seq map]. rewrite Nat.add_0_r. f_equal. rewrite IH, <- seq_shift, map_map. apply map_ext. intro; lia.
Qed.
Lemma filter_lt M k a : k <= M -> filter (fun j => Nat.ltb j (a + k)) (seq a M) = seq a k.
Proof.
  revert k a. induction M as [|M IH]; intros k a H; [replace k with 0 by lia; reflexivity|]. cbn [seq filter]. destruct k as [|k].
  - replace (Nat.ltb a (a + 0)) with false by (symmetry; apply Nat.ltb_ge; lia). cbn [seq]. clear. assert (H : forall b, a <= b -> filter (fun j => Nat.ltb j (a + 0)) (seq b M) = []).
    { induction M as [|M IH]; intros b Hb; [reflexivity|]. cbn [seq filter]. replace (Nat.ltb b (a + 0)) with false by (symmetry; apply Nat.ltb_ge; lia). apply IH. lia. } apply H. lia.
  - replace (Nat.ltb a (a + S k)) with true by (symmetry; apply Nat.ltb_lt; lia). cbn [seq]. f_equal. rewrite <- (IH k (S a)) by lia. apply filter_ext. intro j. f_equal. lia.
Qed.
Lemma filter_map {X Y} (f : X -> Y) (g : Y -> bool) l : filter g (map f l) = map f (filter (fun x => g (f x)) l).
Proof. induction l as [|x l IH]; [reflexivity|]. cbn. destruct (g (f x)); cbn; now rewrite IH. Qed.
Lemma filter_flat {X Y} (f : X -> list Y) (g : Y -> bool) l : filter g (flat_map f l) = flat_map (fun x => filter g (f x)) l.
Proof. induction l as [|x l IH]; [reflexivity|]. cbn. now rewrite filter_app, IH. Qed.
Lemma map_flat {X Y W} (f : X -> list Y) (g : Y -> W) l : map g (flat_map f l) = flat_map (fun x => map g (f x)) l.
Proof. induction l as [|x l IH]; [reflexivity|]. cbn. now rewrite map_app, IH. Qed.
Lemma flat_map_in {X Y} (f g : X -> list Y) l : (forall x, In x l -> f x = g x) -> flat_map f l = flat_map g l.
Proof. induction l as [|x l IH]; intro H; [reflexivity|]. cbn. rewrite (H x (or_introl eq_refl)), IH; auto. intros; apply H; now right. Qed.
Lemma list_max_in ls i : i < length ls -> nth i ls 0 <= list_max ls.
Proof. intro H. assert (G := proj1 (list_max_le ls (list_max ls)) (le_n _)). rewrite Forall_forall in G. apply G, nth_In, H. Qed.
Lemma kept {W} (f : nat -> nat -> W) ls : let M := list_max ls in
  map (fun t => f (t / M) (t mod M)) (filter (fun t => Nat.ltb (t mod M) (nth (t / M) ls 0)) (seq 0 (M * length ls)))
  = flat_map (fun i => map (f i) (seq 0 (nth i ls 0))) (seq 0 (length ls)).
Proof.
  intro M. rewrite seq_blocks, filter_flat, map_flat. apply flat_map_in. intros i Hi. apply in_seq in Hi.
  assert (L := list_max_in ls i ltac:(lia)). fold M in L. rewrite filter_map, map_map.
  assert (D : forall j, In j (seq 0 M) -> (i * M + j) / M = i /\ (i * M + j) mod M = j).
  { intros j Hj. apply in_seq in Hj. rewrite (Nat.add_comm (i * M)). split; [rewrite Nat.div_add by lia; rewrite Nat.div_small by lia; lia|rewrite Nat.mod_add by lia; apply Nat.mod_small; lia]. }
  rewrite (filter_ext_in _ (fun j => Nat.ltb j (0 + nth i ls 0))) by (intros j Hj; destruct (D j Hj) as [-> ->]; reflexivity).
  rewrite (filter_lt M (nth i ls 0) 0 L). apply map_ext_in. intros j Hj. destruct (D j) as [-> ->]; [apply in_seq; apply in_seq in Hj; lia|reflexivity].
Qed.
Lemma max_list_nat ls : ls <> [] -> max_list (map Z.of_nat ls) = Some (Z.of_nat (list_max ls)).
Proof.
  destruct ls as [|x ls]; [contradiction|]. intros _. cbn [map max_list]. f_equal. induction ls as [|y ls IH]; [cbn; lia|]. cbn [map fold_right]. rewrite IH. cbn. lia.
Qed.
Lemma cumsum_ones n : forall a, cumsum_from true a (repeat 1%Z n) = map (fun k => (a + Z.of_nat k)%Z) (seq 0 n).
Proof.
  induction n as [|n IH]; intro a; [reflexivity|]. cbn [repeat cumsum_from seq map]. f_equal; [lia|]. rewrite IH, <- seq_shift, map_map. apply map_ext. intro; lia.
Qed.
Lemma map_rep {B C} (f : B -> C) b n : map f (repeat b n) = repeat (f b) n.
Proof. induction n; cbn; congruence. Qed.
Lemma nth_error_map_nth (ls : list nat) k : k < length ls -> nth_error (map Z.of_nat ls) k = Some (Z.of_nat (nth k ls 0)).
Proof. intro H. rewrite nth_error_map, (nth_error_nth' _ 0 H). reflexivity. Qed.
Lemma all_of_cons {X Y} (f : X -> option Y) x y l r : f x = Some y -> all_of f l = Some r -> all_of f (x :: l) = Some (y :: r).
Proof. intros H1 H2. cbn [all_of]. now rewrite H1, H2. Qed.
(** ** the row and column of each value *)
Definition pairs (ls : list nat) : list (nat * nat) := flat_map (fun i => map (pair i) (seq 0 (nth i ls 0))) (seq 0 (length ls)).
Definition rows_of (ls : list nat) : list Z := map (fun p => Z.of_nat (fst p)) (pairs ls).
Definition cols_of (ls : list nat) : list Z := map (fun p => Z.of_nat (snd p)) (pairs ls).
Lemma map_pairs {W} (f : nat * nat -> W) ls : map f (pairs ls) = flat_map (fun i => map (fun j => f (i, j)) (seq 0 (nth i ls 0))) (seq 0 (length ls)).
Proof. unfold pairs. rewrite map_flat. apply flat_map_in. intros i _. now rewrite map_map. Qed.
Lemma in_pairs ls p : In p (pairs ls) -> fst p < length ls /\ snd p < nth (fst p) ls 0.
Proof. unfold pairs. intro H. apply in_flat_map in H. destruct H as (i & Hi & H). apply in_map_iff in H. destruct H as (j & <- & Hj). apply in_seq in Hi, Hj. cbn. lia. Qed.
Section Lengths.
Variables (A : Type) (env : string -> option (rval A)).
Lemma lengths_ok e ls num_rows num_cols rows cols :
  value env e = Some (V1 (map Z.of_nat ls)) -> ls <> [] -> lengths_to_sparse e = (num_rows, num_cols, rows, cols) ->
  value env num_rows = Some (V1 [Z.of_nat (length ls)]) /\ value env num_cols = Some (V1 [Z.of_nat (list_max ls)]) /\
  value env rows = Some (V1 (rows_of ls)) /\ value env cols = Some (V1 (cols_of ls)).
Proof.
  intros He Ne Hl. unfold lengths_to_sparse in Hl. cbv zeta in Hl.
  set (num_cols' := E KReduceMax [e]) in *. set (num_rows' := E KShape [e]) in *. set (range := E (KCumSum true) [_; zero]) in *.
  set (cols' := E (KArith Mod) [range; num_cols']) in *. set (rows' := E (KArith Div) [range; num_cols']) in *. set (keep := E (KCompare Less) _) in *.
  injection Hl as <- <- <- <-. set (M := list_max ls). set (n := length ls).
  assert (V1_ : value env num_cols' = Some (V1 [Z.of_nat M])) by (unfold num_cols'; rewrite (value_1 _ _ _ _ _ He); cbn [op_value]; now rewrite (max_list_nat ls Ne)).
  assert (V2 : value env num_rows' = Some (V1 [Z.of_nat n])) by (unfold num_rows'; rewrite (value_1 _ _ _ _ _ He); cbn [op_value]; now rewrite map_length).
  assert (V3 : value env range = Some (V1 (map Z.of_nat (seq 0 (M * n))))).
  { unfold range. erewrite value_2; [|erewrite value_1; [|erewrite value_2; [|exact V1_|exact V2]; cbn [op_value]; rewrite broadcast_one; reflexivity]; cbn [op_value arith_of]; replace (Z.leb 0 (Z.of_nat M * Z.of_nat n)) with true by (symmetry; apply Z.leb_le; lia); reflexivity|reflexivity].
    cbn [op_value]. rewrite cumsum_ones. replace (Z.to_nat (Z.of_nat M * Z.of_nat n)) with (M * n) by lia. reflexivity. }
  assert (V4 : value env cols' = Some (V1 (map (fun t => Z.of_nat (t mod M)) (seq 0 (M * n))))).
  { unfold cols'. rewrite (value_2 _ _ _ _ _ _ _ V3 V1_). cbn [op_value]. rewrite broadcast_one, (RagProofs.all_of_map _ _ (fun t => Z.of_nat (t mod M))); [reflexivity|].
    intros t Ht. apply in_seq in Ht. cbn [arith_of]. assert (M <> 0) by (intro E0; rewrite E0 in Ht; cbn in Ht; lia). replace (Z.eqb (Z.of_nat M) 0) with false by (symmetry; apply Z.eqb_neq; lia). now rewrite Nat2Z.inj_mod. }
  assert (V5 : value env rows' = Some (V1 (map (fun t => Z.of_nat (t / M)) (seq 0 (M * n))))).
  { unfold rows'. rewrite (value_2 _ _ _ _ _ _ _ V3 V1_). cbn [op_value]. rewrite broadcast_one, (RagProofs.all_of_map _ _ (fun t => Z.of_nat (t / M))); [reflexivity|].
    intros t Ht. apply in_seq in Ht. cbn [arith_of]. assert (M <> 0) by (intro E0; rewrite E0 in Ht; cbn in Ht; lia). replace (Z.eqb (Z.of_nat M) 0) with false by (symmetry; apply Z.eqb_neq; lia). rewrite Z.quot_div_nonneg by lia. now rewrite Nat2Z.inj_div. }
  assert (V6 : value env keep = Some (B1 (map (fun t => Nat.ltb (t mod M) (nth (t / M) ls 0)) (seq 0 (M * n))))).
  { unfold keep. erewrite value_2; [|exact V4|erewrite value_2; [|exact He|exact V5]; cbn [op_value]; rewrite (RagProofs.all_of_map _ _ (fun t => Z.of_nat (nth (t / M) ls 0))); [reflexivity|]].
    - cbn [op_value]. rewrite (broadcast_same _ _ _ (fun t => Nat.ltb (t mod M) (nth (t / M) ls 0))); [reflexivity|]. intros t _. unfold cmp_of. f_equal. destruct (Nat.ltb_spec (t mod M) (nth (t / M) ls 0)); [apply Z.ltb_lt|apply Z.ltb_ge]; lia.
    - intros t Ht. apply in_seq in Ht. apply take_ok, nth_error_map_nth. apply Nat.div_lt_upper_bound; [|fold n; lia]. intro E0; rewrite E0 in Ht; cbn in Ht; lia. }
  split; [exact V2|]. split; [exact V1_|].
  assert (K := fun f : nat -> nat -> Z => kept f ls). cbv zeta in K. fold M n in K. split.
  - rewrite (value_2 _ _ _ _ _ _ _ V5 V6). cbn [op_value]. rewrite !map_length, Nat.leb_refl, compress_map. rewrite (K (fun i _ => Z.of_nat i)). unfold rows_of. now rewrite map_pairs.
  - rewrite (value_2 _ _ _ _ _ _ _ V4 V6). cbn [op_value]. rewrite !map_length, Nat.leb_refl, compress_map. rewrite (K (fun _ j => Z.of_nat j)). unfold cols_of. now rewrite map_pairs.
Qed.
End Lengths.
(** ** scalars and vectors *)
Section Args.
Variables (A : Type) (n : nat) (n_pos : 0 < n).
Definition is_arg (vec : bool) (v : rval A) (f : nat -> Z) : Prop :=
  if vec then v = V1 (map f (seq 0 n)) else exists z, v = S0 z /\ forall i, i < n -> f i = z.
Definition is_bits (vec : bool) (v : rval A) (f : nat -> bool) : Prop :=
  if vec then v = B1 (map f (seq 0 n)) else exists z, v = B0 z /\ forall i, i < n -> f i = z.
Lemma all_of_seq {X} (f : Z -> option X) (h : nat -> Z) (g : nat -> X) : (forall i, i < n -> f (h i) = Some (g i)) -> all_of f (map h (seq 0 n)) = Some (map g (seq 0 n)).
Proof. intro H. apply RagProofs.all_of_map. intros i Hi. apply in_seq in Hi. apply H. lia. Qed.
Lemma arith_arg o b c u v f g h : is_arg b u f -> is_arg c v g -> (forall i, i < n -> arith_of o (f i) (g i) = Some (h i)) ->
  exists w, op_value (KArith o) [u; v] = Some w /\ is_arg (b || c) w h.
Proof.
  intros Hu Hv H. destruct b, c; cbn in Hu, Hv |- *.
  - subst. eexists. split; [|reflexivity]. cbn [op_value]. rewrite (broadcast_same _ _ _ h); [reflexivity|]. intros i Hi. apply in_seq in Hi. apply H. lia.
  - destruct Hv as (z & -> & Hz). subst. eexists. split; [|reflexivity]. cbn [op_value]. rewrite (all_of_seq _ _ h); [reflexivity|]. intros i Hi. rewrite <- (Hz i Hi). auto.
  - destruct Hu as (z & -> & Hz). subst. eexists. split; [|reflexivity]. cbn [op_value]. rewrite (all_of_seq _ _ h); [reflexivity|]. intros i Hi. rewrite <- (Hz i Hi). auto.
  - destruct Hu as (x & -> & Hx), Hv as (y & -> & Hy). exists (S0 (h 0)). split; [cbn [op_value]; rewrite <- (Hx 0 n_pos), <- (Hy 0 n_pos), (H 0 n_pos); reflexivity|]. exists (h 0). split; [reflexivity|]. intros i Hi.
    assert (E1 := H i Hi). assert (E2 := H 0 n_pos). rewrite (Hx i Hi), (Hy i Hi) in E1. rewrite (Hx 0 n_pos), (Hy 0 n_pos) in E2. congruence.
Qed.
Definition cmp_bool (o : cmp) (x y : Z) : bool := match o with Less => Z.ltb x y | Greater => Z.ltb y x | Equal => Z.eqb x y end.
Lemma compare_arg o b c u v f g : is_arg b u f -> is_arg c v g ->
  exists w, op_value (KCompare o) [u; v] = Some w /\ is_bits (b || c) w (fun i => cmp_bool o (f i) (g i)).
Proof.
  intros Hu Hv. assert (H : forall i, i < n -> cmp_of o (f i) (g i) = Some (cmp_bool o (f i) (g i))) by reflexivity. destruct b, c; cbn in Hu, Hv |- *.
  - subst. eexists. split; [|reflexivity]. cbn [op_value]. rewrite (broadcast_same _ _ _ (fun i => cmp_bool o (f i) (g i))); [reflexivity|]. intros i Hi. reflexivity.
  - destruct Hv as (z & -> & Hz). subst. eexists. split; [|reflexivity]. cbn [op_value]. rewrite (all_of_seq _ _ (fun i => cmp_bool o (f i) (g i))); [reflexivity|]. intros i Hi. rewrite <- (Hz i Hi). auto.
  - destruct Hu as (z & -> & Hz). subst. eexists. split; [|reflexivity]. cbn [op_value]. rewrite (all_of_seq _ _ (fun i => cmp_bool o (f i) (g i))); [reflexivity|]. intros i Hi. rewrite <- (Hz i Hi). auto.
  - destruct Hu as (x & -> & Hx), Hv as (y & -> & Hy). eexists. split; [reflexivity|]. eexists. split; [reflexivity|]. intros i Hi. rewrite (Hx i Hi), (Hy i Hi). reflexivity.
Qed.
Lemma not_arg b u f : is_bits b u f -> exists w, op_value KNot [u] = Some w /\ is_bits b w (fun i => negb (f i)).
Proof.
  destruct b; cbn; [intros ->; eexists; split; [reflexivity|]; now rewrite map_map|]. intros (z & -> & H). eexists. split; [reflexivity|]. eexists. split; [reflexivity|]. intros i Hi. now rewrite (H i Hi).
Qed.
Lemma cast_arg b u f : is_bits b u f -> exists w, op_value KCastBool [u] = Some w /\ is_arg b w (fun i => if f i then 1 else 0)%Z.
Proof.
  destruct b; cbn; [intros ->; eexists; split; [reflexivity|]; now rewrite map_map|]. intros (z & -> & H). eexists. split; [reflexivity|]. eexists. split; [reflexivity|]. intros i Hi. now rewrite (H i Hi).
Qed.
End Args.
(** ** the length of a range *)
Definition range_len (s l d : Z) : Z :=
  let q := Z.quot (l - s) d in Z.max (q + (if negb (Z.eqb (q * d) (l - s)) then 1 else 0)) 0.
Lemma range_len_pos s l d : (0 < d)%Z -> (0 <= (l - s) * d \/ Z.abs d <= Z.abs (l - s))%Z ->
  let c := range_len s l d in (0 <= c)%Z /\ (c = 0 \/ s + (c - 1) * d < l)%Z /\ ~ (s + c * d < l)%Z.
Proof.
  intros Hd H. unfold range_len. set (x := (l - s)%Z) in *. cbv zeta. assert (Q := Z.quot_rem' x d).
  destruct (Z_le_gt_dec 0 x) as [P|P].
  - assert (R := Z.rem_bound_pos x d P Hd). assert (Q0 : (0 <= Z.quot x d)%Z) by (apply Z.quot_pos; lia). set (q := Z.quot x d) in *.
    destruct (Z.eqb_spec (q * d) x) as [E|E]; cbn [negb].
    + rewrite Z.max_l by lia. split; [lia|]. split; [|lia]. destruct (Z.eq_dec q 0); [left; lia|right; nia].
    + rewrite Z.max_l by lia. split; [lia|]. split; [right; nia|nia].
  - assert (H' : (d <= - x)%Z) by (destruct H; [exfalso; nia|lia]). assert (Q1 : (Z.quot x d <= -1)%Z).
    { rewrite <- (Z.opp_involutive x), Z.quot_opp_l by lia. assert (1 <= Z.quot (- x) d)%Z by (apply Z.quot_le_lower_bound; lia). lia. }
    assert (M : (Z.max (Z.quot x d + (if negb (Z.quot x d * d =? x) then 1 else 0)) 0 = 0)%Z) by (destruct (negb _); lia). rewrite M. split; [lia|]. split; [now left|lia].
Qed.
Lemma range_len_opp s l d : range_len (- s) (- l) (- d) = range_len s l d.
Proof.
  unfold range_len. destruct (Z.eq_dec d 0) as [->|Hd].
  - cbn. replace (- l - - s)%Z with (- (l - s))%Z by lia. rewrite !Z.quot_0_r_ext by reflexivity. cbn. destruct (l - s)%Z; reflexivity.
  - replace (- l - - s)%Z with (- (l - s))%Z by lia. rewrite Z.quot_opp_opp by auto. set (q := Z.quot (l - s) d). replace (q * - d)%Z with (- (q * d))%Z by lia.
    replace (Z.eqb (- (q * d)) (- (l - s))) with (Z.eqb (q * d) (l - s)); [reflexivity|]. destruct (Z.eqb_spec (q * d) (l - s)), (Z.eqb_spec (- (q * d)) (- (l - s))); auto; lia.
Qed.
Lemma range_unique s l d r : (d <> 0)%Z -> is_range s l d r -> (0 <= (l - s) * d \/ Z.abs d <= Z.abs (l - s))%Z -> Z.of_nat (length r) = range_len s l d.
Proof.
  intros Nz (H1 & H2) H. assert (G : let c := range_len s l d in (0 <= c)%Z /\ (c = 0 \/ before d (s + (c - 1) * d) l)%Z /\ ~ before d (s + c * d) l).
  { unfold before. destruct (Z.ltb_spec 0 d) as [P|P]; [now apply range_len_pos|]. rewrite <- range_len_opp. assert (G := range_len_pos (- s) (- l) (- d) ltac:(lia) ltac:(destruct H; [left|right]; nia)). cbv zeta in G |- *. destruct G as (G1 & G2 & G3).
    split; [exact G1|]. split; [destruct G2; [left; assumption|right; lia]|lia]. }
  cbv zeta in G. destruct G as (G1 & G2 & G3). set (c := range_len s l d) in *. set (k := length r) in *.
  assert (Mono : forall a b, (a <= b)%Z -> before d (s + b * d) l -> before d (s + a * d) l).
  { intros a b Hab. unfold before. destruct (Z.ltb_spec 0 d); intro; nia. }
  destruct (Z_lt_ge_dec (Z.of_nat k) c) as [L|L].
  - exfalso. apply H2. destruct G2 as [G2|G2]; [lia|]. apply (Mono _ (c - 1)%Z); [lia|exact G2].
  - destruct (Z.eq_dec (Z.of_nat k) c) as [E|E]; [exact E|]. exfalso. apply G3. destruct (H1 (Z.to_nat c)) as [_ B]; [lia|]. now rewrite Z2Nat.id in B.
Qed.
Lemma splits_cumsum {X} (rows : list (list X)) : forall a, splits_from a rows = a :: cumsum_from false a (map (fun r => Z.of_nat (length r)) rows).
Proof. induction rows as [|r rows IH]; intro a; [reflexivity|]. cbn [splits_from map cumsum_from]. f_equal. rewrite IH. reflexivity. Qed.
Lemma concat_pairs {X} (rows : list (list X)) (F : nat -> nat -> X) : (forall i r, nth_error rows i = Some r -> forall j x, nth_error r j = Some x -> x = F i j) ->
  concat rows = map (fun p => F (fst p) (snd p)) (pairs (map (@length X) rows)).
Proof.
  intro H. rewrite map_pairs, map_length. cbn [fst snd].
  assert (G : forall rows a (F : nat -> nat -> X), (forall i r, nth_error rows i = Some r -> forall j x, nth_error r j = Some x -> x = F (a + i) j) ->
    concat rows = flat_map (fun i => map (F i) (seq 0 (nth (i - a) (map (@length X) rows) 0))) (seq a (length rows))).
  { clear. induction rows as [|r rows IH]; intros a F H; [reflexivity|]. cbn [concat length seq flat_map]. rewrite Nat.sub_diag. cbn [map nth]. f_equal.
    - specialize (H 0 r eq_refl). rewrite Nat.add_0_r in H. clear -H. assert (G : forall b, (forall j x, nth_error r j = Some x -> x = F a (b + j)) -> r = map (F a) (seq b (length r))).
      { clear. induction r as [|y r IH]; intros b G; [reflexivity|]. cbn. f_equal; [specialize (G 0 y eq_refl); now rewrite Nat.add_0_r in G|]. apply IH. intros j x Hx. rewrite (G (S j) x Hx). f_equal. lia. }
      apply (G 0). exact H.
    - rewrite (IH (S a) F) by (intros i r' Hr j x Hx; rewrite (H (S i) r' Hr j x Hx); f_equal; lia). apply flat_map_in. intros i Hi. apply in_seq in Hi. replace (i - a) with (S (i - S a)) by lia. reflexivity. }
  rewrite (G rows 0 F H). apply flat_map_in. intros i _. now rewrite Nat.sub_0_r.
Qed.
(** ** slices *)
Lemma slice_init {X} (l : list X) x : slice (l ++ [x]) 0 (-1) = l.
Proof.
  unfold slice, slice_bound. rewrite app_length. cbn [length]. change (Z.ltb 0 0) with false. change (Z.ltb (-1) 0) with true. cbv iota.
  replace (Z.to_nat (Z.max 0 (Z.min (Z.of_nat (length l + 1)) (-1 + Z.of_nat (length l + 1))) - Z.max 0 (Z.min (Z.of_nat (length l + 1)) 0))) with (length l) by lia.
  replace (Z.to_nat (Z.max 0 (Z.min (Z.of_nat (length l + 1)) 0))) with 0 by lia. cbn [skipn]. rewrite firstn_app, Nat.sub_diag, firstn_all. apply app_nil_r.
Qed.
Lemma slice_init_nil {X} : slice (@nil X) 0 (-1) = [].
Proof. reflexivity. Qed.
Lemma slice_tail {X} (x : X) l : (Z.of_nat (length l) < max_int64)%Z -> slice (x :: l) 1 max_int64 = l.
Proof.
  intro H. unfold slice, slice_bound. change (Z.ltb 1 0) with false. change (Z.ltb max_int64 0) with false. cbv iota. cbn [length].
  replace (Z.to_nat (Z.max 0 (Z.min (Z.of_nat (S (length l))) max_int64) - Z.max 0 (Z.min (Z.of_nat (S (length l))) 1))) with (length l) by lia.
  replace (Z.to_nat (Z.max 0 (Z.min (Z.of_nat (S (length l))) 1))) with 1 by lia. cbn [skipn]. apply firstn_all.
Qed.
Lemma slice_last {X} (l : list X) x : (Z.of_nat (length l) < max_int64)%Z -> slice (l ++ [x]) (-1) max_int64 = [x].
Proof.
  intro H. unfold slice, slice_bound. rewrite app_length. cbn [length]. change (Z.ltb (-1) 0) with true. change (Z.ltb max_int64 0) with false. cbv iota.
  replace (Z.to_nat (Z.max 0 (Z.min (Z.of_nat (length l + 1)) max_int64) - Z.max 0 (Z.min (Z.of_nat (length l + 1)) (-1 + Z.of_nat (length l + 1))))) with 1 by lia.
  replace (Z.to_nat (Z.max 0 (Z.min (Z.of_nat (length l + 1)) (-1 + Z.of_nat (length l + 1))))) with (length l) by lia. rewrite skipn_app, skipn_all, Nat.sub_diag. reflexivity.
Qed.
(** ** splits: the offset of each row, and the total *)
Fixpoint offsets (a : nat) (ls : list nat) : list nat := match ls with [] => [] | x :: ls' => a :: offsets (a + x) ls' end.
Lemma offsets_length ls : forall a, length (offsets a ls) = length ls.
Proof. induction ls as [|x ls IH]; intro a; cbn; [|rewrite IH]; reflexivity. Qed.
Lemma splits_offsets {X} (rows : list (list X)) : forall a, splits_from (Z.of_nat a) rows = map Z.of_nat (offsets a (map (@length X) rows)) ++ [Z.of_nat (a + length (concat rows))].
Proof.
  induction rows as [|r rows IH]; intro a; cbn [splits_from map offsets concat app]; [now rewrite Nat.add_0_r|]. f_equal. replace (Z.of_nat a + Z.of_nat (length r))%Z with (Z.of_nat (a + length r)) by lia. rewrite IH, app_length, Nat.add_assoc. reflexivity.
Qed.
Lemma splits_length {X} (rows : list (list X)) : forall a, length (splits_from a rows) = S (length rows).
Proof. induction rows as [|r rows IH]; intro a; cbn; [reflexivity|now rewrite IH]. Qed.
Lemma lengths_diff {X} (rows : list (list X)) : forall a, exists t, splits_from a rows = a :: t /\
  broadcast (arith_of Sub) t (removelast (a :: t)) = Some (map (fun r => Z.of_nat (length r)) rows) /\ length t = length rows.
Proof.
  induction rows as [|r rows IH]; intro a; [exists []; repeat split|]. cbn [splits_from]. destruct (IH (a + Z.of_nat (length r))%Z) as (t & E & B & L). rewrite E. eexists. split; [reflexivity|]. split; [|cbn; congruence].
  set (b := (a + Z.of_nat (length r))%Z) in *. change (removelast (a :: b :: t)) with (a :: removelast (b :: t)). unfold broadcast in *.
  assert (Lr0 : forall t (b : Z), length (removelast (b :: t)) = length t). { clear. induction t as [|x t IH]; intro b; [reflexivity|]. change (removelast (b :: x :: t)) with (b :: removelast (x :: t)). cbn [length]. now rewrite IH. } assert (Lr := Lr0 t b).
  rewrite Lr, Nat.eqb_refl in B. cbn [length]. rewrite Lr, Nat.eqb_refl. cbn [combine map]. apply all_of_cons; [cbn [fst snd arith_of]; f_equal; unfold b; lia|exact B].
Qed.
Lemma removelast_slice {X} (x : X) t : slice (x :: t) 0 (-1) = removelast (x :: t).
Proof. rewrite (app_removelast_last x (l := x :: t)) at 1 by discriminate. apply slice_init. Qed.
Lemma lengths_of_ok {A X} (env : string -> option (rval A)) e (rows : list (list X)) : value env e = Some (V1 (splits rows)) -> (Z.of_nat (length rows) < max_int64)%Z ->
  value env (lengths_of e) = Some (V1 (map (fun r => Z.of_nat (length r)) rows)).
Proof.
  intros He Hn. unfold lengths_of. unfold splits in He. destruct (lengths_diff rows 0%Z) as (t & E & B & L). rewrite E in He.
  rewrite (value_2 A env _ _ _ (V1 t) (V1 (removelast (0%Z :: t)))).
  - cbn [op_value]. now rewrite B.
  - rewrite (value_1 _ _ _ _ _ He). cbn [op_value]. rewrite slice_tail by (rewrite L; exact Hn). reflexivity.
  - rewrite (value_1 _ _ _ _ _ He). cbn [op_value]. now rewrite removelast_slice.
Qed.
(** ** the rows that RaggedGather copies: offset in the result, offset in the source, length *)
Definition triple := (nat * nat * nat)%type.
Definition t_off (t : triple) : nat := fst (fst t).
Definition t_src (t : triple) : nat := snd (fst t).
Definition t_len (t : triple) : nat := snd t.
Fixpoint contiguous (a : nat) (l : list triple) : Prop := match l with [] => True | t :: l' => t_off t = a /\ 0 < t_len t /\ contiguous (a + t_len t) l' end.
Definition total (l : list triple) : nat := list_sum (map t_len l).
Fixpoint deltas_from (src len : Z) (l : list triple) : list Z :=
  match l with [] => [] | t :: l' => (Z.of_nat (t_src t) - src - len + 1)%Z :: deltas_from (Z.of_nat (t_src t)) (Z.of_nat (t_len t)) l' end.
Lemma contiguous_ge l : forall a t, contiguous a l -> In t l -> a <= t_off t < a + total l.
Proof.
  unfold total. induction l as [|t l IH]; intros a u H I; [destruct I|]. destruct H as (H1 & H2 & H3). cbn [map list_sum fold_right]. change (fold_right Nat.add 0 (map t_len l)) with (list_sum (map t_len l)). destruct I as [<-|I]; [lia|]. specialize (IH _ u H3 I). lia.
Qed.
Lemma contiguous_nodup l : forall a, contiguous a l -> NoDup (map t_off l).
Proof.
  induction l as [|t l IH]; intros a H; [constructor|]. destruct H as (H1 & H2 & H3). cbn. constructor; [|now apply (IH (a + t_len t))]. intro I1. apply in_map_iff in I1. destruct I1 as (u & E & I1). apply (contiguous_ge _ _ _ H3) in I1. lia.
Qed.
Lemma seq_split a b c : seq a (b + c) = seq a b ++ seq (a + b) c.
Proof. apply seq_app. Qed.
Lemma map_const {X Y} (f : X -> Y) y l : (forall x, In x l -> f x = y) -> map f l = repeat y (length l).
Proof. induction l as [|x l IH]; intro H; [reflexivity|]. cbn. rewrite (H x (or_introl eq_refl)). f_equal. apply IH. intros; apply H; now right. Qed.
Lemma scatter_deltas : forall l a src len, contiguous a l ->
  map (fun k => from_option 1%Z (look Nat.eqb k (combine (map t_off l) (deltas_from src len l)))) (seq a (total l)) =
  concat (map (fun td => snd td :: repeat 1%Z (t_len (fst td) - 1)) (combine l (deltas_from src len l))).
Proof.
  induction l as [|t l IH]; intros a src len H; [reflexivity|]. destruct H as (H1 & H2 & H3). assert (Ge := fun u => contiguous_ge l _ u H3). cbn [deltas_from map combine concat].
  unfold total. cbn [map list_sum fold_right]. change (fold_right Nat.add 0 (map t_len l)) with (total l). replace (t_len t) with (S (t_len t - 1)) at 1 by lia. cbn [Nat.add seq map look]. rewrite H1, Nat.eqb_refl. cbn [from_option fst snd app]. f_equal.
  rewrite seq_split, map_app. f_equal.
  - rewrite (map_const _ 1%Z); [now rewrite seq_length|]. intros k Hk. apply in_seq in Hk. destruct (Nat.eqb_spec k a); [lia|]. rewrite (look_in Nat.eqb Nat.eqb_eq); [reflexivity|]. intro I1. apply in_map_iff in I1. destruct I1 as ((u & v) & <- & I1). apply in_combine_l in I1. apply in_map_iff in I1. destruct I1 as (w & <- & I1). apply Ge in I1. cbn in Hk. lia.
  - rewrite <- (IH (a + t_len t)) by exact H3. replace (S a + (t_len t - 1)) with (a + t_len t) by lia. apply map_ext_in. intros k Hk. apply in_seq in Hk. destruct (Nat.eqb_spec k a); [lia|reflexivity].
Qed.
Lemma cumsum_app l m : forall a, cumsum_from false a (l ++ m) = cumsum_from false a l ++ cumsum_from false (a + fold_right Z.add 0%Z l) m.
Proof. induction l as [|x l IH]; intro a; cbn [app cumsum_from fold_right]; [now rewrite Z.add_0_r|]. f_equal. rewrite IH. do 2 f_equal. lia. Qed.
Lemma cumsum_ones_incl n : forall a, cumsum_from false a (repeat 1%Z n) = map (fun k => (a + Z.of_nat k)%Z) (seq 1 n).
Proof. induction n as [|n IH]; intro a; [reflexivity|]. cbn [repeat cumsum_from seq map]. f_equal. rewrite IH, <- (seq_shift n 1), map_map. apply map_ext. intro; lia. Qed.
Lemma sum_ones n : fold_right Z.add 0%Z (repeat 1%Z n) = Z.of_nat n.
Proof. induction n; cbn [repeat fold_right]; lia. Qed.
Lemma cumsum_deltas : forall l a src len, contiguous a l ->
  cumsum_from false (src + len - 1) (concat (map (fun td => snd td :: repeat 1%Z (t_len (fst td) - 1)) (combine l (deltas_from src len l)))) =
  concat (map (fun t => map (fun j => Z.of_nat (t_src t + j)) (seq 0 (t_len t))) l).
Proof.
  induction l as [|t l IH]; intros a src len H; [reflexivity|]. destruct H as (H1 & H2 & H3). cbn [deltas_from combine map concat fst snd app cumsum_from].
  rewrite cumsum_app, cumsum_ones_incl, sum_ones. rewrite <- (IH (a + t_len t) (Z.of_nat (t_src t)) (Z.of_nat (t_len t)) H3). destruct (t_len t) as [|m]; [lia|]. cbn [seq map app]. f_equal; [lia|]. replace (S m - 1) with m by lia. f_equal.
  - apply map_ext. intro; lia.
  - f_equal. lia.
Qed.
Lemma broadcast_zip {X} (f : Z -> Z -> option X) l m : length l = length m -> broadcast f l m = all_of (fun p => f (fst p) (snd p)) (combine l m).
Proof. intro H. unfold broadcast. now rewrite H, Nat.eqb_refl. Qed.
Lemma deltas_exec l : 
  match broadcast (arith_of Sub) (map (fun t => Z.of_nat (t_src t)) l) (1%Z :: slice (map (fun t => Z.of_nat (t_src t)) l) 0 (-1)) with
  | Some d1 => match broadcast (arith_of Sub) d1 (slice (0%Z :: map (fun t => Z.of_nat (t_len t)) l) 0 (-1)) with
               | Some d2 => all_of (fun x => arith_of Add x 1) d2
               | None => None end
  | None => None end = Some (deltas_from 1 0 l).
Proof.
  destruct l as [|t l]; [reflexivity|]. set (S_ := map (fun t => Z.of_nat (t_src t)) (t :: l)). set (L_ := map (fun t => Z.of_nat (t_len t)) (t :: l)).
  assert (RL : forall (x : Z) y, length (removelast (x :: y)) = length y). { intros x y. revert x. induction y as [|z y IH]; intro x; [reflexivity|]. change (removelast (x :: z :: y)) with (x :: removelast (z :: y)). cbn [length]. now rewrite IH. }
  unfold S_ at 2, L_. cbn [map]. rewrite !removelast_slice. change (Z.of_nat (t_src t) :: map (fun t0 => Z.of_nat (t_src t0)) l) with S_.
  assert (G : forall l src len, exists d1, all_of (fun p => arith_of Sub (fst p) (snd p)) (combine (map (fun t => Z.of_nat (t_src t)) l) (removelast (src :: map (fun t => Z.of_nat (t_src t)) l))) = Some d1 /\ length d1 = length l /\
     exists d2, all_of (fun p => arith_of Sub (fst p) (snd p)) (combine d1 (removelast (len :: map (fun t => Z.of_nat (t_len t)) l))) = Some d2 /\ all_of (fun x => arith_of Add x 1) d2 = Some (deltas_from src len l)).
  { clear. induction l as [|t l IH]; intros src len; [exists []; repeat split; exists []; split; reflexivity|]. destruct (IH (Z.of_nat (t_src t)) (Z.of_nat (t_len t))) as (d1 & E1 & L1 & d2 & E2 & E3).
    cbn [map]. change (removelast (src :: Z.of_nat (t_src t) :: ?r)) with (src :: removelast (Z.of_nat (t_src t) :: r)). change (removelast (len :: Z.of_nat (t_len t) :: ?r)) with (len :: removelast (Z.of_nat (t_len t) :: r)).
    eexists. split; [cbn [combine]; apply all_of_cons; [reflexivity|exact E1]|]. split; [cbn; now rewrite L1|]. eexists. split; [cbn [combine]; apply all_of_cons; [reflexivity|exact E2]|]. cbn [deltas_from]. apply all_of_cons; [cbn [arith_of]; f_equal; cbn [fst snd]; lia|exact E3]. }
  destruct (G (t :: l) 1%Z 0%Z) as (d1 & E1 & L1 & d2 & E2 & E3). 
  assert (EqS : (1%Z :: removelast S_) = removelast (1%Z :: S_)) by reflexivity. rewrite EqS. rewrite broadcast_zip by (rewrite RL; reflexivity). unfold S_ at 1 2. rewrite E1. 
  rewrite broadcast_zip by (rewrite RL, L1; cbn; now rewrite map_length). change (0%Z :: Z.of_nat (t_len t) :: map (fun t0 => Z.of_nat (t_len t0)) l) with (0%Z :: map (fun t0 => Z.of_nat (t_len t0)) (t :: l)). rewrite E2. exact E3.
Qed.
Lemma gathered_inv {X} (l : list X) ix : forall out, gathered l ix = Some out -> exists ns, ix = map Z.of_nat ns /\ Forall2 (fun k r => nth_error l k = Some r) ns out.
Proof.
  induction ix as [|i ix IH]; intros out H; cbn in H; [injection H as <-; exists []; split; [reflexivity|constructor]|].
  destruct (Z.leb_spec 0 i) as [P|P]; [|discriminate]. destruct (nth_error l (Z.to_nat i)) as [a|] eqn:E; [|discriminate]. destruct (gathered l ix) as [r|]; [|discriminate]. injection H as <-.
  destruct (IH r eq_refl) as (ns & -> & F). exists (Z.to_nat i :: ns). split; [cbn; now rewrite Z2Nat.id|now constructor].
Qed.
Fixpoint attach (a : nat) (g : list (nat * nat)) : list triple := match g with [] => [] | (s, n) :: g' => (a, s, n) :: attach (a + n) g' end.
Definition nonempty (t : triple) : bool := Nat.ltb 0 (t_len t).
Lemma attach_off g : forall a, map t_off (attach a g) = offsets a (map snd g).
Proof. induction g as [|[s n] g IH]; intro a; cbn; [|rewrite IH]; reflexivity. Qed.
Lemma attach_src g : forall a, map t_src (attach a g) = map fst g.
Proof. induction g as [|[s n] g IH]; intro a; cbn; [|rewrite IH]; reflexivity. Qed.
Lemma attach_len g : forall a, map t_len (attach a g) = map snd g.
Proof. induction g as [|[s n] g IH]; intro a; cbn; [|rewrite IH]; reflexivity. Qed.
Lemma attach_contiguous g : forall a, contiguous a (filter nonempty (attach a g)).
Proof.
  induction g as [|[s n] g IH]; intro a; [exact Logic.I|]. cbn [attach filter]. unfold nonempty at 1. cbn [t_len snd]. destruct (Nat.ltb_spec 0 n) as [P|P]; [cbn; auto|]. replace n with 0 by lia. rewrite Nat.add_0_r. apply IH.
Qed.
Lemma total_filter l : total (filter nonempty l) = total l.
Proof.
  unfold total. induction l as [|t l IH]; [reflexivity|]. cbn [filter]. unfold nonempty at 1. destruct (Nat.ltb_spec 0 (t_len t)) as [P|P].
  - change (t_len t + list_sum (map t_len (filter nonempty l)) = t_len t + list_sum (map t_len l)). lia.
  - change (list_sum (map t_len (filter nonempty l)) = t_len t + list_sum (map t_len l)). lia.
Qed.
Lemma concat_filter {X} (f : triple -> list X) l : (forall t, t_len t = 0 -> f t = []) -> concat (map f (filter nonempty l)) = concat (map f l).
Proof.
  intro H. induction l as [|t l IH]; [reflexivity|]. cbn [filter]. unfold nonempty at 1. destruct (Nat.ltb_spec 0 (t_len t)) as [P|P]; cbn [map concat]; rewrite IH; [reflexivity|]. rewrite (H t) by lia. reflexivity.
Qed.
Lemma compress_triples {W} (f : triple -> W) l rest : compress (map f l ++ rest) (map nonempty l) = map f (filter nonempty l).
Proof. induction l as [|t l IH]; [destruct rest; reflexivity|]. cbn [map app compress filter]. destruct (nonempty t); cbn [map]; now rewrite IH. Qed.
Lemma all_of_app {X Y} (f : X -> option Y) l m r s : all_of f l = Some r -> all_of f m = Some s -> all_of f (l ++ m) = Some (r ++ s).
Proof. revert r. induction l as [|x l IH]; intros r H1 H2; cbn in *; [injection H1 as <-; exact H2|]. destruct (f x); [|discriminate]. destruct (all_of f l) as [t|]; [|discriminate]. injection H1 as <-. now rewrite (IH t eq_refl H2). Qed.
Lemma offset_row {X} (rows : list (list X)) : forall a i r j x, nth_error rows i = Some r -> nth_error r j = Some x ->
  exists o, nth_error (offsets a (map (@length X) rows)) i = Some (a + o) /\ nth_error (concat rows) (o + j) = Some x.
Proof.
  induction rows as [|q rows IH]; intros a [|i] r j x Hr Hx; try discriminate.
  - cbn in Hr. injection Hr as ->. exists 0. cbn. rewrite Nat.add_0_r. split; [reflexivity|]. rewrite nth_error_app1; [exact Hx|]. apply nth_error_Some. congruence.
  - destruct (IH (a + length q) i r j x Hr Hx) as (o & E1 & E2). exists (length q + o). cbn. rewrite E1. split; [f_equal; lia|]. rewrite nth_error_app2 by lia. replace (length q + o + j - length q) with (o + j) by lia. exact E2.
Qed.
Lemma take_row {X} (rows : list (list X)) i r : nth_error rows i = Some r ->
  all_of (take (concat rows)) (map (fun j => Z.of_nat (nth i (offsets 0 (map (@length X) rows)) 0 + j)) (seq 0 (length r))) = Some r.
Proof.
  intro Hr. assert (G : forall b r', (forall j x, nth_error r' j = Some x -> nth_error r (b + j) = Some x) -> all_of (take (concat rows)) (map (fun j => Z.of_nat (nth i (offsets 0 (map (@length X) rows)) 0 + j)) (seq b (length r'))) = Some r').
  { intros b r'. revert b. induction r' as [|x r' IH]; intros b H; [reflexivity|]. cbn [length seq map]. apply all_of_cons.
    - specialize (H 0 x eq_refl). rewrite Nat.add_0_r in H. destruct (offset_row rows 0 i r b x Hr H) as (o & E1 & E2). apply take_ok. apply nth_error_nth with (d := 0) in E1. rewrite E1. exact E2.
    - apply IH. intros j y Hy. rewrite <- (H (S j) y Hy). f_equal. lia. }
  apply (G 0). auto.
Qed.
Lemma splits_offs {X} (l : list (list X)) : splits l = map Z.of_nat (offsets 0 (map (@length X) l)) ++ [Z.of_nat (length (concat l))].
Proof. exact (splits_offsets l 0). Qed.
Lemma const_vec {A} (env : string -> option (rval A)) l : value env (E (KConstVec l) []) = Some (V1 l).
Proof. reflexivity. Qed.
Lemma const_z {A} (env : string -> option (rval A)) z : value env (E (KConst z) []) = Some (S0 z).
Proof. reflexivity. Qed.
Section Gather.
Variables (A : Type) (env : string -> option (rval A)) (rows out : list (list A)) (ix : list Z).
Hypotheses (H1 : env "splits"%string = Some (V1 (splits rows))) (H2 : env "values"%string = Some (D1 (concat rows))) (H3 : env "indices"%string = Some (V1 ix)).
Hypotheses (G : gathered rows ix = Some out) (B : (Z.of_nat (length rows) < max_int64)%Z) (B' : (Z.of_nat (length out) < max_int64)%Z).
Lemma gather_ok e1 e2 : ragged_gather 1 1 1 None None = Some (e1, e2) -> value env e1 = Some (V1 (splits out)) /\ value env e2 = Some (D1 (concat out)).
Proof.
  intro He. unfold ragged_gather in He. cbn [Nat.eqb andb] in He. cbv zeta in He.
  set (lens := E KGather [lengths_of _; _]) in He. set (gs := E (KCumSum false) [E KConcat _; zero]) in He. set (tot := E (KSlice (-1) max_int64) [gs]) in He. set (starts := E KGather [EIn "splits"; EIn "indices"]) in He.
  set (nz := E (KCompare Greater) [lens; zero]) in He. set (nl := E KCompress [lens; nz]) in He. set (prev_lens := E (KSlice 0 (-1)) [E KConcat [_; nl]]) in He. set (ns_ := E KCompress [starts; nz]) in He. set (nsp := E KCompress [gs; nz]) in He.
  set (prev := E KConcat [E (KConstVec [1%Z]) []; _]) in He. set (dl := E (KArith Add) _) in He. set (full := E KScatterElements _) in He. injection He as <- <-.
  destruct (gathered_inv _ _ _ G) as (ns & Eix & F).
  set (offs := offsets 0 (map (@length A) rows)). set (g := map (fun p => (nth (fst p) offs 0, length (snd p))) (combine ns out)).
  assert (Ln : length ns = length out) by (clear -F; induction F; cbn; congruence).
  assert (Gs : map snd g = map (@length A) out). { unfold g. rewrite map_map. cbn [snd]. rewrite <- (map_map snd (@length A)). f_equal. clear -Ln. revert ns Ln. induction out as [|o l IH]; intros [|k ns] Ln; cbn in *; try discriminate; [reflexivity|]. f_equal. apply IH. congruence. }
  assert (Gf : map fst g = map (fun k => nth k offs 0) ns). { unfold g. rewrite map_map. cbn [fst]. rewrite <- (map_map fst (fun k => nth k offs 0)). f_equal. now apply combine_fst. }
  set (T0 := attach 0 g). set (T := filter nonempty T0).
  assert (X1 : value env lens = Some (V1 (map (fun t => Z.of_nat (t_len t)) T0))).
  { unfold lens. assert (L := lengths_of_ok env (EIn "splits") rows H1 B). rewrite (value_2 _ _ _ _ _ _ _ L (H3 : value env (EIn "indices") = _)). cbn [op_value]. rewrite <- (map_map t_len Z.of_nat). unfold T0. rewrite attach_len, Gs, map_map. rewrite Eix. clear -F.
    rewrite (RagProofs.all_of_map _ _ (fun k => Z.of_nat (length (nth k rows [])))).
    - cbn [option_map]. do 2 f_equal. induction F as [|k r ns out Hk F IH]; [reflexivity|]. cbn. f_equal; [|exact IH]. now rewrite (nth_error_nth _ _ _ Hk).
    - intros k Hk. apply take_ok. rewrite nth_error_map. assert (Ek : exists r, nth_error rows k = Some r) by (clear -F Hk; induction F; cbn in Hk; destruct Hk; subst; eauto). destruct Ek as [r Ek]. rewrite Ek. cbn. now rewrite (nth_error_nth _ _ _ Ek). }
  assert (X2 : value env gs = Some (V1 (map (fun t => Z.of_nat (t_off t)) T0 ++ [Z.of_nat (length (concat out))]))).
  { unfold gs. rewrite (value_2 A env _ _ _ (V1 (0%Z :: map (fun t => Z.of_nat (t_len t)) T0)) (S0 0%Z)); [|rewrite (value_2 A env _ _ _ (V1 [0%Z]) _ (const_vec env _) X1); reflexivity|reflexivity].
    cbn [op_value cumsum_from]. do 2 f_equal. rewrite Z.add_0_r. rewrite <- (map_map t_len Z.of_nat), <- (map_map t_off Z.of_nat). unfold T0. rewrite attach_len, attach_off, Gs, map_map, <- splits_cumsum. apply (splits_offsets out 0). }
  assert (Lg : length g = length out) by (unfold g; rewrite map_length, combine_length; lia).
  assert (LT : length T0 = length out) by (rewrite <- (map_length t_len); unfold T0; rewrite attach_len, map_length; exact Lg).
  split. { rewrite X2. rewrite (splits_offs out). rewrite <- (map_map t_off Z.of_nat). unfold T0. now rewrite attach_off, Gs. }
  assert (X3 : value env tot = Some (V1 [Z.of_nat (length (concat out))])). { unfold tot. rewrite (value_1 _ _ _ _ _ X2). cbn [op_value]. rewrite slice_last by (rewrite map_length, LT; exact B'). reflexivity. }
  assert (X4 : value env starts = Some (V1 (map (fun t => Z.of_nat (t_src t)) T0))).
  { unfold starts. rewrite (value_2 _ _ _ _ _ _ _ (H1 : value env (EIn "splits") = _) (H3 : value env (EIn "indices") = _)). cbn [op_value]. rewrite <- (map_map t_src Z.of_nat). unfold T0. rewrite attach_src, Gf, map_map, Eix. 
    rewrite (RagProofs.all_of_map _ _ (fun k => Z.of_nat (nth k offs 0))); [reflexivity|]. intros k Hk. apply take_ok. rewrite (splits_offs rows). fold offs.
    assert (Lk : k < length offs). { unfold offs. rewrite offsets_length, map_length. clear -F Hk. induction F as [|k' r ns out Hk' F IH]; [destruct Hk|]; destruct Hk as [<-|Hk]; [apply nth_error_Some; congruence|auto]. }
    rewrite nth_error_app1 by (now rewrite map_length). rewrite nth_error_map, (nth_error_nth' _ 0 Lk). reflexivity. }
  assert (X5 : value env nz = Some (B1 (map nonempty T0))).
  { unfold nz. rewrite (value_2 A env _ _ _ _ (S0 0%Z) X1 (const_z env _)). cbn [op_value]. rewrite (RagProofs.all_of_map _ _ nonempty); [reflexivity|]. intros t _. unfold cmp_of, nonempty. f_equal. destruct (Nat.ltb_spec 0 (t_len t)); [apply Z.ltb_lt|apply Z.ltb_ge]; lia. }
  assert (C0 : forall f : triple -> Z, compress (map f T0) (map nonempty T0) = map f T) by (intro f; rewrite <- (app_nil_r (map f T0)); apply compress_triples).
  assert (X6 : value env nl = Some (V1 (map (fun t => Z.of_nat (t_len t)) T))). { unfold nl. rewrite (value_2 _ _ _ _ _ _ _ X1 X5). cbn [op_value]. rewrite !map_length, Nat.leb_refl. now rewrite C0. }
  assert (X7 : value env ns_ = Some (V1 (map (fun t => Z.of_nat (t_src t)) T))). { unfold ns_. rewrite (value_2 _ _ _ _ _ _ _ X4 X5). cbn [op_value]. rewrite !map_length, Nat.leb_refl. now rewrite C0. }
  assert (X8 : value env nsp = Some (V1 (map (fun t => Z.of_nat (t_off t)) T))). { unfold nsp. rewrite (value_2 _ _ _ _ _ _ _ X2 X5). cbn [op_value]. rewrite app_length, !map_length. replace (Nat.leb (length T0) (length T0 + length [Z.of_nat (length (concat out))])) with true by (symmetry; apply Nat.leb_le; lia). now rewrite compress_triples. }
  assert (X9 : value env dl = Some (V1 (deltas_from 1 0 T))).
  { assert (D := deltas_exec T). assert (P1 : value env prev = Some (V1 (1%Z :: slice (map (fun t => Z.of_nat (t_src t)) T) 0 (-1)))). { unfold prev. rewrite (value_2 A env _ _ _ (V1 [1%Z]) (V1 (slice (map (fun t => Z.of_nat (t_src t)) T) 0 (-1)))); [reflexivity|reflexivity|]. rewrite (value_1 _ _ _ _ _ X7). reflexivity. }
    assert (P2 : value env prev_lens = Some (V1 (slice (0%Z :: map (fun t => Z.of_nat (t_len t)) T) 0 (-1)))). { unfold prev_lens. rewrite (value_1 A env _ _ (V1 (0%Z :: map (fun t => Z.of_nat (t_len t)) T))); [reflexivity|]. rewrite (value_2 A env _ _ _ (V1 [0%Z]) _ (const_vec env _) X6). reflexivity. }
    destruct (broadcast (arith_of Sub) (map (fun t => Z.of_nat (t_src t)) T) _) as [d1|] eqn:E1; [|discriminate]. destruct (broadcast (arith_of Sub) d1 _) as [d2|] eqn:E2; [|discriminate].
    unfold dl. rewrite (value_2 A env _ _ _ (V1 d2) (S0 1%Z)); [cbn [op_value]; now rewrite D| |reflexivity]. rewrite (value_2 A env _ _ _ (V1 d1) (V1 (slice (0%Z :: map (fun t : triple => Z.of_nat (t_len t)) T) 0 (-1)))); [cbn [op_value]; now rewrite E2| |exact P2]. rewrite (value_2 _ _ _ _ _ _ _ X7 P1). cbn [op_value]. now rewrite E1. }
  assert (Ct : contiguous 0 T) by apply attach_contiguous.
  assert (Tt : total T = length (concat out)). { unfold T. rewrite total_filter. unfold total, T0. rewrite attach_len, Gs. clear. induction out as [|r l IH]; [reflexivity|]. cbn [map list_sum fold_right concat]. rewrite app_length. unfold list_sum in IH. now rewrite IH. }
  assert (Xf : value env full = Some (V1 (concat (map (fun td => snd td :: repeat 1%Z (t_len (fst td) - 1)) (combine T (deltas_from 1 0 T)))))).
  { unfold full. rewrite (value_3 A env _ _ _ _ (V1 (repeat 1%Z (length (concat out)))) _ _) with (2 := X8) (3 := X9); [|rewrite (value_1 _ _ _ _ _ X3); cbn [op_value]; replace (Z.leb 0 (Z.of_nat (length (concat out)))) with true by (symmetry; apply Z.leb_le; lia); now rewrite Nat2Z.id].
    cbn [op_value]. rewrite repeat_length. rewrite (RagProofs.all_of_map _ _ t_off).
    - rewrite map_length. assert (Ld : length T = length (deltas_from 1 0 T)). { generalize 1%Z, 0%Z. clear. induction T as [|t l IH]; intros a b; [reflexivity|]. cbn. now rewrite <- IH. } rewrite <- Ld, Nat.eqb_refl. cbn [andb]. rewrite no_dups_ok; [|intros a b; apply Nat.eqb_eq|now apply (contiguous_nodup _ 0)].
      do 2 f_equal. rewrite <- (scatter_deltas T 0 1 0 Ct), Tt. apply map_ext_in. intros k Hk. apply in_seq in Hk. f_equal. apply nth_repeat_lt. lia.
    - intros t Ht. apply (contiguous_ge _ _ _ Ct) in Ht. rewrite norm_ok by lia. now rewrite Nat2Z.id. }
  rewrite (value_2 A env _ _ _ (D1 (concat rows)) (V1 (concat (map (fun t => map (fun j => Z.of_nat (t_src t + j)) (seq 0 (t_len t))) T)))); [|exact H2|rewrite (value_2 A env _ _ _ _ (S0 0%Z) Xf (const_z env _)); cbn [op_value]; do 2 f_equal; apply (cumsum_deltas T 0 1 0 Ct)].
  cbn [op_value]. unfold T. rewrite (concat_filter (fun t => map (fun j => Z.of_nat (t_src t + j)) (seq 0 (t_len t)))) by (intros t ->; reflexivity).
  assert (Fin : forall a, all_of (take (concat rows)) (concat (map (fun t => map (fun j => Z.of_nat (t_src t + j)) (seq 0 (t_len t))) (attach a g))) = Some (concat out)).
  { unfold g. clear -F. induction F as [|k r ns out Hk F IH]; intro a; [reflexivity|]. cbn [combine map attach concat fst snd]. cbn [t_src t_len fst snd]. apply all_of_app; [exact (take_row rows k r Hk)|apply IH]. }
  unfold T0. rewrite Fin. reflexivity.
Qed.
End Gather.
(** ** nested splits *)
Lemma sums_splits l : forall a, sums_from a l = splits_from a (map (fun n => repeat tt n) l).
Proof. induction l as [|n l IH]; intro a; cbn; [|rewrite repeat_length, IH]; reflexivity. Qed.
Lemma extend_pairs paths ls : length paths = length ls -> extend paths ls = map (fun p => nth (fst p) paths [] ++ [Z.of_nat (snd p)]) (pairs ls).
Proof.
  intro L. unfold extend. rewrite map_pairs. cbn [fst snd].
  assert (G : forall ps ms b, length ps = length ms -> (forall i, i < length ps -> nth (b + i) paths [] = nth i ps [] /\ nth (b + i) ls 0 = nth i ms 0) ->
    concat (map (fun p => map (fun j => fst p ++ [Z.of_nat j]) (seq 0 (snd p))) (combine ps ms)) = flat_map (fun i => map (fun j => nth i paths [] ++ [Z.of_nat j]) (seq 0 (nth i ls 0))) (seq b (length ms))).
  { induction ps as [|p ps IH]; intros [|m ms] b Lp H; try discriminate; [reflexivity|]. cbn [combine map concat length seq flat_map fst snd]. destruct (H 0 ltac:(cbn; lia)) as [H1 H2]. rewrite Nat.add_0_r in H1, H2. rewrite H1, H2. cbn [nth]. f_equal.
    apply IH; [cbn in Lp; congruence|]. intros i Hi. specialize (H (S i) ltac:(cbn; lia)). cbn [nth] in H. rewrite <- Nat.add_succ_comm in H. exact H. }
  apply (G paths ls 0 L). auto.
Qed.
Lemma extend_length paths ls : length paths = length ls -> length (extend paths ls) = list_sum ls.
Proof.
  revert ls. induction paths as [|p paths IH]; intros [|n ls] L; try discriminate; [reflexivity|]. unfold extend. cbn [combine map concat fst snd]. rewrite app_length, map_length, seq_length. change (list_sum (n :: ls)) with (n + list_sum ls). f_equal. apply IH. cbn in L. congruence.
Qed.
Definition nonempty_value {A} (env : string -> option (rval A)) (dims : list expr) (vs : list Z) : Prop := Forall2 (fun e z => value env e = Some (V1 [z])) dims vs.
Lemma concat_all_ok {A} (env : string -> option (rval A)) dims : forall vs e, nonempty_value env dims vs -> concat_all dims = Some e -> value env e = Some (V1 vs).
Proof.
  induction dims as [|d dims IH]; intros vs e H He; [discriminate|]. inversion H as [|? v ? vs' H1 H2]; subst. destruct dims as [|d' dims]; [inversion H2; subst; cbn in He; injection He as <-; exact H1|].
  change (concat_all (d :: d' :: dims)) with (match concat_all (d' :: dims) with Some r => Some (E KConcat [d; r]) | None => None end) in He. destruct (concat_all (d' :: dims)) as [r|]; [|discriminate]. injection He as <-. rewrite (value_2 _ _ _ _ _ _ _ H1 (IH _ _ H2 eq_refl)). reflexivity.
Qed.
Lemma zip_maps {W X Y V} (f : X -> Y -> V) (g : W -> X) (h : W -> Y) l : zip f (map g l) (map h l) = map (fun w => f (g w) (h w)) l.
Proof. unfold zip. rewrite combine_map, map_map. reflexivity. Qed.
Section Nested.
Variables (A : Type) (env : string -> option (rval A)).
(** a step of the loop *)
Lemma level_ok e ls num_rows num_cols rows cols : value env e = Some (V1 (sums_from 0 ls)) -> ls <> [] -> (Z.of_nat (length ls) < max_int64)%Z -> lengths_to_sparse (lengths_of e) = (num_rows, num_cols, rows, cols) ->
  value env num_rows = Some (V1 [Z.of_nat (length ls)]) /\ value env num_cols = Some (V1 [Z.of_nat (list_max ls)]) /\ value env rows = Some (V1 (rows_of ls)) /\ value env cols = Some (V1 (cols_of ls)).
Proof.
  intros He Ne B Hl. apply (lengths_ok A env (lengths_of e) ls num_rows num_cols rows cols); auto. rewrite sums_splits in He. rewrite (lengths_of_ok env e (map (fun n => repeat tt n) ls) He) by (now rewrite map_length). rewrite map_map. do 2 f_equal. apply map_ext. intro n. now rewrite repeat_length.
Qed.
Lemma gather_level sp paths rows cols ls : value env sp = Some (M2 paths) -> length paths = length ls -> value env rows = Some (V1 (rows_of ls)) -> value env cols = Some (V1 (cols_of ls)) ->
  value env (E KConcat1 [E KGather [sp; rows]; E KUnsqueeze1 [cols]]) = Some (M2 (extend paths ls)).
Proof.
  intros Hs L Hr Hc. rewrite (value_2 A env _ _ _ (M2 (map (fun p => nth (fst p) paths []) (pairs ls))) (M2 (map (fun p => [Z.of_nat (snd p)]) (pairs ls)))).
  - cbn [op_value]. rewrite !map_length, Nat.eqb_refl, zip_maps, extend_pairs by exact L. reflexivity.
  - rewrite (value_2 _ _ _ _ _ _ _ Hs Hr). cbn [op_value]. unfold rows_of. rewrite (RagProofs.all_of_map _ _ (fun p => nth (fst p) paths [])); [reflexivity|]. intros p Hp. apply in_pairs in Hp. apply take_ok. apply nth_error_nth'. lia.
  - rewrite (value_1 _ _ _ _ _ Hc). cbn [op_value]. unfold cols_of. now rewrite map_map.
Qed.
Lemma first_level rows cols ls : value env rows = Some (V1 (rows_of ls)) -> value env cols = Some (V1 (cols_of ls)) ->
  value env (E KConcat1 [E KUnsqueeze1 [rows]; E KUnsqueeze1 [cols]]) = Some (M2 (extend (first_paths (length ls)) ls)).
Proof.
  intros Hr Hc. rewrite (value_2 A env _ _ _ (M2 (map (fun p => [Z.of_nat (fst p)]) (pairs ls))) (M2 (map (fun p => [Z.of_nat (snd p)]) (pairs ls)))).
  - cbn [op_value]. rewrite !map_length, Nat.eqb_refl, zip_maps, extend_pairs by (unfold first_paths; now rewrite map_length, seq_length). do 2 f_equal. apply map_ext_in. intros p Hp. apply in_pairs in Hp. f_equal. unfold first_paths. rewrite (nth_indep _ [] [Z.of_nat 0]) by (rewrite map_length, seq_length; lia). rewrite (map_nth (fun i => [Z.of_nat i])), seq_nth by lia. reflexivity.
  - rewrite (value_1 _ _ _ _ _ Hr). cbn [op_value]. unfold rows_of. now rewrite map_map.
  - rewrite (value_1 _ _ _ _ _ Hc). cbn [op_value]. unfold cols_of. now rewrite map_map.
Qed.
Definition level (e : expr) (ls : list nat) : Prop := value env e = Some (V1 (sums_from 0 ls)) /\ ls <> [] /\ (Z.of_nat (length ls) < max_int64)%Z.
Lemma nested_loop es lens : Forall2 level es lens -> forall sp paths dims vs, value env sp = Some (M2 paths) -> dims <> [] -> nonempty_value env dims vs -> (match lens with [] => True | l :: _ => length l = length paths end) -> fits lens ->
  exists sp' dims', nested_splits_loop es (Some sp) dims = (Some sp', dims') /\ value env sp' = Some (M2 (fold_left extend lens paths)) /\ nonempty_value env dims' (vs ++ map (fun l => Z.of_nat (list_max l)) lens).
Proof.
  induction 1 as [|e ls es lens (He & Ne & B) F IH]; intros sp paths dims vs Hs Nd Hd L Fit.
  - exists sp, dims. cbn. rewrite app_nil_r. auto.
  - cbn [nested_splits_loop]. destruct (lengths_to_sparse (lengths_of e)) as [[[num_rows num_cols] rows] cols] eqn:El. destruct (level_ok e ls _ _ _ _ He Ne B El) as (Y1 & Y2 & Y3 & Y4).
    replace (match dims with [] => [num_rows] | _ :: _ => dims end) with dims by (destruct dims; [contradiction|reflexivity]).
    destruct (IH (E KConcat1 [E KGather [sp; rows]; E KUnsqueeze1 [cols]]) (extend paths ls) (dims ++ [num_cols]) (vs ++ [Z.of_nat (list_max ls)])) as (sp' & dims' & E1 & E2 & E3).
    + apply gather_level; auto.
    + destruct dims; discriminate.
    + apply Forall2_app; [exact Hd|]. constructor; [exact Y2|constructor].
    + destruct lens as [|l' lens]; [exact Logic.I|]. destruct Fit as [Fit _]. rewrite extend_length by auto. exact Fit.
    + destruct lens; [exact Logic.I|apply Fit].
    + exists sp', dims'. split; [exact E1|]. split; [exact E2|]. rewrite <- app_assoc in E3. exact E3.
Qed.
Lemma to_sparse_ok es lens r out dims : Forall2 level es lens -> fits lens -> to_sparse r es = Some (out, dims) ->
  value env out = Some (M2 (all_paths lens)) /\ value env dims = Some (V1 (dense_dims lens)).
Proof.
  intros F Fit Ht. assert (Hn : nested_splits_to_sparse es = Some (out, dims)) by (destruct r as [[|[|]]|]; try discriminate; exact Ht). clear Ht. unfold nested_splits_to_sparse in Hn.
  destruct F as [|e ls es lens (He & Ne & B) F]; [discriminate|]. cbn [nested_splits_loop] in Hn. destruct (lengths_to_sparse (lengths_of e)) as [[[num_rows num_cols] rows] cols] eqn:El. destruct (level_ok e ls _ _ _ _ He Ne B El) as (Y1 & Y2 & Y3 & Y4).
  destruct (nested_loop es lens F (E KConcat1 [E KUnsqueeze1 [rows]; E KUnsqueeze1 [cols]]) (extend (first_paths (length ls)) ls) ([num_rows] ++ [num_cols]) [Z.of_nat (length ls); Z.of_nat (list_max ls)]) as (sp' & dims' & E1 & E2 & E3).
  - apply first_level; auto.
  - discriminate.
  - constructor; [exact Y1|]. constructor; [exact Y2|constructor].
  - destruct lens as [|l' lens]; [exact Logic.I|]. rewrite extend_length by (unfold first_paths; now rewrite map_length, seq_length). apply Fit.
  - destruct lens; [exact Logic.I|apply Fit].
  - rewrite E1 in Hn. destruct (concat_all dims') as [d|] eqn:Ed; [|discriminate]. injection Hn as <- <-. split; [exact E2|]. rewrite (concat_all_ok env dims' _ _ E3 Ed). reflexivity.
Qed.
End Nested.
