(** Proofs for C75. *)
From Coq Require Import String List Arith ZArith Bool Lia Permutation.
From Verif Require Import OnnxSpec SegSpec SegProofs RagSpec PartSpec PartModel.
From Verif Require RagProofs.
Import ListNotations.
Local Open Scope list_scope.
Local Notation length := List.length.

Section Values.
Variables (A : Type) (nought : A) (env : string -> option (pval A)).
Notation val := (pvalue A nought env).
Lemma pv_0 z : val (PE (OConst z) []) = Some (Sc z).
Proof. reflexivity. Qed.
Lemma pv_1 o e v : val e = Some v -> val (PE o [e]) = pop_value A nought o [v].
Proof. intro H. cbn [pvalue]. now rewrite H. Qed.
Lemma pv_2 o e1 e2 v1 v2 : val e1 = Some v1 -> val e2 = Some v2 -> val (PE o [e1; e2]) = pop_value A nought o [v1; v2].
Proof. intros H1 H2. cbn [pvalue]. now rewrite H1, H2. Qed.
Lemma pv_3 o e1 e2 e3 v1 v2 v3 : val e1 = Some v1 -> val e2 = Some v2 -> val e3 = Some v3 -> val (PE o [e1; e2; e3]) = pop_value A nought o [v1; v2; v3].
Proof. intros H1 H2 H3. cbn [pvalue]. now rewrite H1, H2, H3. Qed.
End Values.
Notation all_map := RagProofs.all_of_map.
Lemma all_id {B C} (f : B -> option C) (g : B -> C) l : (forall b, In b l -> f b = Some (g b)) -> all_of f l = Some (map g l).
Proof. apply SegProofs.all_of_map. Qed.
(** ** DynamicPartition *)
Lemma compress_filter {R} (f : Z -> bool) (rows : list R) ps : length ps = length rows -> compress rows (map f ps) = map fst (filter (fun rp => f (snd rp)) (combine rows ps)).
Proof. revert ps. induction rows as [|r rows IH]; intros [|p ps] L; try discriminate; [reflexivity|]. cbn. destruct (f p); cbn; rewrite IH by (cbn in L; congruence); reflexivity. Qed.
Lemma partition_ok A (nought : A) env w rows ps n i e shape : env "data"%string = Some (Data w rows) -> env "partitions"%string = Some (Vec ps) -> length ps = length rows -> i < n -> partition shape n i = Some e ->
  pvalue A nought env e = Some (Data w (map fst (filter (fun rp => Z.eqb (snd rp) (Z.of_nat i)) (combine rows ps)))).
Proof.
  intros Hd Hp L Hi He. unfold partition in He. destruct shape as [[|? [|]]|]; try discriminate. injection He as <-.
  set (range := PE (OConstMat 1 _) []). set (mat := map (fun k => map (fun x => Z.eqb x (Z.of_nat k)) ps) (seq 0 n)).
  assert (X1 : pvalue A nought env (PE OEqual [PIn "partitions"%string; range]) = Some (BMat (length ps) mat)).
  { rewrite (pv_2 A nought env _ _ _ (Vec ps) (Mat 1 (map (fun k => [Z.of_nat k]) (seq 0 n)))); [|exact Hp|reflexivity]. cbn [pop_value]. rewrite (all_map _ _ (fun k => map (fun x => Z.eqb x (Z.of_nat k)) ps)); [reflexivity|]. reflexivity. }
  assert (X2 := pv_1 A nought env OCastInt _ _ X1). cbn [pop_value] in X2. assert (X3 := pv_1 A nought env (OSplit n i) _ _ X2). cbn [pop_value] in X3.
  assert (Ln : length (map (map (fun b : bool => if b then 1%Z else 0%Z)) mat) = n) by (unfold mat; now rewrite !map_length, seq_length). rewrite Ln in X3.
  rewrite Nat.mod_same, Nat.div_same in X3 by lia. replace (Nat.ltb i n) with true in X3 by (symmetry; now apply Nat.ltb_lt). replace (Nat.eqb n 0) with false in X3 by (symmetry; apply Nat.eqb_neq; lia). cbn [Nat.eqb andb negb] in X3. rewrite Nat.mul_1_r in X3. cbv zeta in X3.
  assert (Sk : firstn 1 (skipn i (map (map (fun b : bool => if b then 1%Z else 0%Z)) mat)) = [map (fun b : bool => if b then 1%Z else 0%Z) (map (fun x => Z.eqb x (Z.of_nat i)) ps)]).
  { unfold mat. rewrite map_map. rewrite skipn_map, firstn_map. assert (G : firstn 1 (skipn i (seq 0 n)) = [i]). { clear -Hi. assert (G : forall m a i, i < m -> firstn 1 (skipn i (seq a m)) = [a + i]). { induction m as [|m IH]; intros a k Hk; [lia|]. destruct k; cbn [seq skipn]; [cbn; f_equal; lia|]. rewrite IH by lia. f_equal. lia. } apply G. exact Hi. } rewrite G. reflexivity. }
  rewrite Sk in X3. assert (X4 := pv_1 A nought env OCastBool _ _ X3). cbn [pop_value map] in X4. assert (X5 := pv_1 A nought env (OSqueeze 0) _ _ X4). cbn [pop_value] in X5.
  rewrite (pv_2 A nought env _ _ _ _ _ (Hd : pvalue A nought env (PIn "data"%string) = _) X5). cbn [pop_value]. unfold padded_false. rewrite !map_length, L, Nat.leb_refl. do 2 f_equal. rewrite !map_map.
  rewrite <- (compress_filter (fun z => Z.eqb z (Z.of_nat i)) rows ps L). f_equal. apply map_ext. intro y. destruct (Z.eqb y (Z.of_nat i)); reflexivity.
Qed.
(** ** Bincount *)
Lemma compress_bools {X W} (f : W -> X) (g : W -> bool) l : compress (map f l) (map g l) = map f (filter g l).
Proof. induction l as [|x l IH]; [reflexivity|]. cbn. destruct (g x); cbn; now rewrite IH. Qed.
Lemma compress_self {X} (g : X -> bool) l : compress l (map g l) = filter g l.
Proof. induction l as [|x l IH]; [reflexivity|]. cbn. destruct (g x); now rewrite IH. Qed.
Lemma zip_bools {W} (f g : W -> bool) l : zip andb (map f l) (map g l) = map (fun x => f x && g x) l.
Proof. unfold zip. rewrite RagProofs.combine_map, map_map. reflexivity. Qed.
Definition valid_bin (size : nat) (z : Z) : bool := Z.ltb (-1) z && Z.ltb z (Z.of_nat size).
Definition bin (binary : bool) (c : nat) : Z := if binary then (if Nat.eqb c 0 then 0 else 1)%Z else Z.of_nat c.
Lemma combine_self {X Y Z'} (f : X -> Y) (g : X -> Z') l : combine (map f l) (map g l) = map (fun x => (f x, g x)) l.
Proof. apply RagProofs.combine_map. Qed.
(** looking up a key among distinct ones *)
Lemma look_keys {X K} (eqb : K -> K -> bool) (eqb_eq : forall a b, eqb a b = true <-> a = b) (key : X -> K) (val : X -> Z) l x : NoDup (map key l) -> In x l -> look eqb (key x) (map (fun y => (key y, val y)) l) = Some (val x).
Proof.
  intros N Hx. apply (look_found eqb eqb_eq). { rewrite map_map. exact N. } apply in_map_iff. now exists x.
Qed.
Lemma count_zero z l : ~ In z l -> count z l = 0.
Proof. intro H. unfold count. now apply count_occ_not_In. Qed.
Lemma nodup_map {X Y} (f : X -> Y) l : NoDup l -> (forall x y, In x l -> In y l -> f x = f y -> x = y) -> NoDup (map f l).
Proof.
  induction 1 as [|x l N Nd IH]; intro H; [constructor|]. cbn. constructor.
  - intro Hi. apply in_map_iff in Hi. destruct Hi as (y & E & Hy). apply N. rewrite <- (H y x); auto; [now right|now left].
  - apply IH. intros a b Ha Hb. apply H; now right.
Qed.
Lemma valid_range size z : valid_bin size z = true <-> (0 <= z < Z.of_nat size)%Z.
Proof. unfold valid_bin. rewrite andb_true_iff, !Z.ltb_lt. lia. Qed.
Lemma repeat_map {X} (b : X) l : repeat b (length l) = map (fun _ : Z => b) l.
Proof. induction l; cbn; congruence. Qed.
Section Bins.
Variables (A : Type) (nought : A) (env : string -> option (pval A)) (size : nat) (binary : bool).
Hypothesis (Hs : env "size"%string = Some (Sc (Z.of_nat size))).
Lemma slice_first (a b : Z) l : slice (a :: l) 0 1 = [a].
Proof. unfold slice, slice_bound. cbn [Z.ltb Z.compare]. replace (Z.to_nat (Z.max 0 (Z.min (Z.of_nat (length (a :: l))) 0))) with 0 by (cbn [length]; lia). replace (Z.to_nat (Z.max 0 (Z.min (Z.of_nat (length (a :: l))) 1) - Z.max 0 (Z.min (Z.of_nat (length (a :: l))) 0))) with 1 by (cbn [length]; lia). reflexivity. Qed.
Lemma flat_ok (v : pval A) l rank ws e : env "arr"%string = Some v -> (v = Vec l \/ (exists w rows, v = Mat w rows /\ l = concat rows) \/ (exists z, v = Sc z /\ l = [z])) -> rank <> Some 2 -> bincount rank ws binary = Some e ->
  pvalue A nought env e = Some (Vec (map (fun k => bin binary (count (Z.of_nat k) l)) (seq 0 size))).
Proof.
  intros Hv Hl Nr He. unfold bincount in He. destruct ws as [ws|]; [|discriminate]. destruct (existsb (Z.eqb 0) ws); [|discriminate].
  replace (match rank with Some 2 => true | _ => false end) with false in He by (destruct rank as [[|[|[|]]]|]; try reflexivity; contradiction). cbv zeta in He. injection He as <-.
  set (values := PE (OUnique UValues) [PIn "arr"%string]). set (counts := PE (OUnique UCounts) [PIn "arr"%string]).
  assert (X1 : pvalue A nought env values = Some (Vec (distinct l)) /\ pvalue A nought env counts = Some (Vec (map (fun z => Z.of_nat (count z l)) (distinct l)))).
  { unfold values, counts. rewrite !(pv_1 A nought env _ _ _ (Hv : pvalue A nought env (PIn "arr"%string) = _)). destruct Hl as [-> | [(w & rows & -> & ->) | (z & -> & ->)]]; split; try reflexivity. cbn. destruct (Z.eq_dec z z); [reflexivity|contradiction]. }
  destruct X1 as [X1 X2]. set (Q := valid_bin size). set (D := distinct l) in *.
  set (valid := PE OAnd _). assert (X3 : pvalue A nought env valid = Some (Bools (map Q D))).
  { unfold valid. rewrite (pv_2 A nought env _ _ _ (Bools (map (fun x => Z.ltb (-1) x) D)) (Bools (map (fun x => Z.ltb x (Z.of_nat size)) D))).
    - cbn [pop_value]. rewrite !map_length, Nat.eqb_refl, zip_bools. reflexivity.
    - rewrite (pv_2 A nought env _ _ _ _ _ X1 (pv_0 A nought env (-1)%Z)). reflexivity.
    - rewrite (pv_2 A nought env _ _ _ _ _ X1 (Hs : pvalue A nought env (PIn "size"%string) = _)). reflexivity. }
  set (vv := PE OCompress [values; valid]). assert (X4 : pvalue A nought env vv = Some (Vec (filter Q D))). { unfold vv. rewrite (pv_2 A nought env _ _ _ _ _ X1 X3). cbn [pop_value]. unfold padded_false. now rewrite map_length, Nat.leb_refl, compress_self. }
  assert (In_D : forall z, In z (filter Q D) <-> In z l /\ (0 <= z < Z.of_nat size)%Z) by (intro z; rewrite filter_In; unfold D, Q; rewrite distinct_in, valid_range; reflexivity).
  assert (Nd : NoDup (filter Q D)) by (apply NoDup_filter, distinct_nodup).
  set (vc := if binary then _ else _). assert (X5 : pvalue A nought env vc = Some (Vec (map (fun z => bin binary (count z l)) (filter Q D)))).
  { unfold vc, bin. destruct binary.
    - rewrite (pv_1 A nought env _ _ (Vec [Z.of_nat (length (filter Q D))])); [|rewrite (pv_1 A nought env _ _ (Vec [Z.of_nat (length (filter Q D))])); [reflexivity|rewrite (pv_1 A nought env _ _ _ X4); reflexivity]].
      cbn [pop_value]. replace (Z.leb 0 (Z.of_nat (length (filter Q D)))) with true by (symmetry; apply Z.leb_le; lia). rewrite Nat2Z.id, repeat_map. do 2 f_equal. apply map_ext_in. intros z Hz. apply In_D in Hz. assert (P := count_pos z l (proj1 Hz)). destruct (Nat.eqb_spec (count z l) 0); [lia|reflexivity].
    - rewrite (pv_2 A nought env _ _ _ _ _ X2 X3). cbn [pop_value]. unfold padded_false. rewrite !map_length, Nat.leb_refl. now rewrite compress_bools. }
  assert (X6 : pvalue A nought env (PE (OConstantOfShape 0) [PE (OUnsqueeze 0) [PIn "size"%string]]) = Some (Vec (repeat 0%Z size))).
  { rewrite (pv_1 A nought env _ _ (Vec [Z.of_nat size])); [|rewrite (pv_1 A nought env _ _ _ (Hs : pvalue A nought env (PIn "size"%string) = _)); reflexivity]. cbn [pop_value]. replace (Z.leb 0 (Z.of_nat size)) with true by (symmetry; apply Z.leb_le; lia). now rewrite Nat2Z.id. }
  rewrite (pv_3 A nought env _ _ _ _ _ _ _ X6 X4 X5). cbn [pop_value]. rewrite map_length, Nat.eqb_refl. unfold scatter_column. rewrite repeat_length.
  rewrite (all_id _ Z.to_nat) by (intros z Hz; apply In_D in Hz; apply norm_ok; lia).
  assert (Nk : NoDup (map Z.to_nat (filter Q D))). { apply nodup_map; [exact Nd|]. intros x y Hx Hy E. apply In_D in Hx, Hy. lia. }
  rewrite no_dups_ok; [|intros a b; apply Nat.eqb_eq|exact Nk]. rewrite (all_id _ (fun k => bin binary (count (Z.of_nat k) l))); [reflexivity|].
  intros k Hk. apply in_seq in Hk. rewrite combine_self. destruct (in_dec Z.eq_dec (Z.of_nat k) l) as [Hi|Hi].
  - replace k with (Z.to_nat (Z.of_nat k)) at 1 by apply Nat2Z.id. rewrite (look_keys Nat.eqb Nat.eqb_eq Z.to_nat (fun z => bin binary (count z l)) _ (Z.of_nat k) Nk); [reflexivity|]. apply In_D. split; [exact Hi|lia].
  - rewrite (look_in Nat.eqb Nat.eqb_eq).
    + rewrite (nth_error_nth' _ 0%Z) by (rewrite repeat_length; lia). rewrite nth_repeat_lt by lia. f_equal. rewrite count_zero by exact Hi. unfold bin. destruct binary; reflexivity.
    + rewrite map_map. cbn [fst]. intro H. apply in_map_iff in H. destruct H as (z & E & Hz). apply In_D in Hz. apply Hi. replace (Z.of_nat k) with z by lia. apply Hz.
Qed.
End Bins.
(** rows in lexicographical order *)
Lemma lex_eq a b : lex a b = Eq <-> a = b.
Proof.
  revert b. induction a as [|x a IH]; intros [|y b]; cbn; try (split; [discriminate|discriminate]); [tauto|]. destruct (Z.compare_spec x y) as [->|P|P].
  - rewrite IH. split; [now intros ->|now injection 1].
  - split; [discriminate|]. injection 1 as -> ->. lia.
  - split; [discriminate|]. injection 1 as -> ->. lia.
Qed.
Lemma lex_trans a b c : lex a b = Lt -> lex b c = Lt -> lex a c = Lt.
Proof.
  revert b c. induction a as [|x a IH]; intros [|y b] [|z c]; cbn; try discriminate; auto. destruct (Z.compare_spec x y) as [->|P|P], (Z.compare_spec y z) as [->|Q|Q]; try discriminate; intros H1 H2.
  all: try reflexivity.
  all: try (eapply IH; eassumption).
  all: match goal with |- context [Z.compare ?p ?q] => destruct (Z.compare_spec p q); try lia; reflexivity end.
Qed.
Lemma lex_gt a b : lex a b = Gt -> lex b a = Lt.
Proof. revert b. induction a as [|x a IH]; intros [|y b]; cbn; try discriminate; auto. rewrite (Z.compare_antisym x y). destruct (Z.compare x y); cbn [CompOpp]; try discriminate; auto. Qed.
Lemma insert_row_in r l q : In q (insert_row r l) <-> q = r \/ In q l.
Proof.
  induction l as [|p l IH]; cbn; [intuition|]. destruct (lex r p) eqn:E.
  - apply lex_eq in E. subst. cbn. intuition.
  - cbn. intuition.
  - cbn. rewrite IH. intuition.
Qed.
Lemma distinct_rows_in l q : In q (distinct_rows l) <-> In q l.
Proof. induction l as [|r l IH]; [reflexivity|]. cbn. rewrite insert_row_in, IH. intuition. Qed.
Inductive sorted_rows : list (list Z) -> Prop := sr_nil : sorted_rows [] | sr_cons r l : (forall q, In q l -> lex r q = Lt) -> sorted_rows l -> sorted_rows (r :: l).
Lemma insert_row_sorted r l : sorted_rows l -> sorted_rows (insert_row r l).
Proof.
  induction 1 as [|p l H S IH]; cbn; [constructor; [intros q []|constructor]|]. destruct (lex r p) eqn:E.
  - constructor; auto.
  - constructor; [|now constructor]. intros q [<-|Hq]; [exact E|]. eapply lex_trans; eauto.
  - constructor; [|exact IH]. intros q Hq. apply insert_row_in in Hq. destruct Hq as [-> |Hq]; [now apply lex_gt|auto].
Qed.
Lemma distinct_rows_nodup l : NoDup (distinct_rows l).
Proof.
  assert (S : sorted_rows (distinct_rows l)) by (induction l as [|r l IH]; [constructor|apply insert_row_sorted; exact IH]).
  induction S as [|r m H S IH]; constructor; auto. intro Hi. apply H in Hi. assert (E : lex r r = Eq) by now apply lex_eq. congruence.
Qed.
(** the cells of a matrix with their row numbers *)
Definition cells (rows : list (list Z)) (a : nat) : list (list Z) := concat (map (fun p => map (fun x => [Z.of_nat (fst p); x]) (snd p)) (combine (seq a (length rows)) rows)).
Lemma cells_cons r rows a : cells (r :: rows) a = map (fun x => [Z.of_nat a; x]) r ++ cells rows (S a).
Proof. reflexivity. Qed.
Lemma cells_shape rows : forall a c, In c (cells rows a) -> exists k x r, c = [Z.of_nat (a + k); x] /\ nth_error rows k = Some r /\ In x r.
Proof.
  induction rows as [|r rows IH]; intros a c H; [destruct H|]. rewrite cells_cons in H. apply in_app_or in H. destruct H as [H|H].
  - apply in_map_iff in H. destruct H as (x & <- & Hx). exists 0, x, r. rewrite Nat.add_0_r. auto.
  - destruct (IH _ _ H) as (k & x & r' & -> & H1 & H2). exists (S k), x, r'. rewrite <- Nat.add_succ_comm. auto.
Qed.
Lemma cells_count rows x : forall a k, count_rows [Z.of_nat (a + k); x] (cells rows a) = match nth_error rows k with Some r => count x r | None => 0 end.
Proof.
  assert (G : forall a k r, count_rows [Z.of_nat (a + k); x] (map (fun x => [Z.of_nat a; x]) r) = if Nat.eqb k 0 then count x r else 0).
  { intros a k r. unfold count_rows, count. induction r as [|y r IH]; [destruct (Nat.eqb k 0); reflexivity|]. cbn [map count_occ]. destruct (Nat.eqb_spec k 0) as [->|Nk].
    - rewrite Nat.add_0_r in *. destruct (list_eq_dec Z.eq_dec [Z.of_nat a; y] [Z.of_nat a; x]) as [e|e], (Z.eq_dec y x) as [e'|e']; try congruence. 
    - destruct (list_eq_dec Z.eq_dec [Z.of_nat a; y] [Z.of_nat (a + k); x]) as [e|e]; [injection e; lia|exact IH]. }
  induction rows as [|r rows IH]; intros a k; [destruct k; reflexivity|]. rewrite cells_cons. unfold count_rows in *. rewrite count_occ_app, G. destruct k as [|k]; cbn [Nat.eqb nth_error].
  - rewrite (proj1 (count_occ_not_In _ _ _)); [lia|]. intro H. apply cells_shape in H. destruct H as (k & y & r' & E & _). injection E. lia.
  - rewrite <- Nat.add_succ_comm. rewrite IH. reflexivity.
Qed.
Lemma cells_count0 rows x k : count_rows [Z.of_nat k; x] (cells rows 0) = match nth_error rows k with Some r => count x r | None => 0 end.
Proof. exact (cells_count rows x 0 k). Qed.
Lemma cells_in rows k r x : nth_error rows k = Some r -> In x r -> In [Z.of_nat k; x] (cells rows 0).
Proof.
  intros Hr Hx. assert (C := cells_count rows x 0 k). rewrite Hr in C. cbn [Nat.add] in C. apply (count_occ_In (list_eq_dec Z.eq_dec)). unfold count_rows in C. rewrite C. now apply count_pos.
Qed.
Lemma zip_repeat z r : zip (@app Z) (map (fun z => [z]) (repeat z (length r))) (map (fun z => [z]) r) = map (fun x => [z; x]) r.
Proof. unfold zip. induction r as [|x r IH]; [reflexivity|]. cbn. f_equal. exact IH. Qed.
Lemma concat_cells w rows : Forall (fun r => length r = w) rows -> forall a,
  concat (zip (zip (@app Z)) (map (map (fun z => [z])) (map (fun k => repeat (Z.of_nat k) w) (seq a (length rows)))) (map (map (fun z => [z])) rows)) = cells rows a.
Proof.
  induction 1 as [|r rows L F IH]; intro a; [reflexivity|]. rewrite cells_cons, <- IH. unfold zip at 1. cbn [length seq map combine concat fst snd]. f_equal. rewrite <- L. apply zip_repeat.
Qed.
Definition row_key (c : list Z) : nat * nat := (Z.to_nat (nth 0 c 0%Z), Z.to_nat (nth 1 c 0%Z)).
Definition second (c : list Z) : Z := nth 1 c 0%Z.
Section Dense.
Variables (A : Type) (nought : A) (env : string -> option (pval A)) (size : nat) (binary : bool) (w : nat) (rows : list (list Z)).
Hypotheses (Hs : env "size"%string = Some (Sc (Z.of_nat size))) (Hv : env "arr"%string = Some (Mat w rows)) (W : Forall (fun r => length r = w) rows).
Notation val := (pvalue A nought env).
Lemma dense_ok ws e : bincount (Some 2) ws binary = Some e ->
  val e = Some (Mat size (map (fun r => map (fun k => bin binary (count (Z.of_nat k) r)) (seq 0 size)) rows)).
Proof.
  intro He. unfold bincount in He. destruct ws as [ws|]; [|discriminate]. destruct (existsb (Z.eqb 0) ws); [|discriminate]. cbv zeta in He. injection He as <-.
  set (n := length rows). set (inp_shape := PE OShape [PIn "arr"%string]). set (num_rows := PE (OSlice 0 1 0) [inp_shape]). set (row_idx := PE ORange _). set (expand := PE OExpand _). set (conc := PE (OConcat 2) _). set (resh := PE OReshape _).
  assert (X1 : val inp_shape = Some (Vec [Z.of_nat n; Z.of_nat w])) by (unfold inp_shape; rewrite (pv_1 A nought env _ _ _ (Hv : val (PIn "arr"%string) = _)); reflexivity).
  assert (X2 : val num_rows = Some (Vec [Z.of_nat n])) by (unfold num_rows; rewrite (pv_1 A nought env _ _ _ X1); reflexivity).
  assert (X3 : val row_idx = Some (Vec (map Z.of_nat (seq 0 n)))).
  { unfold row_idx. rewrite (pv_3 A nought env _ _ _ _ (Sc 0%Z) (Sc (Z.of_nat n)) (Sc 1%Z)); [|reflexivity|rewrite (pv_1 A nought env _ _ _ X2); reflexivity|reflexivity]. cbn [pop_value]. do 2 f_equal. replace (Z.to_nat (Z.of_nat n - 0)) with n by lia. apply map_ext. intro k. lia. }
  assert (X4 : val expand = Some (Mat w (map (fun k => repeat (Z.of_nat k) w) (seq 0 n)))).
  { unfold expand. rewrite (pv_2 A nought env _ _ _ (Mat 1 (map (fun z => [z]) (map Z.of_nat (seq 0 n)))) _) with (2 := X1); [|rewrite (pv_1 A nought env _ _ _ X3); reflexivity]. cbn [pop_value]. rewrite !map_length, seq_length, Z.eqb_refl. replace (Z.leb 0 (Z.of_nat w)) with true by (symmetry; apply Z.leb_le; lia). cbn [andb].
    unfold column. rewrite map_map, (all_map _ _ Z.of_nat) by reflexivity. cbn [option_map]. rewrite Nat2Z.id, map_map. reflexivity. }
  assert (X5 : val resh = Some (Mat 2 (cells rows 0))).
  { unfold resh. rewrite (pv_2 A nought env _ _ _ (Cube w 2 (zip (zip (@app Z)) (map (map (fun z => [z])) (map (fun k => repeat (Z.of_nat k) w) (seq 0 n))) (map (map (fun z => [z])) rows))) (Vec [(-1)%Z; 2%Z])); [|
      unfold conc; rewrite (pv_2 A nought env _ _ _ (Cube w 1 (map (map (fun z => [z])) (map (fun k => repeat (Z.of_nat k) w) (seq 0 n)))) (Cube w 1 (map (map (fun z => [z])) rows))); [|rewrite (pv_1 A nought env _ _ _ X4); reflexivity|rewrite (pv_1 A nought env _ _ _ (Hv : val (PIn "arr"%string) = _)); reflexivity];
      cbn [pop_value]; rewrite !map_length, seq_length; unfold n; rewrite !Nat.eqb_refl; reflexivity|reflexivity].
    cbn [pop_value Z.of_nat Z.eqb Nat.eqb negb andb]. cbn. unfold n. now rewrite concat_cells. }
  set (R := cells rows 0) in *. set (D := distinct_rows R).
  set (values := PE (OUniqueRows UValues) [resh]). set (counts := PE (OUniqueRows UCounts) [resh]).
  assert (X6 : val values = Some (Mat 2 D)) by (unfold values; rewrite (pv_1 A nought env _ _ _ X5); reflexivity).
  assert (X7 : val counts = Some (Vec (map (fun r => Z.of_nat (count_rows r R)) D))) by (unfold counts; rewrite (pv_1 A nought env _ _ _ X5); reflexivity).
  assert (Sh : forall c, In c D -> exists k x r, c = [Z.of_nat k; x] /\ nth_error rows k = Some r /\ In x r) by (intros c Hc; apply distinct_rows_in, cells_shape in Hc; exact Hc).
  set (chk := PE (OSqueeze 1) _). assert (X8 : val chk = Some (Vec (map second D))).
  { unfold chk. rewrite (pv_1 A nought env _ _ (Mat 1 (map (fun r => slice r 1 2) D))); [|rewrite (pv_1 A nought env _ _ _ X6); reflexivity]. cbn [pop_value]. unfold column. rewrite (all_map _ _ second); [reflexivity|]. intros c Hc. destruct (Sh c Hc) as (k & x & r & -> & _). reflexivity. }
  set (Q := fun c => valid_bin size (second c)).
  set (valid := PE OAnd _). assert (X9 : val valid = Some (Bools (map Q D))).
  { unfold valid. rewrite (pv_2 A nought env _ _ _ (Bools (map (fun c => Z.ltb (-1) (second c)) D)) (Bools (map (fun c => Z.ltb (second c) (Z.of_nat size)) D))).
    - cbn [pop_value]. rewrite !map_length, Nat.eqb_refl, zip_bools. reflexivity.
    - rewrite (pv_2 A nought env _ _ _ _ _ X8 (pv_0 A nought env (-1)%Z)). cbn [pop_value]. now rewrite map_map.
    - rewrite (pv_2 A nought env _ _ _ _ _ X8 (Hs : val (PIn "size"%string) = _)). cbn [pop_value]. now rewrite map_map. }
  set (vv := PE OCompress [values; valid]). assert (X10 : val vv = Some (Mat 2 (filter Q D))). { unfold vv. rewrite (pv_2 A nought env _ _ _ _ _ X6 X9). cbn [pop_value]. unfold padded_false. now rewrite map_length, Nat.leb_refl, compress_self. }
  assert (In_D : forall c, In c (filter Q D) <-> exists k x r, c = [Z.of_nat k; x] /\ nth_error rows k = Some r /\ In x r /\ (0 <= x < Z.of_nat size)%Z).
  { intro c. rewrite filter_In. split.
    - intros [Hc Hq]. destruct (Sh c Hc) as (k & x & r & -> & Hr & Hx). apply valid_range in Hq. exists k, x, r. auto.
    - intros (k & x & r & -> & Hr & Hx & B). split; [apply distinct_rows_in; now apply (cells_in rows k r)|now apply valid_range]. }
  assert (Nd : NoDup (filter Q D)) by (apply NoDup_filter, distinct_rows_nodup).
  set (cnt := fun c => bin binary (count_rows c R)).
  set (vc := if binary then _ else _). assert (X11 : val vc = Some (Vec (map cnt (filter Q D)))).
  { unfold vc, cnt, bin. destruct binary.
    - rewrite (pv_1 A nought env _ _ (Vec [Z.of_nat (length (filter Q D))])); [|rewrite (pv_1 A nought env _ _ (Vec [Z.of_nat (length (filter Q D)); 2%Z])); [reflexivity|rewrite (pv_1 A nought env _ _ _ X10); reflexivity]].
      cbn [pop_value]. replace (Z.leb 0 (Z.of_nat (length (filter Q D)))) with true by (symmetry; apply Z.leb_le; lia). rewrite Nat2Z.id. do 2 f_equal. rewrite <- (map_length second), repeat_map, map_map. apply map_ext_in. intros c Hc. apply In_D in Hc. destruct Hc as (k & x & r & -> & Hr & Hx & _). unfold R. rewrite (cells_count0 rows x k), Hr. assert (P := count_pos x r Hx). destruct (Nat.eqb_spec (count x r) 0); [lia|reflexivity].
    - rewrite (pv_2 A nought env _ _ _ _ _ X7 X9). cbn [pop_value]. unfold padded_false. rewrite !map_length, Nat.leb_refl. now rewrite compress_bools. }
  assert (X12 : val (PE (OConstantOfShape 0) [PE (OConcat 0) [num_rows; PE (OUnsqueeze 0) [PIn "size"%string]]]) = Some (Mat size (repeat (repeat 0%Z size) n))).
  { rewrite (pv_1 A nought env _ _ (Vec [Z.of_nat n; Z.of_nat size])); [|rewrite (pv_2 A nought env _ _ _ _ (Vec [Z.of_nat size]) X2); [reflexivity|rewrite (pv_1 A nought env _ _ _ (Hs : val (PIn "size"%string) = _)); reflexivity]]. cbn [pop_value]. replace (Z.leb 0 (Z.of_nat n)) with true by (symmetry; apply Z.leb_le; lia). replace (Z.leb 0 (Z.of_nat size)) with true by (symmetry; apply Z.leb_le; lia). cbn [andb]. now rewrite !Nat2Z.id. }
  rewrite (pv_3 A nought env _ _ _ _ _ _ _ X12 X10 X11). cbn [pop_value]. rewrite map_length, Nat.eqb_refl, repeat_length. cbn [andb].
  rewrite (all_id _ row_key).
  2:{ intros c Hc. apply In_D in Hc. destruct Hc as (k & x & r & -> & Hr & Hx & B). assert (Lk : k < n) by (apply nth_error_Some; congruence). cbn [at_pair]. rewrite !norm_ok by lia. reflexivity. }
  assert (Nk : NoDup (map row_key (filter Q D))).
  { apply nodup_map; [exact Nd|]. intros c c' Hc Hc' E. apply In_D in Hc, Hc'. destruct Hc as (k & x & r & -> & Hr & Hx & B), Hc' as (k' & x' & r' & -> & Hr' & Hx' & B'). unfold row_key in E. cbn [nth] in E. injection E as E1 E2. f_equal; [lia|]. f_equal. lia. }
  rewrite no_dups_ok; [|intros a b; apply pair_eqb_eq|exact Nk].
  assert (Fin : forall i, i < n -> all_of (fun j => match look pair_eqb (i, j) (combine (map row_key (filter Q D)) (map cnt (filter Q D))) with Some x => Some x | None => match nth_error (repeat (repeat 0%Z size) n) i with Some r => nth_error r j | None => None end end) (seq 0 size) = Some (map (fun k => bin binary (count (Z.of_nat k) (nth i rows []))) (seq 0 size))).
  { intros i Hi. apply all_id. intros j Hj. apply in_seq in Hj. rewrite combine_self. assert (Er : nth_error rows i = Some (nth i rows [])) by (now apply nth_error_nth'). set (r := nth i rows []) in *.
    destruct (in_dec Z.eq_dec (Z.of_nat j) r) as [Hin|Hin].
    - assert (Hc : In [Z.of_nat i; Z.of_nat j] (filter Q D)) by (apply In_D; exists i, (Z.of_nat j), r; repeat split; auto; lia). replace (i, j) with (row_key [Z.of_nat i; Z.of_nat j]) by (unfold row_key; cbn [nth]; now rewrite !Nat2Z.id).
      rewrite (look_keys pair_eqb pair_eqb_eq row_key cnt _ _ Nk Hc). unfold cnt, R. now rewrite (cells_count0 rows (Z.of_nat j) i), Er.
    - rewrite (look_in pair_eqb pair_eqb_eq).
      + rewrite (nth_error_nth' _ []) by (now rewrite repeat_length). rewrite nth_repeat_lt by exact Hi. rewrite (nth_error_nth' _ 0%Z) by (rewrite repeat_length; lia). rewrite nth_repeat_lt by lia. rewrite count_zero by exact Hin. unfold bin. destruct binary; reflexivity.
      + rewrite map_map. cbn [fst]. intro H. apply in_map_iff in H. destruct H as (c & E & Hc). apply In_D in Hc. destruct Hc as (k & x & r' & -> & Hr & Hx & B). unfold row_key in E. cbn [nth] in E. injection E as E1 E2. apply Hin. replace k with i in Hr by lia. replace (Z.of_nat j) with x by lia. congruence. }
  rewrite (all_id _ (fun i => map (fun k => bin binary (count (Z.of_nat k) (nth i rows []))) (seq 0 size))) by (intros i Hi; apply in_seq in Hi; apply Fin; lia).
  cbn [option_map]. do 2 f_equal. unfold n. clear. assert (G : forall (l : list (list Z)) a, (forall i, i < length l -> nth (a + i) rows [] = nth i l []) -> map (fun i => map (fun k => bin binary (count (Z.of_nat k) (nth i rows []))) (seq 0 size)) (seq a (length l)) = map (fun r => map (fun k => bin binary (count (Z.of_nat k) r)) (seq 0 size)) l).
  { induction l as [|r l IH]; intros a H; [reflexivity|]. cbn [length seq map]. f_equal; [assert (H0 := H 0 ltac:(cbn; lia)); rewrite Nat.add_0_r in H0; now rewrite H0|]. apply IH. intros i Hi. specialize (H (S i) ltac:(cbn; lia)). rewrite <- Nat.add_succ_comm in H. exact H. }
  apply G. auto.
Qed.
End Dense.
(** ** DynamicStitch *)
Section Stitch.
Variables (A : Type) (nought : A) (env : string -> option (pval A)) (w : nat).
Notation val := (pvalue A nought env).
Lemma concat_vecs es : forall ixs e, Forall2 (fun e ix => val e = Some (Vec ix)) es ixs -> concat_of es = Some e -> val e = Some (Vec (concat ixs)).
Proof.
  induction es as [|e0 es IH]; intros ixs e F He; [discriminate|]. inversion F as [|? ix ? ixs' H1 H2]; subst. destruct es as [|e1 es]; [inversion H2; subst; cbn in He; injection He as <-; cbn; now rewrite app_nil_r|].
  change (concat_of (e0 :: e1 :: es)) with (match concat_of (e1 :: es) with Some r => Some (PE (OConcat 0) [e0; r]) | None => None end) in He. destruct (concat_of (e1 :: es)) as [r|]; [|discriminate]. injection He as <-. rewrite (pv_2 A nought env _ _ _ _ _ H1 (IH _ _ H2 eq_refl)). reflexivity.
Qed.
Lemma concat_datas es : forall ds e, Forall2 (fun e d => val e = Some (Data w d)) es ds -> concat_of es = Some e -> val e = Some (Data w (concat ds)).
Proof.
  induction es as [|e0 es IH]; intros ds e F He; [discriminate|]. inversion F as [|? d ? ds' H1 H2]; subst. destruct es as [|e1 es]; [inversion H2; subst; cbn in He; injection He as <-; cbn; now rewrite app_nil_r|].
  change (concat_of (e0 :: e1 :: es)) with (match concat_of (e1 :: es) with Some r => Some (PE (OConcat 0) [e0; r]) | None => None end) in He. destruct (concat_of (e1 :: es)) as [r|]; [|discriminate]. injection He as <-. rewrite (pv_2 A nought env _ _ _ _ _ H1 (IH _ _ H2 eq_refl)). cbn [pop_value]. now rewrite Nat.eqb_refl.
Qed.
End Stitch.
Lemma column_ok {B} (d : B) l j : (forall r, In r l -> j < length r) -> column l j = Some (map (fun r => nth j r d) l).
Proof. intro H. unfold column. apply all_id. intros r Hr. apply nth_error_nth'. auto. Qed.
Lemma seq_nth_map {B} (d : B) (l : list B) : map (fun i => nth i l d) (seq 0 (length l)) = l.
Proof. assert (G : forall a, map (fun i => nth (i - a) l d) (seq a (length l)) = l). { induction l as [|x l IH]; intro a; [reflexivity|]. cbn [length seq map]. rewrite Nat.sub_diag. f_equal. rewrite <- (IH (S a)) at 2. apply map_ext_in. intros i Hi. apply in_seq in Hi. replace (i - a) with (S (i - S a)) by lia. reflexivity. } rewrite <- (G 0) at 2. apply map_ext. intro i. now rewrite Nat.sub_0_r. Qed.
Lemma combine_look {R} (ix : list Z) (d : list R) (f : R -> R) k : length ix = length d -> NoDup ix -> Forall (fun z => (0 <= z)%Z) ix -> forall r, In (Z.of_nat k, r) (combine ix d) -> forall {B} (g : R -> B), look Nat.eqb k (combine (map Z.to_nat ix) (map g d)) = Some (g r).
Proof.
  intros L Nd Nn r Hr B g. apply (look_found Nat.eqb Nat.eqb_eq).
  - rewrite combine_fst by (now rewrite !map_length). apply nodup_map; [exact Nd|]. rewrite Forall_forall in Nn. intros x y Hx Hy E. apply Nn in Hx, Hy. lia.
  - clear -Hr Nn. revert d Hr. induction ix as [|z ix IH]; intros [|x d] H; try (destruct H; fail). inversion Nn; subst. destruct H as [E|H]; [injection E as -> ->; left; now rewrite Nat2Z.id|right; auto].
Qed.
Lemma combine_app_eq {X Y} (l l' : list X) (m m' : list Y) : length l = length m -> combine (l ++ l') (m ++ m') = combine l m ++ combine l' m'.
Proof. revert m. induction l as [|x l IH]; intros [|y m] L; try discriminate; [reflexivity|]. cbn. f_equal. apply IH. cbn in L. congruence. Qed.
Lemma stitch_ok A (nought : A) env w ixs ds es_i es_d si sd out e :
  Forall2 (fun e ix => pvalue A nought env e = Some (Vec ix)) es_i ixs -> Forall2 (fun e d => pvalue A nought env e = Some (Data w d)) es_d ds -> Forall (fun r => length r = w) (concat ds) ->
  tf_stitch ixs ds out -> NoDup (concat ixs) -> (forall p, p < length out -> In (Z.of_nat p) (concat ixs)) -> stitch si sd es_i es_d = Some e ->
  pvalue A nought env e = Some (Data w out).
Proof.
  intros Fi Fd W (Len & Rng & _ & Wr) Nd Cov He. unfold stitch in He. destruct (_ && _); [|discriminate]. destruct (concat_of es_i) as [ei|] eqn:Ei; [|discriminate]. destruct (concat_of es_d) as [ed|] eqn:Ed; [|discriminate]. injection He as <-.
  assert (X1 := concat_vecs A nought env es_i ixs ei Fi Ei). assert (X2 := concat_datas A nought env w es_d ds ed Fd Ed). set (ix := concat ixs) in *. set (d := concat ds) in *.
  assert (L : length ix = length d). { unfold ix, d. clear -Len. induction Len as [|x y ixs ds H F IH]; [reflexivity|]. cbn. rewrite !app_length. congruence. }
  assert (Lo : length ix = length out).
  { apply Nat.le_antisymm.
    - rewrite <- (map_length Z.to_nat ix), <- (seq_length (length out) 0). apply NoDup_incl_length.
      + apply nodup_map; [exact Nd|]. rewrite Forall_forall in Rng. intros x y Hx Hy E. apply Rng in Hx, Hy. lia.
      + intros k Hk. apply in_map_iff in Hk. destruct Hk as (z & <- & Hz). rewrite Forall_forall in Rng. apply Rng in Hz. apply in_seq. lia.
    - rewrite <- (seq_length (length out) 0) at 1. rewrite <- (map_length Z.of_nat). apply NoDup_incl_length.
      + apply nodup_map; [apply seq_NoDup|]. intros. lia.
      + intros z Hz. apply in_map_iff in Hz. destruct Hz as (k & <- & Hk). apply in_seq in Hk. apply Cov. lia. }
  set (N := length d) in *. assert (Nn : Forall (fun z => (0 <= z)%Z) ix) by (eapply Forall_impl; [|exact Rng]; cbn; intros; lia).
  (* the rows of out *)
  assert (Row : forall p, p < N -> exists r, nth_error out p = Some r /\ In (Z.of_nat p, r) (combine ix d) /\ length r = w).
  { intros p Hp. assert (Hi : In (Z.of_nat p) ix) by (apply Cov; lia). destruct (in_split _ _ Hi) as (l1 & l2 & E). assert (Ld : length l1 + S (length l2) = length d) by (change (length d) with N; rewrite <- L, E, app_length; reflexivity).
    assert (Es : exists d1 r d2, d = d1 ++ r :: d2 /\ length d1 = length l1). { exists (firstn (length l1) d). destruct (skipn (length l1) d) as [|r d2] eqn:Es; [assert (Hl := skipn_length (length l1) d); rewrite Es in Hl; cbn in Hl; lia|]. exists r, d2. split; [now rewrite <- Es, firstn_skipn|]. rewrite firstn_length. lia. }
    destruct Es as (d1 & r & d2 & E2 & L1). exists r. assert (Ec : combine ix d = combine l1 d1 ++ (Z.of_nat p, r) :: combine l2 d2) by (rewrite E, E2, combine_app_eq by congruence; reflexivity).
    split; [|split].
    - apply Wr. exists (combine l1 d1), (combine l2 d2). fold ix d. split; [exact Ec|]. rewrite E in Nd. apply NoDup_remove_2 in Nd. intro H. apply Nd. apply in_or_app. right. apply in_map_iff in H. destruct H as ([a b] & E' & H). cbn in E'. subst a. now apply in_combine_l in H.
    - rewrite Ec. apply in_or_app. right. now left.
    - rewrite Forall_forall in W. apply W. fold d. rewrite E2. apply in_or_app. right. now left. }
  assert (X3 : pvalue A nought env (PE OShape [ed]) = Some (Vec [Z.of_nat N; Z.of_nat w])) by (rewrite (pv_1 A nought env _ _ _ X2); reflexivity).
  assert (X4 : pvalue A nought env (PE OZeros [PE OShape [ed]]) = Some (Data w (repeat (repeat nought w) N))).
  { rewrite (pv_1 A nought env _ _ _ X3). cbn [pop_value]. replace (Z.leb 0 (Z.of_nat N)) with true by (symmetry; apply Z.leb_le; lia). replace (Z.leb 0 (Z.of_nat w)) with true by (symmetry; apply Z.leb_le; lia). cbn [andb]. now rewrite !Nat2Z.id. }
  assert (X5 : pvalue A nought env (PE OExpand [PE (OUnsqueeze 1) [ei]; PE OShape [ed]]) = Some (Mat w (map (fun z => repeat z w) ix))).
  { rewrite (pv_2 A nought env _ _ _ (Mat 1 (map (fun z => [z]) ix)) _) with (2 := X3); [|rewrite (pv_1 A nought env _ _ _ X1); reflexivity]. cbn [pop_value]. rewrite map_length, L. fold N. rewrite Z.eqb_refl. replace (Z.leb 0 (Z.of_nat w)) with true by (symmetry; apply Z.leb_le; lia). cbn [andb]. unfold column. rewrite (all_map _ _ (fun z => z)) by reflexivity. cbn [option_map]. now rewrite Nat2Z.id, map_id. }
  rewrite (pv_3 A nought env _ _ _ _ _ _ _ X4 X5 X2). cbn [pop_value]. rewrite map_length, L. fold N. rewrite !Nat.eqb_refl. cbn [andb]. unfold scatter_rows. rewrite repeat_length.
  rewrite (all_id _ (fun j => map (fun r => nth j r nought) out)).
  - unfold of_columns. rewrite (all_id _ (fun i => nth i out [])).
    + cbn [option_map]. do 2 f_equal. replace N with (length out) by lia. apply seq_nth_map.
    + intros i Hi. apply in_seq in Hi. destruct (Row i) as (r & Hr & _ & Lr); [lia|]. rewrite (all_map _ _ (fun j => nth j r nought)).
      * f_equal. rewrite (nth_error_nth _ _ [] Hr), <- Lr. apply seq_nth_map.
      * intros j Hj. rewrite nth_error_map, Hr. reflexivity.
  - intros j Hj. apply in_seq in Hj. rewrite (column_ok nought) by (intros r Hr; apply repeat_spec in Hr; subst; rewrite repeat_length; lia). rewrite (column_ok 0%Z) by (intros r Hr; apply in_map_iff in Hr; destruct Hr as (z & <- & _); rewrite repeat_length; lia).
    rewrite (column_ok nought) by (intros r Hr; rewrite Forall_forall in W; rewrite (W r Hr); lia). unfold scatter_column. rewrite !map_map, map_length, repeat_length. rewrite (map_ext_in _ (fun z => z)) by (intros z _; apply nth_repeat_lt; lia). rewrite map_id.
    rewrite (all_id _ Z.to_nat) by (intros z Hz; rewrite Forall_forall in Rng; apply Rng in Hz; apply norm_ok; lia).
    rewrite no_dups_ok; [|intros a b; apply Nat.eqb_eq|apply nodup_map; [exact Nd|]; rewrite Forall_forall in Nn; intros x y Hx Hy E; apply Nn in Hx, Hy; lia].
    rewrite (all_id _ (fun p => nth j (nth p out []) nought)).
    + f_equal. rewrite <- (map_map (fun p => nth p out []) (fun r => nth j r nought)). f_equal. replace N with (length out) by lia. apply seq_nth_map.
    + intros p Hp. apply in_seq in Hp. destruct (Row p) as (r & Hr & Hi & Lr); [lia|]. rewrite (combine_look ix d (fun r => r) p L Nd Nn r Hi (fun r => nth j r nought)). now rewrite (nth_error_nth _ _ [] Hr).
Qed.
(** ** Unique *)
Lemma unique_cast_ok {X Y} (c : X -> Y) (b : Y -> X) l y idx counts : (forall x, In x l -> b (c x) = x) -> is_unique (map c l) y idx counts -> is_unique l (map b y) idx counts.
Proof.
  intros Hb [U1 U2 (U3 & U3') (U4 & U4')].
  assert (Iy : forall z, In z y -> exists x, In x l /\ c x = z) by (intros z Hz; apply U1, in_map_iff in Hz; destruct Hz as (x & E & Hx); eauto).
  assert (Cb : forall z, In z y -> c (b z) = z /\ In (b z) l) by (intros z Hz; destruct (Iy z Hz) as (x & Hx & <-); rewrite (Hb x Hx); auto).
  assert (Inj : forall x x', In x l -> In x' l -> c x = c x' -> x = x') by (intros x x' Hx Hx' E; rewrite <- (Hb x Hx), <- (Hb x' Hx'); congruence).
  assert (Nt : forall i x, nth_error (map b y) i = Some x -> exists z, nth_error y i = Some z /\ b z = x /\ c x = z /\ In x l).
  { intros i x H. rewrite nth_error_map in H. destruct (nth_error y i) as [z|] eqn:E; [|discriminate]. injection H as <-. exists z. destruct (Cb z (nth_error_In _ _ E)). auto. }
  assert (Fi : forall x k, In x l -> first_at l x k -> first_at (map c l) (c x) k).
  { intros x k Hx (H1 & H2). split; [now rewrite nth_error_map, H1|]. rewrite firstn_map. intro H. apply in_map_iff in H. destruct H as (x' & E & H'). assert (Hl : In x' l) by (rewrite <- (firstn_skipn k l); apply in_or_app; now left). apply Inj in E; auto. subst. contradiction. }
  constructor.
  - intro x. rewrite in_map_iff. split; [intros (z & <- & Hz); now apply Cb|]. intro Hx. exists (c x). split; [auto|]. apply U1. now apply in_map.
  - intros i j x x' k k' H1 H2 F1 F2 Lt. destruct (Nt _ _ H1) as (z & E1 & _ & <- & I1). destruct (Nt _ _ H2) as (z' & E2 & _ & <- & I2). apply (U2 i j (c x) (c x') k k'); auto.
  - split; [rewrite U3; apply map_length|]. intros p x k Hp Hk. assert (Hc : nth_error (map c l) p = Some (c x)) by (now rewrite nth_error_map, Hp). rewrite nth_error_map, (U3' p (c x) k Hc Hk). cbn. now rewrite (Hb x (nth_error_In _ _ Hp)).
  - split; [rewrite U4; symmetry; apply map_length|]. intros i x n Hi Hn. destruct (Nt _ _ Hi) as (z & E1 & _ & <- & I1). destruct (U4' i (c x) n E1 Hn) as (places & (N & P) & Lp). exists places. split; [|exact Lp]. split; [exact N|]. intro k. rewrite P, nth_error_map. split.
    + destruct (nth_error l k) as [x'|] eqn:E; [|discriminate]. cbn. intro H. injection H as H. f_equal. apply Inj; auto. eapply nth_error_In; eauto.
    + intros ->. reflexivity.
Qed.
