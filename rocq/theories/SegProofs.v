(** Proofs about SegModel. *)
From Coq Require Import List Arith ZArith Bool String Lia Permutation Sorting.Sorted.
From Verif Require Import OnnxSpec SegSpec SegModel.
Import ListNotations.
Local Open Scope list_scope.
Local Notation length := List.length.

(** ** lists *)
Lemma all_of_map {B C} (f : B -> option C) (g : B -> C) l : (forall b, In b l -> f b = Some (g b)) -> all_of f l = Some (map g l).
Proof. induction l as [|b l IH]; intro H; [reflexivity|]. cbn. rewrite (H b (or_introl eq_refl)), IH; [reflexivity|]. intros; apply H; now right. Qed.
Lemma zip_map {B C D E G} (f : D -> E -> G) (g : B -> D) (h : C -> E) l m : zip f (map g l) (map h m) = zip (fun b c => f (g b) (h c)) l m.
Proof. unfold zip. revert m. induction l as [|b l IH]; intros [|c m]; cbn; auto. f_equal. apply IH. Qed.
Lemma zip_length {B C D} (f : B -> C -> D) l m : length l = length m -> length (zip f l m) = length l.
Proof. intro H. unfold zip. rewrite map_length, combine_length. lia. Qed.
Lemma nth_error_zip {B C D} (f : B -> C -> D) l m k : nth_error (zip f l m) k = match nth_error l k, nth_error m k with Some a, Some b => Some (f a b) | _, _ => None end.
Proof. unfold zip. revert m k. induction l as [|a l IH]; intros [|b m] [|k]; cbn; auto. now destruct (nth_error l k). Qed.
Lemma norm_ok n z : (0 <= z < Z.of_nat n)%Z -> norm_axis n z = Some (Z.to_nat z).
Proof. intro H. unfold norm_axis. destruct (Z.leb_spec 0 z); [|lia]. destruct (Z.ltb_spec z (Z.of_nat n)); [reflexivity|lia]. Qed.
Lemma take_ok {B} (l : list B) k b : nth_error l k = Some b -> take l (Z.of_nat k) = Some b.
Proof. intro H. unfold take. assert (k < length l) by (apply nth_error_Some; congruence). rewrite norm_ok by lia. now rewrite Nat2Z.id. Qed.
Lemma take_last {B} (l : list B) e : take (l ++ [e]) (-1) = Some e.
Proof. unfold take, norm_axis. rewrite app_length. cbn [length]. destruct (Z.leb_spec 0 (-1)); [lia|]. destruct (Z.leb_spec (- Z.of_nat (length l + 1)) (-1)); [|lia].
  replace (Z.to_nat (-1 + Z.of_nat (length l + 1))) with (length l) by lia. rewrite nth_error_app2 by lia. now rewrite Nat.sub_diag. Qed.
Lemma gathered_all {A} (l : list A) ix r : gathered l ix = Some r -> all_of (take l) ix = Some r.
Proof.
  revert r. induction ix as [|i ix IH]; intros r H; cbn in *; [auto|]. destruct (Z.leb_spec 0 i); [|discriminate]. destruct (nth_error l (Z.to_nat i)) as [a|] eqn:E; [|discriminate]. destruct (gathered l ix) as [r'|]; [|discriminate].
  rewrite (IH r' eq_refl). apply take_ok in E. rewrite Z2Nat.id in E by lia. now rewrite E.
Qed.
Lemma no_dups_ok {K} (eqb : K -> K -> bool) (eqb_eq : forall a b, eqb a b = true -> a = b) l : NoDup l -> no_dups eqb l = true.
Proof.
  induction 1 as [|k l N _ IH]; [reflexivity|]. cbn. rewrite IH, andb_true_r. apply negb_true_iff. destruct (existsb (eqb k) l) eqn:E; auto. apply existsb_exists in E. destruct E as (k' & I1 & E). apply eqb_eq in E. now subst.
Qed.
Lemma pair_eqb_eq p q : pair_eqb p q = true <-> p = q.
Proof. destruct p, q. unfold pair_eqb. cbn. rewrite andb_true_iff, !Nat.eqb_eq. split; [intros []; congruence|intro H; injection H; auto]. Qed.
(** ** sorting *)
Definition below (p q : Z * nat) : Prop := (fst p <= fst q)%Z.
Lemma insert_perm p l : Permutation (insert p l) (p :: l).
Proof. induction l as [|q l IH]; cbn; auto. destruct (_ || _); auto. rewrite IH. apply perm_swap. Qed.
Lemma insert_sorted p l : StronglySorted below l -> StronglySorted below (insert p l).
Proof.
  induction l as [|q l IH]; cbn; intro H; [repeat constructor|]. inversion H as [|? ? Hl Hq]; subst. destruct (_ || _) eqn:E.
  - constructor; [auto|]. assert (L : (fst p <= fst q)%Z). { apply orb_true_iff in E. destruct E as [E|E]; [apply Z.ltb_lt in E; lia|]. apply andb_true_iff in E. destruct E as [E _]. apply Z.eqb_eq in E. lia. }
    constructor; [exact L|]. eapply Forall_impl; [|exact Hq]. intros r Hr. unfold below in *. lia.
  - constructor; [auto|]. assert (L : (fst q <= fst p)%Z). { apply orb_false_iff in E. destruct E as [E _]. apply Z.ltb_ge in E. lia. }
    apply Forall_forall. intros r Hr. apply (Permutation_in _ (insert_perm p l)) in Hr. destruct Hr as [<-|Hr]; [exact L|]. rewrite Forall_forall in Hq. auto.
Qed.
Lemma ascending_perm l : Permutation (ascending l) (combine l (seq 0 (length l))).
Proof. unfold ascending. induction (combine _ _) as [|p m IH]; cbn; [constructor|]. rewrite insert_perm. now constructor. Qed.
Lemma ascending_sorted l : StronglySorted below (ascending l).
Proof. unfold ascending. induction (combine _ _) as [|p m IH]; cbn; [constructor|]. now apply insert_sorted. Qed.
Lemma ascending_length l : length (ascending l) = length l.
Proof. rewrite (Permutation_length (ascending_perm l)), combine_length, seq_length. lia. Qed.
Lemma combine_fst {B C} (l : list B) (m : list C) : length l = length m -> map fst (combine l m) = l.
Proof. revert m. induction l as [|b l IH]; intros [|c m] H; cbn in *; try discriminate; auto. f_equal. auto. Qed.
Lemma sorted_fst l : StronglySorted below l -> StronglySorted Z.le (map fst l).
Proof. induction 1 as [|p l H IH F]; cbn; constructor; auto. rewrite Forall_map. exact F. Qed.
Lemma ascending_vals l : StronglySorted Z.le (map fst (ascending l)) /\ Permutation (map fst (ascending l)) l.
Proof. split; [apply sorted_fst, ascending_sorted|]. rewrite (Permutation_map fst (ascending_perm l)). rewrite combine_fst; [auto|now rewrite seq_length]. Qed.
(** two positions of the same value are less than its count apart *)
Lemma run_length l v : StronglySorted Z.le l -> forall p q, p <= q -> nth_error l p = Some v -> nth_error l q = Some v -> q - p < count v l.
Proof.
  unfold count. induction 1 as [|a l H IH F]; intros p q L Hp Hq; [destruct p; discriminate|]. destruct p as [|p].
  - cbn in Hp. injection Hp as ->. cbn [count_occ]. destruct (Z.eq_dec v v); [|contradiction]. destruct q as [|q]; [lia|]. cbn in Hq. destruct l as [|w l]; [destruct q; discriminate|].
    assert (E : w = v). { assert (G1 : (v <= w)%Z) by (inversion F; auto). assert (G2 : (w <= v)%Z). { destruct q as [|q]; [cbn in Hq; injection Hq as ->; lia|]. cbn in Hq. apply nth_error_In in Hq. inversion H as [|? ? _ F']; subst. rewrite Forall_forall in F'. auto. } lia. }
    subst w. specialize (IH 0 q ltac:(lia) eq_refl Hq). lia.
  - destruct q as [|q]; [lia|]. cbn in Hp, Hq. specialize (IH p q ltac:(lia) Hp Hq). cbn [count_occ]. destruct (Z.eq_dec a v); lia.
Qed.
(** ** distinct values *)
Lemma insert_new_in z l w : In w (insert_new z l) <-> w = z \/ In w l.
Proof. induction l as [|q l IH]; cbn; [intuition|]. destruct (Z.eqb_spec z q); [subst; cbn; intuition|]. destruct (Z.ltb z q); cbn; [intuition|]. rewrite IH. intuition. Qed.
Lemma distinct_in l w : In w (distinct l) <-> In w l.
Proof. unfold distinct. induction l as [|a l IH]; cbn; [intuition|]. rewrite insert_new_in, IH. intuition. Qed.
Lemma insert_new_sorted z l : StronglySorted Z.lt l -> StronglySorted Z.lt (insert_new z l).
Proof.
  induction 1 as [|q l H IH F]; cbn; [repeat constructor|]. destruct (Z.eqb_spec z q); [now constructor|]. destruct (Z.ltb_spec z q).
  - constructor; [now constructor|]. constructor; [auto|]. eapply Forall_impl; [|exact F]. cbn. intros; lia.
  - constructor; [auto|]. apply Forall_forall. intros w Hw. apply insert_new_in in Hw. destruct Hw as [->|Hw]; [lia|]. rewrite Forall_forall in F. auto.
Qed.
Lemma distinct_sorted l : StronglySorted Z.lt (distinct l).
Proof. unfold distinct. induction l; cbn; [constructor|]. now apply insert_new_sorted. Qed.
Lemma distinct_nodup l : NoDup (distinct l).
Proof. induction (distinct_sorted l) as [|a m H IH F]; constructor; auto. intro Ha. rewrite Forall_forall in F. specialize (F a Ha). lia. Qed.
Lemma position_ok z l : In z l -> nth_error l (position z l) = Some z.
Proof. induction l as [|q l IH]; cbn; [intros []|]. destruct (Z.eqb_spec z q); [subst; reflexivity|]. intros [E|H]; [congruence|]. cbn. auto. Qed.
(** ** scattering *)
Lemma look_in {K B} (eqb : K -> K -> bool) (eqb_eq : forall a b, eqb a b = true <-> a = b) k (l : list (K * B)) : ~ In k (map fst l) -> look eqb k l = None.
Proof. induction l as [|[k' b] l IH]; cbn; intro H; auto. destruct (eqb k k') eqn:E; [apply eqb_eq in E; exfalso; apply H; left; congruence|]. apply IH. tauto. Qed.
Lemma look_found {K B} (eqb : K -> K -> bool) (eqb_eq : forall a b, eqb a b = true <-> a = b) k b (l : list (K * B)) : NoDup (map fst l) -> In (k, b) l -> look eqb k l = Some b.
Proof.
  induction l as [|[k' b'] l IH]; cbn; intros N H; [destruct H|]. inversion N; subst. destruct H as [E|H].
  - injection E as -> ->. assert (E : eqb k k = true) by now apply eqb_eq. now rewrite E.
  - destruct (eqb k k') eqn:E; [|auto]. apply eqb_eq in E. subst. exfalso. apply H2. apply in_map_iff. now exists (k', b).
Qed.
Lemma scatter_perm {B C} (g : B -> C) (e : C) (ps : list (nat * B)) : NoDup (map fst ps) -> forall L, NoDup L -> incl (map fst ps) L ->
  Permutation (map (fun j => from_option e (option_map g (look Nat.eqb j ps))) L) (map g (map snd ps) ++ repeat e (length L - length ps)).
Proof.
  induction ps as [|[k b] ps IH]; intros N L NL HL; cbn [map fst snd look length].
  - rewrite Nat.sub_0_r. cbn [app]. clear. induction L; cbn; [constructor|]. now constructor.
  - inversion N as [|? ? Nk Np]; subst. destruct (in_split k L (HL k (or_introl eq_refl))) as (L1 & L2 & ->). assert (NL' := NoDup_remove_1 _ _ _ NL). assert (Nk' := NoDup_remove_2 _ _ _ NL).
    rewrite <- (Permutation_middle L1 L2 k). cbn [map]. rewrite Nat.eqb_refl. cbn [option_map from_option app]. constructor.
    rewrite (map_ext_in _ (fun j => from_option e (option_map g (look Nat.eqb j ps)))).
    + rewrite (IH Np (L1 ++ L2) NL').
      * reflexivity.
      * intros j Hj. assert (J : In j (L1 ++ k :: L2)) by (apply HL; now right). apply in_app_or in J. apply in_or_app. destruct J as [J|[->|J]]; auto. contradiction.
    + intros j Hj. destruct (Nat.eqb_spec j k); [subst; contradiction|reflexivity].
Qed.
Lemma look_pair {B} i j (ps : list (nat * nat * B)) : look pair_eqb (i, j) ps = look Nat.eqb j (map (fun p => (snd (fst p), snd p)) (filter (fun p => Nat.eqb (fst (fst p)) i) ps)).
Proof.
  induction ps as [|[[a b] c] ps IH]; [reflexivity|]. cbn [look filter fst snd]. unfold pair_eqb at 1. cbn [fst snd]. rewrite (Nat.eqb_sym i a). destruct (Nat.eqb a i); cbn [andb map look fst snd]; [|exact IH].
  destruct (Nat.eqb j b); [reflexivity|exact IH].
Qed.
(** ** segments *)
Lemma segment_index {A} (Q : Z -> bool) (e : A) : forall ids rows pre, length ids = length rows ->
  map (fun p => nth (snd p) (pre ++ rows) e) (filter (fun p => Q (fst p)) (combine ids (seq (length pre) (length rows)))) = map snd (filter (fun p => Q (fst p)) (combine ids rows)).
Proof.
  induction ids as [|z ids IH]; intros [|r rows] pre L; try discriminate; [reflexivity|]. cbn [length seq combine filter fst]. assert (E := IH rows (pre ++ [r])). rewrite app_length in E. cbn [length] in E. rewrite Nat.add_1_r, <- app_assoc in E. cbn [app] in E.
  destruct (Q z); cbn [map snd]; rewrite E by (cbn in L; lia); [|reflexivity]. f_equal. rewrite app_nth2 by lia. now rewrite Nat.sub_diag.
Qed.
Lemma filter_perm {B} (p : B -> bool) l l' : Permutation l l' -> Permutation (filter p l) (filter p l').
Proof. induction 1; cbn; auto; [destruct (p x); auto|destruct (p x), (p y); auto; constructor|now transitivity (filter p l')]. Qed.
Lemma segment_perm {A} (e : A) ids rows i : length ids = length rows ->
  Permutation (map (fun p => nth (snd p) rows e) (filter (fun p => Z.eqb (fst p) (Z.of_nat i)) (ascending ids))) (segment ids rows i).
Proof.
  intro L. unfold segment. rewrite <- (segment_index (fun z => Z.eqb z (Z.of_nat i)) e ids rows [] L). cbn [app]. apply Permutation_map, filter_perm. rewrite ascending_perm. now rewrite L.
Qed.
Lemma segment_length {A} ids (rows : list A) i : length ids = length rows -> length (segment ids rows i) = count (Z.of_nat i) ids.
Proof.
  unfold segment, count. rewrite map_length. revert rows. induction ids as [|z ids IH]; intros [|r rows] L; try discriminate; [reflexivity|]. cbn [combine filter fst count_occ]. cbn in L. injection L as L.
  destruct (Z.eqb_spec z (Z.of_nat i)); destruct (Z.eq_dec z (Z.of_nat i)); try contradiction; cbn [length]; rewrite IH by auto; reflexivity.
Qed.
(** ** running the nodes *)
Section Run.
Variables (A F : Type) (row_of : identity -> A) (amount_of : Z -> F) (sqrt_of max_one : F -> F) (is_float32 : bool).
Notation exec := (exec row_of amount_of sqrt_of max_one is_float32).
Notation op_result := (op_result row_of amount_of sqrt_of max_one is_float32).
Lemma exec_app l l' : forall e, exec (l ++ l') e = match exec l e with Some e' => exec l' e' | None => None end.
Proof.
  induction l as [|n l IH]; intro e; [reflexivity|]. cbn [app SegSpec.exec]. destruct (all_of _ _); [|reflexivity]. destruct (op_result _ _); [|reflexivity]. destruct (Nat.eqb _ _); [|reflexivity]. apply IH.
Qed.
Lemma exec_step o ins outs l e args vs : all_of (find_in e) ins = Some args -> op_result o args = Some vs -> length vs = length outs ->
  exec (SNode o ins outs :: l) e = exec l (combine outs vs ++ e).
Proof. intros H1 H2 H3. cbn [SegSpec.exec s_in s_op s_out]. rewrite H1, H2, H3, Nat.eqb_refl. reflexivity. Qed.
Lemma find_cons k v (e : env A F) k' : find_in ((k, v) :: e) k' = if String.eqb k' k then Some v else find_in e k'.
Proof. reflexivity. Qed.
End Run.
Ltac strings := repeat match goal with |- context [String.eqb ?a ?b] => let r := eval vm_compute in (String.eqb a b) in change (String.eqb a b) with r; cbv iota end.
Ltac finds := rewrite ?find_cons; strings; try eassumption; try reflexivity.
Ltac args := cbn [all_of]; rewrite ?find_cons; strings.

(** the parts of the computation *)
Definition s_vals (ids : list Z) : list Z := map fst (ascending ids).
Definition s_idx (ids : list Z) : list Z := map (fun p => Z.of_nat (snd p)) (ascending ids).
Definition s_cnts (ids : list Z) : list Z := map (fun z => Z.of_nat (count z (s_vals ids))) (distinct (s_vals ids)).
Definition s_max (ids : list Z) : Z := match s_cnts ids with [] => 0 | z :: l => fold_right Z.max z l end.
Definition s_inv (ids : list Z) : list Z := map (fun z => Z.of_nat (position z (distinct (s_vals ids)))) (s_vals ids).
Definition s_mod (ids : list Z) : list Z := zip Z.modulo (map (fun i => (0 + Z.of_nat i)%Z) (seq 0 (Z.to_nat (Z.of_nat (length ids) - 0)))) (map (fun z => Z.of_nat (count z (s_vals ids))) (s_vals ids)).
Definition s_keys (ids : list Z) : list (nat * nat) := zip (fun a b => (Z.to_nat a, Z.to_nat b)) (s_vals ids) (s_mod ids).
Definition s_cell (ids : list Z) (i j : nat) : option Z := look pair_eqb (i, j) (combine (s_keys ids) (s_idx ids)).

Lemma s_vals_length ids : length (s_vals ids) = length ids.
Proof. unfold s_vals. now rewrite map_length, ascending_length. Qed.
Lemma s_idx_length ids : length (s_idx ids) = length ids.
Proof. unfold s_idx. now rewrite map_length, ascending_length. Qed.
Lemma s_vals_in ids z : In z (s_vals ids) <-> In z ids.
Proof. destruct (ascending_vals ids) as [_ P]. split; apply Permutation_in; [exact P|now symmetry]. Qed.
Lemma s_count ids z : count z (s_vals ids) = count z ids.
Proof. unfold count. apply Permutation_count_occ. apply ascending_vals. Qed.
Lemma count_pos z l : In z l -> 0 < count z l.
Proof. unfold count. apply count_occ_In. Qed.
Lemma s_mod_length ids : length (s_mod ids) = length ids.
Proof. unfold s_mod. rewrite zip_length; rewrite map_length, seq_length; [lia|]. rewrite map_length, s_vals_length. lia. Qed.
Lemma s_mod_nth ids p v : nth_error (s_vals ids) p = Some v -> nth_error (s_mod ids) p = Some (Z.of_nat p mod Z.of_nat (count v ids))%Z.
Proof.
  intro H. assert (L : p < length ids) by (rewrite <- s_vals_length; apply nth_error_Some; congruence). unfold s_mod. rewrite nth_error_zip, !nth_error_map, H. cbn [option_map]. rewrite (nth_error_nth' _ 0) by (rewrite seq_length; lia).
  cbn [option_map]. rewrite seq_nth by lia. now rewrite s_count.
Qed.
Lemma s_mod_bound ids p v r : nth_error (s_vals ids) p = Some v -> nth_error (s_mod ids) p = Some r -> (0 <= r < Z.of_nat (count v ids))%Z.
Proof. intros H1 H2. rewrite (s_mod_nth ids p v H1) in H2. injection H2 as <-. apply Z.mod_pos_bound. assert (0 < count v ids); [|lia]. apply count_pos. apply s_vals_in. now apply nth_error_In in H1. Qed.
Lemma fold_max z l w : In w (z :: l) -> (w <= fold_right Z.max z l)%Z.
Proof. intros [->|H]; [induction l; cbn; lia|]. induction l as [|a l IH]; [destruct H|]. cbn. destruct H as [->|H]; [lia|]. specialize (IH H). lia. Qed.
Lemma s_max_bound ids v : In v ids -> (Z.of_nat (count v ids) <= s_max ids)%Z.
Proof.
  intro H. unfold s_max. assert (I1 : In (Z.of_nat (count v ids)) (s_cnts ids)).
  { unfold s_cnts. rewrite <- s_count. apply in_map_iff. exists v. split; auto. apply distinct_in. now apply s_vals_in. }
  destruct (s_cnts ids); [destruct I1|]. now apply fold_max.
Qed.
Lemma s_max_pos ids : ids <> [] -> (0 < s_max ids)%Z.
Proof. destruct ids as [|z ids]; [contradiction|intros _]. assert (G := s_max_bound (z :: ids) z (or_introl eq_refl)). assert (0 < count z (z :: ids)) by (apply count_pos; now left). lia. Qed.
Lemma s_keys_nodup ids : Forall (fun z => (0 <= z)%Z) ids -> NoDup (s_keys ids).
Proof.
  intro Hp. apply NoDup_nth_error. intros p q Hl E. unfold s_keys in *. rewrite zip_length in Hl by (now rewrite s_mod_length, s_vals_length). rewrite !nth_error_zip in E.
  destruct (nth_error (s_vals ids) p) as [v|] eqn:Ep; [|apply nth_error_None in Ep; lia]. rewrite (s_mod_nth ids p v Ep) in E.
  destruct (nth_error (s_vals ids) q) as [w|] eqn:Eq; [|discriminate]. rewrite (s_mod_nth ids q w Eq) in E. injection E as E1 E2.
  rewrite Forall_forall in Hp. assert (Pv : (0 <= v)%Z) by (apply Hp, s_vals_in; now apply nth_error_In in Ep). assert (Pw : (0 <= w)%Z) by (apply Hp, s_vals_in; now apply nth_error_In in Eq).
  assert (v = w) by lia. subst w. assert (C : 0 < count v ids) by (apply count_pos, s_vals_in; now apply nth_error_In in Ep).
  assert (B1 := Z.mod_pos_bound (Z.of_nat p) (Z.of_nat (count v ids)) ltac:(lia)). assert (B2 := Z.mod_pos_bound (Z.of_nat q) (Z.of_nat (count v ids)) ltac:(lia)).
  assert (E3 : (Z.of_nat p mod Z.of_nat (count v ids) = Z.of_nat q mod Z.of_nat (count v ids))%Z) by lia. destruct (ascending_vals ids) as [Sv _].
  rewrite <- s_count in *. destruct (Nat.le_ge_cases p q) as [L|L].
  - assert (R := run_length _ v Sv p q L Ep Eq). apply Nat2Z.inj. rewrite (Z_div_mod_eq_full (Z.of_nat p) (Z.of_nat (count v (s_vals ids)))), (Z_div_mod_eq_full (Z.of_nat q) (Z.of_nat (count v (s_vals ids)))), E3.
    f_equal. f_equal. assert (D : (Z.of_nat q - Z.of_nat p = Z.of_nat (count v (s_vals ids)) * (Z.of_nat q / Z.of_nat (count v (s_vals ids)) - Z.of_nat p / Z.of_nat (count v (s_vals ids))))%Z).
    { rewrite (Z_div_mod_eq_full (Z.of_nat p) (Z.of_nat (count v (s_vals ids)))) at 1. rewrite (Z_div_mod_eq_full (Z.of_nat q) (Z.of_nat (count v (s_vals ids)))) at 1. rewrite E3. ring. }
    unfold s_vals in *. nia.
  - assert (R := run_length _ v Sv q p L Eq Ep). apply Nat2Z.inj. rewrite (Z_div_mod_eq_full (Z.of_nat p) (Z.of_nat (count v (s_vals ids)))), (Z_div_mod_eq_full (Z.of_nat q) (Z.of_nat (count v (s_vals ids)))), E3.
    f_equal. f_equal. assert (D : (Z.of_nat p - Z.of_nat q = Z.of_nat (count v (s_vals ids)) * (Z.of_nat p / Z.of_nat (count v (s_vals ids)) - Z.of_nat q / Z.of_nat (count v (s_vals ids))))%Z).
    { rewrite (Z_div_mod_eq_full (Z.of_nat p) (Z.of_nat (count v (s_vals ids)))) at 1. rewrite (Z_div_mod_eq_full (Z.of_nat q) (Z.of_nat (count v (s_vals ids)))) at 1. rewrite E3. ring. }
    unfold s_vals in *. nia.
Qed.
(** one row of the grid *)
Definition s_row {A} (e : A) (rows : list A) (ids : list Z) (i : nat) : list A :=
  map (fun j => from_option e (option_map (fun z => nth (Z.to_nat z) rows e) (s_cell ids i j))) (seq 0 (Z.to_nat (s_max ids))).
Lemma keys_filter i : forall (asc : list (Z * nat)) rm, length asc = length rm -> Forall (fun p => (0 <= fst p)%Z) asc ->
  map snd (filter (fun p : nat * nat * Z => Nat.eqb (fst (fst p)) i) (combine (zip (fun a b => (Z.to_nat a, Z.to_nat b)) (map fst asc) rm) (map (fun p => Z.of_nat (snd p)) asc))) =
  map (fun p => Z.of_nat (snd p)) (filter (fun p => Z.eqb (fst p) (Z.of_nat i)) asc).
Proof.
  unfold zip. induction asc as [|[z k] asc IH]; intros [|r rm] L Hp; try discriminate; [reflexivity|]. inversion Hp as [|? ? P0 P1]; subst. cbn [fst] in P0. cbn [map combine filter fst snd]. cbn in L. injection L as L.
  replace (Nat.eqb (Z.to_nat z) i) with (Z.eqb z (Z.of_nat i)) by (destruct (Z.eqb_spec z (Z.of_nat i)), (Nat.eqb_spec (Z.to_nat z) i); auto; lia).
  destruct (Z.eqb z (Z.of_nat i)); cbn [map snd]; rewrite IH by auto; reflexivity.
Qed.
Lemma s_row_perm {A} (e : A) rows ids i : length ids = length rows -> Forall (fun z => (0 <= z)%Z) ids ->
  Permutation (s_row e rows ids i) (segment ids rows i ++ repeat e (Z.to_nat (s_max ids) - length (segment ids rows i))).
Proof.
  intros L Hp. unfold s_row, s_cell. set (ps := map (fun p : nat * nat * Z => (snd (fst p), snd p)) (filter (fun p => Nat.eqb (fst (fst p)) i) (combine (s_keys ids) (s_idx ids)))).
  rewrite (map_ext _ (fun j => from_option e (option_map (fun z => nth (Z.to_nat z) rows e) (look Nat.eqb j ps)))) by (intro j; unfold ps; now rewrite look_pair).
  assert (LK : length (s_keys ids) = length (s_idx ids)) by (unfold s_keys; rewrite zip_length by (now rewrite s_mod_length, s_vals_length); now rewrite s_vals_length, s_idx_length).
  assert (Fst : map fst (combine (s_keys ids) (s_idx ids)) = s_keys ids) by (now apply combine_fst).
  assert (Nps : NoDup (map fst ps)).
  { unfold ps. rewrite map_map. cbn [fst]. assert (N := s_keys_nodup ids Hp). rewrite <- Fst in N. revert N. generalize (combine (s_keys ids) (s_idx ids)). clear. induction l as [|[[a b] c] l IH]; intro N; cbn; [constructor|]. inversion N as [|? ? N1 N2]; subst.
    destruct (Nat.eqb_spec a i); [|auto]. cbn. constructor; [|auto]. rewrite in_map_iff. intros ([[a' b'] c'] & E & H). apply filter_In in H. destruct H as [H1 H2]. cbn in E, H2. apply Nat.eqb_eq in H2. subst. apply N1. apply in_map_iff. now exists (i, b, c'). }
  assert (Ips : incl (map fst ps) (seq 0 (Z.to_nat (s_max ids)))).
  { intros j Hj. unfold ps in Hj. rewrite map_map in Hj. cbn [fst] in Hj. apply in_map_iff in Hj. destruct Hj as ([[a b] c] & E & H). cbn in E. subst b. apply filter_In in H. destruct H as [H _]. apply in_combine_l in H.
    apply In_nth_error in H. destruct H as [p H]. unfold s_keys in H. rewrite nth_error_zip in H. destruct (nth_error (s_vals ids) p) as [v|] eqn:Ev; [|discriminate]. destruct (nth_error (s_mod ids) p) as [r|] eqn:Er; [|discriminate]. injection H as _ <-.
    assert (B := s_mod_bound ids p v r Ev Er). assert (M := s_max_bound ids v ltac:(apply s_vals_in; now apply nth_error_In in Ev)). apply in_seq. lia. }
  rewrite (scatter_perm (fun z => nth (Z.to_nat z) rows e) e ps Nps (seq 0 (Z.to_nat (s_max ids))) (seq_NoDup _ _) Ips).
  assert (Sn : map snd ps = map (fun p => Z.of_nat (snd p)) (filter (fun p => Z.eqb (fst p) (Z.of_nat i)) (ascending ids))).
  { unfold ps. rewrite map_map. cbn [snd]. unfold s_keys, s_idx, s_vals. apply keys_filter; [now rewrite s_mod_length, ascending_length|]. apply Forall_forall. intros [z k] H. cbn. rewrite Forall_forall in Hp. apply Hp, s_vals_in. unfold s_vals. apply in_map_iff. now exists (z, k). }
  assert (P : Permutation (map (fun z => nth (Z.to_nat z) rows e) (map snd ps)) (segment ids rows i)).
  { rewrite Sn, map_map. rewrite (map_ext _ (fun p => nth (snd p) rows e)) by (intro p; now rewrite Nat2Z.id). now apply segment_perm. }
  rewrite seq_length. assert (Ln := Permutation_length P). rewrite !map_length in Ln. rewrite Ln, P. reflexivity.
Qed.
(** ** the nodes *)
Lemma all_of_length {B C} (f : B -> option C) l r : all_of f l = Some r -> length r = length l.
Proof. revert r. induction l as [|b l IH]; intros r H; cbn in H; [injection H as <-; reflexivity|]. destruct (f b); [|discriminate]. destruct (all_of f l); [|discriminate]. injection H as <-. cbn. f_equal. auto. Qed.
Lemma zip_app_one (l m : list Z) : zip (@app Z) (map (fun z => [z]) l) (map (fun z => [z]) m) = zip (fun a b => [a; b]) l m.
Proof. rewrite zip_map. reflexivity. Qed.
Lemma all_of_zip {C} (f : list Z -> option C) (g : Z -> Z -> C) (l m : list Z) : (forall p a b, nth_error l p = Some a -> nth_error m p = Some b -> f [a; b] = Some (g a b)) ->
  all_of f (zip (fun a b => [a; b]) l m) = Some (zip g l m).
Proof.
  unfold zip. revert m. induction l as [|a l IH]; intros [|b m] H; cbn; auto. rewrite (H 0 a b eq_refl eq_refl), IH; [reflexivity|]. intros p a' b' H1 H2. apply (H (S p)); auto.
Qed.
Lemma width_repeat {B} (r : list B) n : 0 < n -> width (repeat r n) = length r.
Proof. destruct n; [lia|reflexivity]. Qed.
Lemma nth_repeat_lt {B} (d r : B) k n : k < n -> nth k (repeat r n) d = r.
Proof. revert k. induction n as [|n IH]; intros k H; [lia|]. destruct k; cbn; [reflexivity|]. apply IH. lia. Qed.
Lemma in_dv ids z : In z (distinct (s_vals ids)) -> In z ids.
Proof. intro H. apply s_vals_in. apply distinct_in. exact H. Qed.
Lemma dv_in ids z : In z ids -> In z (distinct (s_vals ids)).
Proof. intro H. apply distinct_in. apply s_vals_in. exact H. Qed.
Section Nodes.
Variables (A F : Type) (row_of : identity -> A) (amount_of : Z -> F) (sqrt_of max_one : F -> F) (is_float32 : bool).
Notation exec := (exec row_of amount_of sqrt_of max_one is_float32).
Notation op_result := (op_result row_of amount_of sqrt_of max_one is_float32).
Variables (ids : list Z) (N : Z).
Hypothesis ne : ids <> [].
Hypothesis pos : Forall (fun z => (0 <= z)%Z) ids.
Hypothesis lt : Forall (fun z => (z < N)%Z) ids.
Lemma N_pos : (0 < N)%Z.
Proof. destruct ids as [|z l]; [contradiction|]. inversion pos; inversion lt; subst. lia. Qed.
(** the environment agrees with e except for new names *)
Definition fresh_for (names : list string) (e e' : env A F) : Prop := forall s, ~ In s names -> find_in e' s = find_in e s.
Lemma fresh_cons k v (e e' : env A F) names : In k names -> fresh_for names e e' -> fresh_for names e ((k, v) :: e').
Proof. intros H G s Hs. rewrite find_cons. destruct (String.eqb_spec s k); [subst; contradiction|]. auto. Qed.
Lemma num_exec e : find_in e "segment_inp"%string = Some (Vec ids) ->
  exists e', exec num_nodes e = Some e' /\ find_in e' "num_segments"%string = Some (Sc (match ids with [] => 0 | z :: l => fold_right Z.max z l end + 1)) /\ fresh_for ["max_segment"; "one_const"; "num_segments"]%string e e'.
Proof.
  intro H. destruct ids as [|z l] eqn:Ei; [contradiction|]. eexists. split.
  - unfold num_nodes. erewrite exec_step; [|args; rewrite H; reflexivity|reflexivity|reflexivity]. cbn [combine app]. erewrite exec_step; [|reflexivity|reflexivity|reflexivity]. cbn [combine app].
    erewrite exec_step; [|args; reflexivity|reflexivity|reflexivity]. cbn [combine app]. reflexivity.
  - split; [reflexivity|]. repeat (apply fresh_cons; [cbn; tauto|]). intros s _. reflexivity.
Qed.
Definition sort_names : list string := ["num_segments_unsq"; "seg_shape"; "seg_shape_sq"; "segs_sorted"; "indices"; "seg_values"; "inv_indices"; "seg_cnts_sorted"; "max_cnt"]%string.
Definition sorted_env (e : env A F) : Prop :=
  find_in e "num_segments_unsq"%string = Some (Vec [N]) /\ find_in e "seg_shape_sq"%string = Some (Sc (Z.of_nat (length ids))) /\ find_in e "segs_sorted"%string = Some (Vec (s_vals ids)) /\
  find_in e "indices"%string = Some (Vec (s_idx ids)) /\ find_in e "seg_values"%string = Some (Vec (distinct (s_vals ids))) /\ find_in e "inv_indices"%string = Some (Vec (s_inv ids)) /\
  find_in e "seg_cnts_sorted"%string = Some (Vec (s_cnts ids)) /\ find_in e "max_cnt"%string = Some (Vec [s_max ids]).
Lemma sort_exec e : find_in e "segment_inp"%string = Some (Vec ids) -> find_in e "num_segments"%string = Some (Sc N) ->
  exists e', exec sort_nodes e = Some e' /\ sorted_env e' /\ fresh_for sort_names e e'.
Proof.
  intros H1 H2.
  assert (T : op_result OTopKSmallest [Vec ids; Vec [Z.of_nat (length ids)]] = Some [Vec (s_vals ids); Vec (s_idx ids)]).
  { cbn [SegSpec.op_result]. destruct (Z.leb_spec 0 (Z.of_nat (length ids))); [|lia]. destruct (Z.leb_spec (Z.of_nat (length ids)) (Z.of_nat (length ids))); [|lia]. cbn [andb]. cbv zeta. rewrite Nat2Z.id, <- (ascending_length ids), firstn_all. reflexivity. }
  assert (M : op_result (OReduceMax true) [Vec (s_cnts ids)] = Some [Vec [s_max ids]]).
  { assert (G := s_max_pos ids ne). unfold s_max in *. destruct (s_cnts ids); [lia|reflexivity]. }
  eexists. split.
  - unfold sort_nodes. erewrite exec_step; [|args; rewrite H2; reflexivity|reflexivity|reflexivity]. cbn [combine app].
    erewrite exec_step; [|args; rewrite H1; reflexivity|reflexivity|reflexivity]. cbn [combine app].
    erewrite exec_step; [|args; reflexivity|reflexivity|reflexivity]. cbn [combine app].
    erewrite exec_step; [|args; rewrite H1; reflexivity|exact T|reflexivity]. cbn [combine app].
    erewrite exec_step; [|args; reflexivity|reflexivity|reflexivity]. cbn [combine app].
    erewrite exec_step; [|args; reflexivity|exact M|reflexivity]. cbn [combine app]. reflexivity.
  - split; [unfold sorted_env; rewrite ?find_cons; strings; repeat (split; [reflexivity|]); reflexivity|].
    unfold sort_names. repeat (apply fresh_cons; [cbn; tauto|]). intros s _. reflexivity.
Qed.
(** the grid *)
Lemma grid_exec e data_inp i rows : sorted_env e -> find_in e data_inp = Some (Rows rows) -> length ids = length rows -> (data_inp = "data"%string \/ data_inp = "data_gathered"%string) ->
  exists e', exec (grid_nodes data_inp i) e = Some e' /\ find_in e' "data_grid"%string = Some (Grid (map (s_row (row_of i) rows ids) (seq 0 (Z.to_nat N)))) /\
    (forall s, In s ["seg_cnts_float"; "seg_cnts_sqrt"; "scaling_max"]%string -> find_in e' s = find_in e s).
Proof.
  intros (E1 & E2 & E3 & E4 & E5 & E6 & E7 & E8) D L Dn. assert (NP := N_pos). assert (MP := s_max_pos ids ne).
  assert (G1 : all_of (take (s_cnts ids)) (s_inv ids) = Some (map (fun z => Z.of_nat (count z (s_vals ids))) (s_vals ids))).
  { unfold s_inv. assert (G : forall l, (forall z, In z l -> In z (s_vals ids)) -> all_of (take (s_cnts ids)) (map (fun z => Z.of_nat (position z (distinct (s_vals ids)))) l) = Some (map (fun z => Z.of_nat (count z (s_vals ids))) l)); [|apply G; auto].
    induction l as [|z l IH]; intro Hl; [reflexivity|]. cbn [map all_of]. rewrite IH by (intros; apply Hl; now right). assert (P := position_ok z (distinct (s_vals ids)) ltac:(apply distinct_in, Hl; now left)).
    erewrite take_ok; [reflexivity|]. unfold s_cnts. rewrite nth_error_map, P. reflexivity. }
  assert (G2 : op_result OMod [Vec (map (fun i => (0 + Z.of_nat i)%Z) (seq 0 (Z.to_nat (Z.of_nat (length ids) - 0)))); Vec (map (fun z => Z.of_nat (count z (s_vals ids))) (s_vals ids))] = Some [Vec (s_mod ids)]).
  { cbn [SegSpec.op_result]. replace (Nat.eqb _ _) with true by (symmetry; apply Nat.eqb_eq; rewrite !map_length, seq_length, s_vals_length; lia). replace (forallb _ _) with true; [reflexivity|]. symmetry. apply forallb_forall. intros c Hc. apply in_map_iff in Hc. destruct Hc as (z & <- & Hz).
    apply negb_true_iff. apply Z.eqb_neq. assert (0 < count z (s_vals ids)) by now apply count_pos. lia. }
  assert (G3 : op_result (OConstantOfShape (-1)) [Vec [N; s_max ids]] = Some [Mat (repeat (repeat (-1)%Z (Z.to_nat (s_max ids))) (Z.to_nat N))]).
  { cbn [SegSpec.op_result]. destruct (Z.leb_spec 0 N); [|lia]. destruct (Z.leb_spec 0 (s_max ids)); [|lia]. reflexivity. }
  assert (G4 : op_result OConcat1 [Mat (map (fun z => [z]) (s_vals ids)); Mat (map (fun z => [z]) (s_mod ids))] = Some [Mat (zip (fun a b => [a; b]) (s_vals ids) (s_mod ids))]).
  { cbn [SegSpec.op_result]. replace (Nat.eqb _ _) with true by (symmetry; apply Nat.eqb_eq; rewrite !map_length, s_vals_length, s_mod_length; reflexivity). now rewrite zip_app_one. }
  assert (LK : length (s_keys ids) = length ids) by (unfold s_keys; rewrite zip_length; rewrite s_vals_length; [auto|now rewrite s_mod_length]).
  assert (G5 : op_result OScatterND [Mat (repeat (repeat (-1)%Z (Z.to_nat (s_max ids))) (Z.to_nat N)); Mat (zip (fun a b => [a; b]) (s_vals ids) (s_mod ids)); Vec (s_idx ids)]
    = Some [Mat (map (fun i => map (fun j => from_option (-1)%Z (s_cell ids i j)) (seq 0 (Z.to_nat (s_max ids)))) (seq 0 (Z.to_nat N)))]).
  { cbn [SegSpec.op_result]. rewrite repeat_length, width_repeat, repeat_length by lia. rewrite (all_of_zip _ (fun a b => (Z.to_nat a, Z.to_nat b))).
    - fold (s_keys ids). replace (Nat.eqb _ _) with true by (symmetry; apply Nat.eqb_eq; rewrite zip_length; rewrite s_vals_length; [now rewrite s_idx_length|now rewrite s_mod_length]).
      rewrite (no_dups_ok pair_eqb (fun a b => proj1 (pair_eqb_eq a b)) _ (s_keys_nodup ids pos)). cbn [andb]. do 3 f_equal. apply map_ext_in. intros a Ha. apply in_seq in Ha. apply map_ext_in. intros j Hj. apply in_seq in Hj. unfold s_cell.
      rewrite (nth_repeat_lt _ _ a) by lia. now rewrite nth_repeat_lt by lia.
    - intros p a b Ha Hb. unfold at_pair. assert (B := s_mod_bound ids p a b Ha Hb). assert (I1 : In a ids) by (apply s_vals_in; now apply nth_error_In in Ha). assert (M := s_max_bound ids a I1).
      rewrite Forall_forall in pos, lt. assert (P1 := pos a I1). assert (P2 := lt a I1). cbn in P1, P2. rewrite !norm_ok by lia. reflexivity. }
  assert (G6 : all_of (all_of (take (rows ++ [row_of i]))) (map (fun i => map (fun j => from_option (-1)%Z (s_cell ids i j)) (seq 0 (Z.to_nat (s_max ids)))) (seq 0 (Z.to_nat N)))
    = Some (map (s_row (row_of i) rows ids) (seq 0 (Z.to_nat N)))).
  { assert (Cell : forall a j, take (rows ++ [row_of i]) (from_option (-1)%Z (s_cell ids a j)) = Some (from_option (row_of i) (option_map (fun z => nth (Z.to_nat z) rows (row_of i)) (s_cell ids a j)))).
    { intros a j. destruct (s_cell ids a j) as [z|] eqn:Ec; cbn [from_option option_map]; [|apply take_last]. assert (Iz : In z (s_idx ids)).
      { unfold s_cell in Ec. clear -Ec. revert Ec. generalize (s_keys ids). induction (s_idx ids) as [|y m IH]; intros [|k ks] Ec; try discriminate. cbn in Ec. destruct (pair_eqb (a, j) k); [injection Ec as ->; now left|]. right. apply (IH ks). exact Ec. }
      unfold s_idx in Iz. apply in_map_iff in Iz. destruct Iz as ([w k] & <- & Ik). cbn [snd]. apply (Permutation_in _ (ascending_perm ids)) in Ik. apply in_combine_r in Ik. apply in_seq in Ik.
      rewrite Nat2Z.id. apply take_ok. rewrite nth_error_app1 by lia. apply nth_error_nth'. lia. }
    assert (Rw : forall a, all_of (take (rows ++ [row_of i])) (map (fun j => from_option (-1)%Z (s_cell ids a j)) (seq 0 (Z.to_nat (s_max ids)))) = Some (s_row (row_of i) rows ids a)).
    { intro a. unfold s_row. clear G5. induction (seq 0 (Z.to_nat (s_max ids))) as [|j l IH]; [reflexivity|]. cbn [map all_of]. rewrite Cell, IH. reflexivity. }
    clear G5. induction (seq 0 (Z.to_nat N)) as [|a l IH]; [reflexivity|]. cbn [map all_of]. rewrite Rw, IH. reflexivity. }
  eexists. split.
  - unfold grid_nodes. erewrite exec_step; [|reflexivity|reflexivity|reflexivity]. cbn [combine app].
    erewrite exec_step; [|reflexivity|reflexivity|reflexivity]. cbn [combine app].
    erewrite exec_step; [|args; rewrite E2; reflexivity|reflexivity|reflexivity]. cbn [combine app].
    erewrite exec_step; [|args; rewrite E7, E6; reflexivity|cbn [SegSpec.op_result]; rewrite G1; reflexivity|reflexivity]. cbn [combine app].
    erewrite exec_step; [|args; reflexivity|exact G2|reflexivity]. cbn [combine app].
    erewrite exec_step; [|args; rewrite E1, E8; reflexivity|reflexivity|reflexivity]. cbn [combine app].
    erewrite exec_step; [|args; reflexivity|exact G3|reflexivity]. cbn [combine app].
    erewrite exec_step; [|args; rewrite E3; reflexivity|reflexivity|reflexivity]. cbn [combine app].
    erewrite exec_step; [|args; reflexivity|reflexivity|reflexivity]. cbn [combine app].
    erewrite exec_step; [|args; reflexivity|exact G4|reflexivity]. cbn [combine app].
    erewrite exec_step; [|args; rewrite E4; reflexivity|exact G5|reflexivity]. cbn [combine app].
    erewrite exec_step; [|destruct Dn as [-> | ->]; args; rewrite D; reflexivity|reflexivity|reflexivity]. cbn [combine app].
    erewrite exec_step; [|destruct Dn as [-> | ->]; args; rewrite D; reflexivity|reflexivity|reflexivity]. cbn [combine app].
    erewrite exec_step; [|args; reflexivity|cbn [SegSpec.op_result]; rewrite G6; reflexivity|reflexivity]. cbn [combine app]. reflexivity.
  - split; [reflexivity|]. intros s Hs. cbn in Hs. destruct Hs as [<-|[<-|[<-|[]]]]; rewrite ?find_cons; strings; reflexivity.
Qed.
(** the counts *)
Lemma counts_exec : op_result OScatterElements [Vec (repeat 0%Z (Z.to_nat N)); Vec (distinct (s_vals ids)); Vec (s_cnts ids)]
  = Some [Vec (map (fun k => Z.of_nat (count (Z.of_nat k) ids)) (seq 0 (Z.to_nat N)))].
Proof.
  cbn [SegSpec.op_result]. rewrite repeat_length. rewrite (all_of_map _ Z.to_nat).
  2:{ intros z Hz. apply in_dv in Hz. rewrite Forall_forall in pos, lt. assert (P1 := pos z Hz). assert (P2 := lt z Hz). cbn in P1, P2. apply norm_ok. lia. }
  assert (ND : NoDup (map Z.to_nat (distinct (s_vals ids)))).
  { assert (G : forall z, In z (distinct (s_vals ids)) -> (0 <= z)%Z) by (intros z Hz; apply in_dv in Hz; rewrite Forall_forall in pos; auto). assert (N0 := distinct_nodup (s_vals ids)). revert G N0. generalize (distinct (s_vals ids)). clear.
    induction l as [|z l IH]; intros G N0; cbn; [constructor|]. inversion N0; subst. constructor; [|apply IH; auto; intros; apply G; now right]. rewrite in_map_iff. intros (w & E & Hw). assert (0 <= z)%Z by (apply G; now left). assert (0 <= w)%Z by (apply G; now right). assert (z = w) by lia. now subst. }
  rewrite (no_dups_ok Nat.eqb (fun a b => proj1 (Nat.eqb_eq a b)) _ ND). replace (Nat.eqb _ _) with true by (symmetry; apply Nat.eqb_eq; unfold s_cnts; now rewrite map_length). cbn [andb]. do 3 f_equal.
  apply map_ext_in. intros k Hk. apply in_seq in Hk. rewrite nth_repeat_lt by lia.
  assert (Fst : map fst (combine (map Z.to_nat (distinct (s_vals ids))) (s_cnts ids)) = map Z.to_nat (distinct (s_vals ids))) by (apply combine_fst; unfold s_cnts; now rewrite !map_length).
  destruct (in_dec Z.eq_dec (Z.of_nat k) ids) as [I1|I1].
  - rewrite (look_found Nat.eqb Nat.eqb_eq k (Z.of_nat (count (Z.of_nat k) ids))); [reflexivity|now rewrite Fst|]. unfold s_cnts. rewrite <- s_count. apply dv_in in I1.
    clear -I1. revert I1. generalize (distinct (s_vals ids)). induction l as [|z l IH]; intros []; cbn; [left; subst; now rewrite Nat2Z.id|right; auto].
  - rewrite (look_in Nat.eqb Nat.eqb_eq); [|rewrite Fst, in_map_iff; intros (z & E & Hz); apply in_dv in Hz; apply I1; rewrite Forall_forall in pos; assert (P := pos z Hz); cbn in P; replace (Z.of_nat k) with z by lia; auto].
    cbn [from_option]. unfold count. apply count_occ_not_In with (eq_dec := Z.eq_dec) in I1. now rewrite I1.
Qed.
(** the amounts *)
Definition amounts (sqrtn given : bool) : list F :=
  map (fun k => let a := amount_of (Z.of_nat (count (Z.of_nat k) ids)) in let b := if sqrtn then sqrt_of a else a in if given then max_one b else b) (seq 0 (Z.to_nat N)).
Lemma scale_exec e t given num_const : sorted_env e -> num_const = None \/ num_const = Some N -> (given = true -> t = "SegmentMean"%string \/ t = "SegmentSqrtN"%string -> is_float32 = true) ->
  exists e', exec (fst (scale_nodes t given num_const)) e = Some e' /\ (forall s, ~ In s ["zeros"; "seg_cnts"; "seg_cnts_float"; "seg_cnts_sqrt"; "scaling_max"]%string -> find_in e' s = find_in e s) /\
    match snd (scale_nodes t given num_const) with
    | None => t <> "SegmentMean"%string /\ t <> "SegmentSqrtN"%string
    | Some s => In s ["seg_cnts_float"; "seg_cnts_sqrt"; "scaling_max"]%string /\ (t = "SegmentMean"%string \/ t = "SegmentSqrtN"%string) /\ find_in e' s = Some (Amount (amounts (String.eqb t "SegmentSqrtN") given))
    end.
Proof.
  intros (E1 & _ & _ & _ & E5 & _ & E7 & _) Hn Hf. assert (NP := N_pos).
  assert (Zs : forall l, exec ((match num_const with Some n => SNode (OConstVec (repeat 0%Z (Z.to_nat n))) [] ["zeros"] | None => SNode (OConstantOfShape 0) ["num_segments_unsq"] ["zeros"] end)%string :: l) e = exec l (("zeros"%string, Vec (repeat 0%Z (Z.to_nat N))) :: e)).
  { intro l. destruct Hn as [-> | ->].
    - erewrite exec_step; [|args; rewrite E1; reflexivity|cbn [SegSpec.op_result]; destruct (Z.leb_spec 0 N); [reflexivity|lia]|reflexivity]. reflexivity.
    - erewrite exec_step; [|reflexivity|reflexivity|reflexivity]. reflexivity. }
  assert (Cs : forall l, exec ([(match num_const with Some n => SNode (OConstVec (repeat 0%Z (Z.to_nat n))) [] ["zeros"] | None => SNode (OConstantOfShape 0) ["num_segments_unsq"] ["zeros"] end);
    SNode OScatterElements ["zeros"; "seg_values"; "seg_cnts_sorted"] ["seg_cnts"]; SNode OCastAmount ["seg_cnts"] ["seg_cnts_float"]]%string ++ l) e =
    exec l (("seg_cnts_float"%string, Amount (map amount_of (map (fun k => Z.of_nat (count (Z.of_nat k) ids)) (seq 0 (Z.to_nat N))))) :: ("seg_cnts"%string, Vec (map (fun k => Z.of_nat (count (Z.of_nat k) ids)) (seq 0 (Z.to_nat N)))) :: ("zeros"%string, Vec (repeat 0%Z (Z.to_nat N))) :: e)).
  { intro l. cbn [app]. rewrite Zs. erewrite exec_step; [|args; rewrite E5, E7; reflexivity|exact counts_exec|reflexivity]. cbn [combine app]. erewrite exec_step; [|args; reflexivity|reflexivity|reflexivity]. reflexivity. }
  assert (Fresh : forall names l, (forall s, In s names -> In s ["zeros"; "seg_cnts"; "seg_cnts_float"; "seg_cnts_sqrt"; "scaling_max"]%string) -> map fst l = names ->
    forall s, ~ In s ["zeros"; "seg_cnts"; "seg_cnts_float"; "seg_cnts_sqrt"; "scaling_max"]%string -> find_in (l ++ e) s = find_in e s).
  { intros names l Hl El s Hs. subst names. induction l as [|[k v] l IH]; [reflexivity|]. cbn [app]. rewrite find_cons. destruct (String.eqb_spec s k); [subst; exfalso; apply Hs, Hl; now left|]. apply IH. intros; apply Hl; now right. }
  unfold scale_nodes. destruct (String.eqb_spec t "SegmentMean") as [->|T1]; [|destruct (String.eqb_spec t "SegmentSqrtN") as [->|T2]].
  - cbn [existsb]. strings. cbn [orb]. destruct given; cbn [fst snd].
    + eexists. split; [rewrite Cs; erewrite exec_step; [|args; reflexivity|cbn [SegSpec.op_result]; rewrite Hf by auto; reflexivity|reflexivity]; reflexivity|]. cbn [combine app]. split.
      * apply (Fresh ["scaling_max"; "seg_cnts_float"; "seg_cnts"; "zeros"]%string [(_, _); (_, _); (_, _); (_, _)]); [|reflexivity]. cbn. tauto.
      * split; [cbn; tauto|]. split; [auto|]. rewrite find_cons. strings. unfold amounts. rewrite !map_map. reflexivity.
    + eexists. split; [rewrite <- (app_nil_r [_; _; _]); rewrite Cs; reflexivity|]. split.
      * apply (Fresh ["seg_cnts_float"; "seg_cnts"; "zeros"]%string [(_, _); (_, _); (_, _)]); [|reflexivity]. cbn. tauto.
      * split; [cbn; tauto|]. split; [auto|]. rewrite find_cons. strings. unfold amounts. rewrite !map_map. reflexivity.
  - cbn [existsb]. strings. cbn [orb]. destruct given; cbn [fst snd].
    + eexists. split; [rewrite <- app_assoc, Cs; cbn [app]; erewrite exec_step; [|args; reflexivity|reflexivity|reflexivity]; cbn [combine app]; erewrite exec_step; [|args; reflexivity|cbn [SegSpec.op_result]; rewrite Hf by auto; reflexivity|reflexivity]; reflexivity|]. cbn [combine app]. split.
      * apply (Fresh ["scaling_max"; "seg_cnts_sqrt"; "seg_cnts_float"; "seg_cnts"; "zeros"]%string [(_, _); (_, _); (_, _); (_, _); (_, _)]); [|reflexivity]. cbn. tauto.
      * split; [cbn; tauto|]. split; [auto|]. rewrite find_cons. strings. unfold amounts. rewrite !map_map. reflexivity.
    + eexists. split; [rewrite Cs; erewrite exec_step; [|args; reflexivity|reflexivity|reflexivity]; reflexivity|]. cbn [combine app]. split.
      * apply (Fresh ["seg_cnts_sqrt"; "seg_cnts_float"; "seg_cnts"; "zeros"]%string [(_, _); (_, _); (_, _); (_, _)]); [|reflexivity]. cbn. tauto.
      * split; [cbn; tauto|]. split; [auto|]. rewrite find_cons. strings. unfold amounts. rewrite !map_map. reflexivity.
  - cbn [existsb]. apply String.eqb_neq in T1 as T1', T2 as T2'. rewrite T1', T2'. cbn [orb fst snd]. exists e. split; [reflexivity|]. split; auto.
Qed.
End Nodes.
