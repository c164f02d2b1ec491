From Coq Require Import List String Ascii NArith ZArith Bool Lia.
From Coq Require Import DecimalString DecimalN DecimalFacts.
From Verif Require Import NamesModel NamesSpec.
Import ListNotations.
Local Open Scope string_scope.

(** * Decimal printing *)

Lemma to_uint_not_nil n : N.to_uint n <> Decimal.Nil.
Proof.
  intro H. assert (E := DecimalN.Unsigned.of_to n). rewrite H in E. simpl in E. subst n.
  discriminate H.
Qed.

Lemma int_of_str_of_N n : int_of_str (str_of_N n) = Some n.
Proof.
  unfold int_of_str, str_of_N. rewrite NilZero.usu.
  - now rewrite DecimalN.Unsigned.of_to.
  - apply to_uint_not_nil.
Qed.

Lemma str_of_N_inj a b : str_of_N a = str_of_N b -> a = b.
Proof.
  intro H. assert (E := int_of_str_of_N a). rewrite H, int_of_str_of_N in E. congruence.
Qed.

Fixpoint all_digits (s : string) : bool :=
  match s with EmptyString => true | String c r => is_digit c && all_digits r end.

Lemma all_digits_uint d : all_digits (NilEmpty.string_of_uint d) = true.
Proof. induction d; simpl; auto. Qed.

Lemma str_of_N_digits n : all_digits (str_of_N n) = true.
Proof.
  unfold str_of_N, NilZero.string_of_uint.
  destruct (N.to_uint n) eqn:E; try apply all_digits_uint. reflexivity.
Qed.

Lemma str_of_N_nonempty n : str_of_N n <> EmptyString.
Proof.
  intro H. assert (E := int_of_str_of_N n). rewrite H in E. discriminate E.
Qed.

(** * String helpers *)

Lemma append_assoc' (a b c : string) : (a ++ b) ++ c = a ++ b ++ c.
Proof. induction a; simpl; congruence. Qed.


Lemma has_char_app c a b : has_char c (a ++ b) = has_char c a || has_char c b.
Proof. induction a as [|d a IH]; simpl; auto. rewrite IH. now rewrite orb_assoc. Qed.

Lemma digits_no_char c s : is_digit c = false -> all_digits s = true -> has_char c s = false.
Proof.
  intro Hc. induction s as [|d s IH]; simpl; auto.
  intro H. apply andb_true_iff in H. destruct H as [Hd Hs].
  rewrite (IH Hs), orb_false_r.
  destruct (Ascii.eqb_spec d c); auto. subst. congruence.
Qed.

Lemma span_digits_spec s d r : span_digits s = (d, r) -> s = d ++ r /\ all_digits d = true.
Proof.
  revert d r. induction s as [|c s IH]; simpl; intros d r H.
  - inversion H; subst. auto.
  - destruct (is_digit c) eqn:Ec.
    + destruct (span_digits s) as [d' r'] eqn:E. inversion H; subst.
      destruct (IH _ _ eq_refl) as [E1 E2]. subst. simpl. rewrite Ec. auto.
    + inversion H; subst. auto.
Qed.

Lemma span_digits_all d r :
  all_digits d = true ->
  match r with EmptyString => True | String c _ => is_digit c = false end ->
  span_digits (d ++ r) = (d, r).
Proof.
  induction d as [|c d IH]; simpl; intros Hd Hr.
  - destruct r as [|c r]; simpl; auto. now rewrite Hr.
  - apply andb_true_iff in Hd. destruct Hd as [Hc Hd]. rewrite Hc, IH; auto.
Qed.

(** * The suffix regex *)


Lemma match_at_generated k p :
  match_suffix_at ("__" ++ str_of_N k ++ port_suffix p) = Some (str_of_N k).
Proof.
  cbn [append match_suffix_at].
  change (Ascii.eqb "_" "_") with true. cbn [andb].
  rewrite span_digits_all.
  - assert (Hne := str_of_N_nonempty k).
    destruct (str_of_N k) as [|c s] eqn:E; [congruence|].
    destruct p as [n|]; cbn [port_suffix append].
    + change (Ascii.eqb ":" ":") with true. cbv iota.
      assert (E2 : span_digits (str_of_N n) = (str_of_N n, "")).
      { assert (H := span_digits_all (str_of_N n) "" (str_of_N_digits n) I).
        assert (A : forall s, s ++ "" = s) by (induction s0; simpl; congruence).
        now rewrite A in H. }
      rewrite E2. assert (Hn := str_of_N_nonempty n).
      destruct (str_of_N n); [congruence|reflexivity].
    + reflexivity.
  - apply str_of_N_digits.
  - destruct p; simpl; auto.
Qed.

Lemma match_at_no_underscore c1 c2 rest d :
  match_suffix_at (String c1 (String c2 rest)) = Some d -> has_char "_" rest = false.
Proof.
  cbn [match_suffix_at].
  destruct (Ascii.eqb c1 "_" && Ascii.eqb c2 "_"); [|discriminate].
  destruct (span_digits rest) as [dd r] eqn:E.
  apply span_digits_spec in E. destruct E as [E1 E2]. subst rest.
  destruct dd as [|c s]; [discriminate|].
  destruct r as [|c' r']; intro H.
  - rewrite has_char_app, (digits_no_char "_"); auto.
  - destruct (Ascii.eqb_spec c' ":") as [->|]; [|discriminate].
    destruct (span_digits r') as [d2 r2] eqn:E'.
    apply span_digits_spec in E'. destruct E' as [E3 E4]. subst r'.
    destruct d2; [discriminate|]. destruct r2; [|discriminate].
    rewrite has_char_app, (digits_no_char "_"); auto.
    cbn [has_char]. rewrite has_char_app.
    rewrite (digits_no_char "_" (String a d2)); auto.
Qed.

Lemma search_generated base k p :
  search_suffix (base ++ "__" ++ str_of_N k ++ port_suffix p) = Some (str_of_N k).
Proof.
  induction base as [|c base IH].
  - change ("" ++ "__" ++ str_of_N k ++ port_suffix p)
      with ("__" ++ str_of_N k ++ port_suffix p).
    assert (M := match_at_generated k p).
    destruct ("__" ++ str_of_N k ++ port_suffix p) eqn:E; [discriminate|].
    cbn [search_suffix]. now rewrite M.
  - change (String c base ++ "__" ++ str_of_N k ++ port_suffix p)
      with (String c (base ++ "__" ++ str_of_N k ++ port_suffix p)).
    cbn [search_suffix].
    destruct (match_suffix_at (String c (base ++ "__" ++ str_of_N k ++ port_suffix p)))
      as [d|] eqn:M; [|exact IH].
    exfalso. destruct base as [|c2 base].
    + apply match_at_no_underscore in M. discriminate M.
    + change (String c2 base ++ "__" ++ str_of_N k ++ port_suffix p)
        with (String c2 (base ++ "__" ++ str_of_N k ++ port_suffix p)) in M.
      apply match_at_no_underscore in M. rewrite has_char_app in M.
      change ("__" ++ str_of_N k ++ port_suffix p)
        with (String "_" ("_" ++ str_of_N k ++ port_suffix p)) in M.
      cbn [has_char] in M. change (Ascii.eqb "_" "_") with true in M.
      rewrite orb_true_r in M. discriminate.
Qed.

Lemma append_nil_r' s : s ++ "" = s.
Proof. induction s; simpl; congruence. Qed.

Lemma search_generated0 base k :
  search_suffix (base ++ "__" ++ str_of_N k) = Some (str_of_N k).
Proof.
  assert (H := search_generated base k None). cbn [port_suffix] in H.
  now rewrite append_nil_r' in H.
Qed.

Lemma generated_suffix_inj b1 k1 b2 k2 :
  b1 ++ "__" ++ str_of_N k1 = b2 ++ "__" ++ str_of_N k2 -> k1 = k2.
Proof.
  intro H. assert (S1 := search_generated0 b1 k1). rewrite H, search_generated0 in S1.
  apply str_of_N_inj. congruence.
Qed.

(** * initialize_name_counter *)

Lemma avoid_name_mono c s : (c <= avoid_name c s)%N.
Proof.
  unfold avoid_name. destruct (search_suffix s); [|lia].
  destruct (int_of_str _); lia.
Qed.

Lemma fold_avoid_mono l c : (c <= fold_left avoid_name l c)%N.
Proof.
  revert c. induction l as [|s l IH]; intro c; simpl; [lia|].
  assert (H := avoid_name_mono c s). specialize (IH (avoid_name c s)). lia.
Qed.

Lemma fold_avoid_bound l c s b k p :
  In s l -> s = b ++ "__" ++ str_of_N k ++ port_suffix p ->
  (k < fold_left avoid_name l c)%N.
Proof.
  revert c. induction l as [|t l IH]; intros c Hin Hs; [destruct Hin|].
  simpl. destruct Hin as [->|Hin]; [|now apply IH].
  subst s.
  assert (M := fold_avoid_mono l (avoid_name c (b ++ "__" ++ str_of_N k ++ port_suffix p))).
  assert (k < avoid_name c (b ++ "__" ++ str_of_N k ++ port_suffix p))%N.
  { unfold avoid_name. rewrite search_generated, int_of_str_of_N. lia. }
  lia.
Qed.

Lemma init_mono c m : (c <= initialize_name_counter c m)%N.
Proof.
  unfold initialize_name_counter. destruct (get_subgraphs _ _); [|lia].
  apply fold_avoid_mono.
Qed.

Lemma run_names_bound ops c c' ss :
  run_names c ops = (c', ss) ->
  (c <= c')%N /\
  forall s, In s ss -> exists b k, s = b ++ "__" ++ str_of_N k /\ (c < k <= c')%N.
Proof.
  revert c c' ss. induction ops as [|o ops IH]; intros c c' ss H.
  - inversion H; subst. split; [lia|]. intros s [].
  - destruct o as [b|m]; cbn [run_names make_name] in H.
    + destruct (run_names (c + 1) ops) as [c2 ss2] eqn:E. inversion H; subst.
      destruct (IH _ _ _ E) as [L F]. split; [lia|].
      intros s [<-|Hin].
      * exists b, (c + 1)%N. split; auto. lia.
      * destruct (F s Hin) as (b' & k & -> & Hk). exists b', k. split; auto. lia.
    + destruct (IH _ _ _ H) as [L F]. assert (M := init_mono c m). split; [lia|].
      intros s Hin. destruct (F s Hin) as (b' & k & -> & Hk). exists b', k. split; auto. lia.
Qed.

Lemma run_names_nodup ops c : NoDup (snd (run_names c ops)).
Proof.
  revert c. induction ops as [|o ops IH]; intro c; [constructor|].
  destruct o as [b|m]; cbn [run_names make_name].
  - specialize (IH (c + 1)%N). destruct (run_names (c + 1) ops) as [c2 ss2] eqn:E.
    simpl in *. constructor; auto.
    intro Hin. destruct (run_names_bound _ _ _ _ E) as [_ F].
    destruct (F _ Hin) as (b' & k & Heq & Hk).
    apply generated_suffix_inj in Heq. lia.
  - apply IH.
Qed.

(** ** the DFS visits every graph of the model *)


Definition sizes (l : list pgraph) : nat := fold_right (fun g acc => pgraph_size g + acc) 0 l.

Lemma sizes_app a b : sizes (a ++ b) = sizes a + sizes b.
Proof. induction a; simpl; auto. rewrite IHa. lia. Qed.
Lemma sizes_rev a : sizes (rev a) = sizes a.
Proof. induction a; simpl; auto. rewrite sizes_app, IHa. simpl. lia. Qed.
Lemma size_unfold g : pgraph_size g = S (sizes (flat_map pn_graphs (pg_nodes g))).
Proof.
  destruct g as [ns i j]. cbn [pgraph_size pg_nodes]. f_equal.
  induction ns as [|n ns IH]; simpl; auto.
  rewrite sizes_app, IH. destruct n as [s o gs]. reflexivity.
Qed.

Lemma get_subgraphs_total fuel stack :
  sizes stack <= fuel ->
  exists gs, get_subgraphs fuel stack = Some gs /\
             forall g h, In g stack -> graph_in h g -> In h gs.
Proof.
  revert stack. induction fuel as [|fuel IH]; intros stack Hf.
  - destruct stack as [|g st].
    + exists []. split; [reflexivity|intros g h []].
    + simpl in Hf. rewrite size_unfold in Hf. lia.
  - destruct stack as [|g st].
    + exists []. split; [reflexivity|intros g h []].
    + cbn [get_subgraphs].
      destruct (IH (rev (flat_map pn_graphs (pg_nodes g)) ++ st)%list) as (gs & E & F).
      { rewrite sizes_app, sizes_rev. simpl in Hf. rewrite size_unfold in Hf. lia. }
      rewrite E. exists (g :: gs). split; auto.
      intros g' h [<-|Hin] Hg.
      * inversion Hg; subst; [left; auto|].
        right. apply (F sub); auto. apply in_or_app. left. apply -> in_rev.
        apply in_flat_map. eauto.
      * right. apply (F g'); auto. apply in_or_app. auto.
Qed.


Lemma init_bound c m s b k p :
  scanned_name m s -> s = b ++ "__" ++ str_of_N k ++ port_suffix p ->
  (k < initialize_name_counter c m)%N.
Proof.
  intros (g & n & Hg & Hn & Hs) Heq. unfold initialize_name_counter.
  destruct (get_subgraphs_total (pgraph_size m) [m]) as (gs & E & F).
  { simpl. lia. }
  rewrite E. eapply fold_avoid_bound; [|exact Heq].
  unfold scan_names. apply in_flat_map. exists g. split; [apply (F m); simpl; auto|].
  apply in_flat_map. exists n. split; auto. simpl. destruct Hs; auto.
Qed.

Lemma generated_fresh c m ops s p :
  In s (snd (run_names (initialize_name_counter c m) ops)) ->
  ~ scanned_name m (s ++ port_suffix p).
Proof.
  intros Hin Hsc.
  destruct (run_names (initialize_name_counter c m) ops) as [c' ss] eqn:E.
  destruct (run_names_bound _ _ _ _ E) as [_ F]. destruct (F s Hin) as (b & k & -> & Hk).
  assert (k < initialize_name_counter c m)%N.
  { apply (init_bound c m _ b k p Hsc). rewrite !append_assoc'. reflexivity. }
  lia.
Qed.

(** * node_name / port_name *)

Lemma node_name_no_colon s : has_char ":" s = false -> node_name s = s.
Proof.
  induction s as [|c s IH]; simpl; auto. intro H. apply orb_false_iff in H.
  destruct H as [-> H]. now rewrite IH.
Qed.

Lemma node_name_port s n : has_char ":" s = false -> node_name (port_name s n) = s.
Proof.
  unfold port_name. induction s as [|c s IH]; [reflexivity|].
  change (String c s ++ ":" ++ str_of_N n) with (String c (s ++ ":" ++ str_of_N n)).
  cbn [has_char node_name]. intro H. apply orb_false_iff in H. destruct H as [-> H]. now rewrite IH.
Qed.

Lemma app_inv_head_str a b c : a ++ b = a ++ c -> b = c.
Proof. induction a; simpl; auto. intro H. inversion H. auto. Qed.

Lemma port_name_inj a n b m :
  has_char ":" a = false -> has_char ":" b = false ->
  port_name a n = port_name b m -> a = b /\ n = m.
Proof.
  intros Ha Hb H. assert (E := node_name_port a n Ha). rewrite H, node_name_port in E by auto.
  subst b. split; auto. unfold port_name in H. apply app_inv_head_str in H.
  apply str_of_N_inj. inversion H. auto.
Qed.

Lemma node_name_idem s : node_name (node_name s) = node_name s.
Proof.
  induction s as [|c s IH]; simpl; auto.
  destruct (Ascii.eqb c ":") eqn:E; simpl; auto. now rewrite E, IH.
Qed.

(** * combine_seeds *)
Local Open Scope Z_scope.

Lemma triangular_even s : (s + 1) * (s + 2) = 2 * ((s + 1) * (s + 2) / 2).
Proof.
  assert (H : ((s + 1) * (s + 2)) mod 2 = 0).
  { rewrite Z.mul_mod by lia.
    assert (E : (s + 1) mod 2 = 0 \/ (s + 2) mod 2 = 0).
    { pose proof (Z.div_mod (s+1) 2). pose proof (Z.mod_pos_bound (s+1) 2).
      pose proof (Z.div_mod (s+2) 2). pose proof (Z.mod_pos_bound (s+2) 2). lia. }
    destruct E as [-> | ->]; [reflexivity|]. now rewrite Z.mul_0_r. }
  apply Z.div_exact in H; lia.
Qed.

Lemma combine_inj a b c d :
  0 <= a -> 0 <= b -> 0 <= c -> 0 <= d ->
  ((a + b + 1) * (a + b + 2)) / 2 - a = ((c + d + 1) * (c + d + 2)) / 2 - c ->
  a = c /\ b = d.
Proof.
  intros Ha Hb Hc Hd H.
  assert (E1 := triangular_even (a + b)). assert (E2 := triangular_even (c + d)).
  set (x := (a + b + 1) * (a + b + 2) / 2) in *.
  set (y := (c + d + 1) * (c + d + 2) / 2) in *.
  assert (mono : forall s t, 0 <= s -> s < t -> (s + 1) * (s + 2) + 2 * (t + 1) <= (t + 1) * (t + 2)).
  { intros s t H0 H1.
    assert ((s + 1) * (s + 2) <= t * (t + 1)) by (apply Z.mul_le_mono_nonneg; lia). lia. }
  assert (E : a + b = c + d).
  { destruct (Z.lt_trichotomy (a + b) (c + d)) as [L|[L|L]]; [|exact L|].
    - assert (M := mono (a + b) (c + d)). lia.
    - assert (M := mono (c + d) (a + b)). lia. }
  assert (x = y) by (unfold x, y; rewrite E; reflexivity). lia.
Qed.

Lemma float_exact n : 0 <= n < 2 ^ 53 -> float_of_Z n = n.
Proof.
  intro H. unfold float_of_Z.
  assert (Z.log2 n <= 52).
  { destruct (Z.eq_dec n 0) as [->|]; [cbn; lia|].
    assert (Z.log2 n < 53) by (apply Z.log2_lt_pow2; lia). lia. }
  destruct (Z.leb_spec (Z.log2 n - 52) 0); lia.
Qed.

Lemma combine_seeds_int_inj a b c d :
  0 <= a -> 0 <= b -> 0 <= c -> 0 <= d ->
  combine_seeds_int a b = combine_seeds_int c d -> a = c /\ b = d.
Proof.
  intros Ha Hb Hc Hd. unfold combine_seeds_int.
  destruct (negb (a =? 0) || negb (b =? 0)) eqn:E1;
  destruct (negb (c =? 0) || negb (d =? 0)) eqn:E2; intro H; try discriminate.
  - inversion H. now apply combine_inj.
  - rewrite !orb_false_iff, !negb_false_iff, !Z.eqb_eq in *. lia.
Qed.

Lemma combine_bound a b B :
  0 <= a -> 0 <= b -> 0 <= B -> (a + b + 1) * (a + b + 2) < 2 * B ->
  forall v, combine_seeds_int a b = Some v -> 0 <= v < B.
Proof.
  intros Ha Hb HB H v. unfold combine_seeds_int.
  destruct (negb (a =? 0) || negb (b =? 0)); [|discriminate].
  intro E. inversion E; subst v. assert (T := triangular_even (a + b)). nia.
Qed.

Lemma combine_seeds_inj a b c d :
  0 <= a -> 0 <= b -> 0 <= c -> 0 <= d ->
  (a + b + 1) * (a + b + 2) < 2 ^ 54 -> (c + d + 1) * (c + d + 2) < 2 ^ 54 ->
  combine_seeds a b = combine_seeds c d -> a = c /\ b = d.
Proof.
  intros Ha Hb Hc Hd B1 B2 H. apply combine_seeds_int_inj; auto.
  unfold combine_seeds in H.
  change (2 ^ 54) with (2 * 2 ^ 53) in *.
  destruct (combine_seeds_int a b) as [v|] eqn:E1; destruct (combine_seeds_int c d) as [w|] eqn:E2;
    try discriminate; auto.
  apply combine_bound with (B := 2 ^ 53) in E1; auto; [|lia].
  apply combine_bound with (B := 2 ^ 53) in E2; auto; [|lia].
  rewrite !float_exact in H by lia. exact H.
Qed.

Lemma combine_seeds_none a b : combine_seeds a b = None <-> a = 0 /\ b = 0.
Proof.
  unfold combine_seeds, combine_seeds_int.
  destruct (Z.eqb_spec a 0); destruct (Z.eqb_spec b 0); simpl; split; intros; try discriminate; try lia; auto.
Qed.
Local Close Scope Z_scope.

(** * External names *)

Lemma sanitize_app a b : sanitize (a ++ b) = sanitize a ++ sanitize b.
Proof. induction a; simpl; congruence. Qed.

Lemma digit_not_bad c : is_digit c = true -> bad_char c = false.
Proof.
  unfold is_digit, bad_char. generalize (N_of_ascii c). intros n H.
  apply andb_true_iff in H. destruct H as [H1 H2].
  apply N.leb_le in H1, H2. cbn [existsb].
  repeat match goal with |- context [N.eqb n ?k] => destruct (N.eqb_spec n k); [lia|] end.
  reflexivity.
Qed.

Lemma sanitize_digits s : all_digits s = true -> sanitize s = s.
Proof.
  induction s as [|c s IH]; simpl; auto. intro H. apply andb_true_iff in H. destruct H as [H1 H2].
  rewrite digit_not_bad, IH; auto.
Qed.

Lemma external_name_form name k :
  external_name name k = sanitize (strip name) ++ "_" ++ str_of_N k.
Proof.
  unfold external_name. rewrite !sanitize_app, (sanitize_digits (str_of_N k)); auto.
  apply str_of_N_digits.
Qed.

(** digits after the last "_" *)
Lemma last_underscore_inj a b s t :
  has_char "_" s = false -> has_char "_" t = false ->
  a ++ "_" ++ s = b ++ "_" ++ t -> s = t.
Proof.
  intros Hs Ht. revert b. induction a as [|c a IH]; intros b H.
  - destruct b as [|d b]; simpl in H; [congruence|].
    inversion H; subst. rewrite has_char_app in Hs. simpl in Hs.
    rewrite orb_true_r in Hs. discriminate.
  - destruct b as [|d b]; simpl in H.
    + inversion H; subst. rewrite has_char_app in Ht. simpl in Ht.
      rewrite orb_true_r in Ht. discriminate.
    + inversion H. eapply IH; eauto.
Qed.

Lemma external_name_inj n1 k1 n2 k2 : external_name n1 k1 = external_name n2 k2 -> k1 = k2.
Proof.
  rewrite !external_name_form. intro H. apply str_of_N_inj.
  eapply last_underscore_inj; [| |exact H]; apply digits_no_char; auto; apply str_of_N_digits.
Qed.

Lemma endswith_app_digits suffix a s :
  endswith suffix (a ++ s) = true ->
  exists p q, a ++ s = p ++ q /\ q = suffix.
Proof.
  generalize (a ++ s). intro t. induction t as [|c t IH]; cbn [endswith]; intro H.
  - rewrite orb_false_r in H. apply String.eqb_eq in H. subst. exists "", "". auto.
  - apply orb_true_iff in H. destruct H as [H|H].
    + apply String.eqb_eq in H. subst. exists "". eexists. split; [reflexivity|]; auto.
    + destruct (IH H) as (p & q & -> & ->). exists (String c p), suffix. auto.
Qed.

Lemma last_char_app a b c d : a ++ String c "" = b ++ String d "" -> c = d.
Proof.
  revert b. induction a as [|x a IH]; intros b H; destruct b as [|y b]; simpl in H.
  - inversion H; auto.
  - inversion H. destruct b; discriminate.
  - inversion H. destruct a; discriminate.
  - inversion H. eapply IH; eauto.
Qed.

Lemma split_last s : s <> "" -> exists p c, s = p ++ String c "".
Proof.
  induction s as [|c s IH]; [congruence|]. intros _. destruct s as [|c' s].
  - exists "", c. reflexivity.
  - destruct IH as (p & d & E); [discriminate|]. exists (String c p), d. simpl. congruence.
Qed.

Lemma external_name_not_onnx n k : endswith ".onnx" (external_name n k) = false.
Proof.
  rewrite external_name_form. destruct (endswith ".onnx" _) eqn:E; auto. exfalso.
  apply endswith_app_digits in E. destruct E as (p & q & E & ->).
  destruct (split_last (str_of_N k) (str_of_N_nonempty k)) as (s & c & Hs).
  assert (Hd := str_of_N_digits k). rewrite Hs in *.
  assert (c = "x"%char).
  { apply (last_char_app (sanitize (strip n) ++ "_" ++ s) (p ++ ".onn")).
    rewrite !append_assoc'. exact E. }
  subst c. assert (A : forall t, all_digits (t ++ "x") = false).
  { induction t as [|y t IHt]; simpl; auto. rewrite IHt. now rewrite andb_false_r. }
  rewrite A in Hd. discriminate.
Qed.

(** storage invariant *)
Definition st_inv {D} (s : storage D) : Prop :=
  NoDup (map fst (st_data s)) /\
  (forall k d, In (k, d) (st_data s) -> exists n i, k = external_name n i /\ (i < st_counter s)%N).

Lemma store_step {D} (s : storage D) n :
  st_inv s -> st_inv (fst (get_value_attr s n)).
Proof.
  intros [H1 H2]. unfold get_value_attr. destruct (assoc_nat _ _); [split; auto|].
  destruct (1024 <? cn_size n)%N; [|split; auto].
  split; simpl.
  - constructor; auto. intro Hin. apply in_map_iff in Hin. destruct Hin as ([k d] & E & Hin).
    simpl in E. subst k. destruct (H2 _ _ Hin) as (m & i & E & Hi).
    apply external_name_inj in E. lia.
  - intros k d [E|Hin].
    + inversion E; subst. exists (cn_name n), (st_counter s). split; auto. lia.
    + destruct (H2 _ _ Hin) as (m & i & E & Hi). exists m, i. split; auto. lia.
Qed.

Lemma assoc_str_in {D} (l : list (string * D)) k d :
  NoDup (map fst l) -> In (k, d) l -> assoc_str k l = Some d.
Proof.
  induction l as [|[k' d'] l IH]; simpl; intros Hn Hx; [destruct Hx|]. destruct Hx as [E|Hin].
  - inversion E; subst. now rewrite String.eqb_refl.
  - inversion Hn; subst. destruct (String.eqb_spec k k'); auto. subst.
    exfalso. apply H1. apply in_map_iff. exists (k', d). auto.
Qed.

Lemma get_value_attr_grows {D} (s : storage D) n x :
  In x (st_data s) -> In x (st_data (fst (get_value_attr s n))).
Proof.
  unfold get_value_attr. destruct (assoc_nat _ _); auto. destruct (1024 <? cn_size n)%N; simpl; auto.
Qed.
Lemma get_value_attr_nodes_grow {D} (s : storage D) n i k :
  assoc_nat i (st_nodes s) = Some k -> assoc_nat i (st_nodes (fst (get_value_attr s n))) = Some k.
Proof.
  unfold get_value_attr. destruct (assoc_nat (cn_id n) (st_nodes s)) eqn:E; auto.
  destruct (1024 <? cn_size n)%N; simpl; auto.
  intro H. destruct (Nat.eqb_spec i (cn_id n)); auto. congruence.
Qed.



Definition nodes_ok {D} (s : storage D) (ns : list (const_node D)) : Prop :=
  forall n k, In n ns -> assoc_nat (cn_id n) (st_nodes s) = Some k -> In (k, cn_data n) (st_data s).

Lemma store_all_correct {D} (ns : list (const_node D)) (s : storage D) :
  st_inv s -> coherent ns -> nodes_ok s ns ->
  let (s', ls) := store_all s ns in
  st_inv s' /\ (forall x, In x (st_data s) -> In x (st_data s')) /\
  Forall2 (fun n l => read_location s' l = Some (cn_data n)) ns ls.
Proof.
  revert s. induction ns as [|n ns IH]; intros s Hi Hc Hok.
  - simpl. repeat split; auto; apply Hi.
  - cbn [store_all].
    assert (G := get_value_attr_grows s n).
    assert (I1 := store_step s n Hi).
    destruct (get_value_attr s n) as [s1 l] eqn:E. simpl in G, I1.
    assert (Hok1 : nodes_ok s1 ns).
    { intros m k Hm Hk. unfold get_value_attr in E.
      destruct (assoc_nat (cn_id n) (st_nodes s)) eqn:En.
      - inversion E; subst. apply Hok; simpl; auto.
      - destruct (1024 <? cn_size n)%N.
        + inversion E; subst; clear E. simpl in Hk |- *.
          destruct (Nat.eqb_spec (cn_id m) (cn_id n)) as [e|e].
          * inversion Hk; subst. left. f_equal. apply Hc; simpl; auto.
          * right. apply Hok; simpl; auto.
        + inversion E; subst. apply Hok; simpl; auto. }
    assert (Hc1 : coherent ns) by (intros a b ? ?; apply Hc; simpl; auto).
    specialize (IH s1 I1 Hc1 Hok1).
    destruct (store_all s1 ns) as [s2 ls] eqn:E2.
    destruct IH as (I2 & G2 & F). repeat split; try apply I2; auto.
    constructor; auto.
    unfold get_value_attr in E.
    destruct (assoc_nat (cn_id n) (st_nodes s)) eqn:En.
    + inversion E; subst. simpl. apply assoc_str_in; [apply I2|]. apply G2.
      apply Hok; simpl; auto.
    + destruct (1024 <? cn_size n)%N; inversion E; subst; simpl; auto.
      apply assoc_str_in; [apply I2|]. apply G2. simpl. auto.
Qed.

Lemma store_all_inv {D} (ns : list (const_node D)) (s : storage D) :
  st_inv s -> st_inv (fst (store_all s ns)).
Proof.
  revert s. induction ns as [|n ns IH]; intros s H; auto.
  cbn [store_all]. assert (I1 := store_step s n H).
  destruct (get_value_attr s n) as [s1 l]. specialize (IH s1 I1).
  destruct (store_all s1 ns); auto.
Qed.

Lemma empty_inv {D} : st_inv (@empty_storage D).
Proof. split; simpl; [constructor|]. intros k d []. Qed.

Lemma load_zip_data {D} (ms : list (string * D)) mo data :
  (forall k d, In (k, d) ms -> endswith ".onnx" k = false) ->
  load_zip ms mo data = (mo, (rev ms ++ data)%list).
Proof.
  revert data. induction ms as [|[k d] ms IH]; intros data H; auto.
  cbn [load_zip]. rewrite (H k d) by (simpl; auto).
  rewrite IH by (intros; eapply H; simpl; eauto). simpl. now rewrite <- app_assoc.
Qed.

Lemma assoc_str_rev {D} (l : list (string * D)) k :
  NoDup (map fst l) -> assoc_str k (rev l) = assoc_str k l.
Proof.
  intro H. destruct (assoc_str k l) as [d|] eqn:E.
  - assert (In (k, d) l).
    { clear H. induction l as [|[k' d'] l IH]; [discriminate|]. simpl in *.
      destruct (String.eqb_spec k k'); [left; congruence|auto]. }
    apply assoc_str_in.
    + rewrite map_rev. now apply NoDup_rev.
    + apply -> in_rev. exact H0.
  - assert (forall d, ~ In (k, d) l).
    { clear H. intros d Hin. induction l as [|[k' d'] l IH]; [destruct Hin|]. simpl in *.
      destruct (String.eqb_spec k k'); [discriminate|]. destruct Hin; [congruence|auto]. }
    assert (forall d, ~ In (k, d) (rev l)) by (intros d Hin; apply in_rev in Hin; firstorder).
    clear - H1. induction (rev l) as [|[k' d'] r IH]; auto. simpl in *.
    destruct (String.eqb_spec k k'); [exfalso; subst; eapply H1; left; reflexivity|].
    apply IH. firstorder.
Qed.

Lemma zip_roundtrip {D} (model : D) (ns : list (const_node D)) :
  let s := fst (store_all empty_storage ns) in
  fst (load_zip (zip_members model s) None []) = Some model /\
  forall k, assoc_str k (snd (load_zip (zip_members model s) None [])) = assoc_str k (st_data s).
Proof.
  intro s. assert (I := store_all_inv ns _ (@empty_inv D)). fold s in I.
  unfold zip_members. cbn [load_zip]. change (endswith ".onnx" "__MODEL_PROTO.onnx") with true.
  cbv iota. rewrite load_zip_data.
  - simpl. split; auto. intro k. rewrite List.app_nil_r. apply assoc_str_rev. apply I.
  - intros k d Hin. destruct I as [_ I]. destruct (I _ _ Hin) as (n & i & -> & _).
    apply external_name_not_onnx.
Qed.

Lemma run_names_app c ops1 ops2 :
  run_names c (ops1 ++ ops2) =
  let (c1, s1) := run_names c ops1 in
  let (c2, s2) := run_names c1 ops2 in (c2, (s1 ++ s2)%list).
Proof.
  revert c. induction ops1 as [|o ops IH]; intro c; simpl.
  - now destruct (run_names c ops2).
  - destruct o as [b|m]; auto. rewrite IH.
    destruct (run_names (c + 1) ops) as [c1 s1]. now destruct (run_names c1 ops2).
Qed.

Lemma nodes_ok_empty {D} (ns : list (const_node D)) : nodes_ok empty_storage ns.
Proof. intros n k _ E. discriminate E. Qed.

Lemma external_data_ok {D} (ns : list (const_node D)) : coherent ns ->
  let (s, locs) := store_all empty_storage ns in
  NoDup (map fst (st_data s)) /\
  Forall2 (fun n l => read_location s l = Some (cn_data n)) ns locs.
Proof.
  intro Hc.
  assert (H := store_all_correct ns empty_storage empty_inv Hc (nodes_ok_empty ns)).
  destruct (store_all empty_storage ns) as [s locs]. destruct H as [[H1 _] [_ H2]]. exact (conj H1 H2).
Qed.
