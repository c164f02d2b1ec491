From Coq Require Import String ZArith List Bool Lia.
From Verif Require Import Util FlexModel FlexSpec FlexProofs HandlerModel HandlerProofs WeightsModel WeightsSpec.
Import ListNotations.
Local Open Scope Z_scope.

Lemma u32_length n : length (u32 n) = 4%nat. Proof. apply uint_bytes_length. Qed.
Lemma len_app {A} (a b : list A) : len (a ++ b) = len a + len b.
Proof. unfold len. rewrite app_length. lia. Qed.
Lemma len_nonneg {A} (l : list A) : 0 <= len l. Proof. unfold len. lia. Qed.
Lemma len_u32 n : len (u32 n) = 4. Proof. unfold len. rewrite u32_length. reflexivity. Qed.
Lemma read_i32_at buf off n : 0 <= n < 2 ^ 31 -> bytes_at buf off (u32 n) -> read_i32 buf off = Some n.
Proof.
  intros R A. apply read_int_at. split; [lia|]. change (8 * zbytes 2) with 32. split; [change (2 ^ (32 - 1)) with (2 ^ 31); lia|].
  rewrite Z.mod_small by (change (2 ^ 32) with (2 * 2 ^ 31); lia). exact A.
Qed.
Lemma read_u32_at buf off n : 0 <= n < 2 ^ 32 -> bytes_at buf off (u32 n) -> read_u32 buf off = Some n.
Proof. intros R A. apply read_uint_at. split; [lia|]. split; [exact R|exact A]. Qed.

Lemma read_offsets_at buf : forall offs off, Forall (fun o => 0 <= o < 2 ^ 31) offs -> bytes_at buf off (concat (map u32 offs)) ->
  read_offsets buf off (length offs) = Some offs.
Proof.
  induction offs as [|o offs IH]; intros off F A; [reflexivity|]. inversion F; subst. cbn [map concat] in A. apply bytes_at_app in A.
  destruct A as [A1 A2]. cbn [length read_offsets]. rewrite (read_i32_at _ _ o) by auto. cbn [bind].
  rewrite len_u32 in A2. rewrite IH by auto. reflexivity.
Qed.
Lemma string_offsets_length ss : forall start, length (string_offsets start ss) = S (length ss).
Proof. induction ss as [|s ss IH]; intro start; cbn; auto. Qed.
Lemma string_offsets_snoc ss : forall start, string_offsets start ss = firstn (length ss) (string_offsets start ss) ++ [start + len (concat ss)].
Proof.
  induction ss as [|s ss IH]; intro start.
  - cbn. f_equal. unfold len. cbn. lia.
  - cbn [string_offsets length firstn app concat]. f_equal. rewrite IH at 1. do 2 f_equal. rewrite len_app. unfold len. lia.
Qed.
Lemma string_offsets_range ss : forall start o, 0 <= start -> In o (string_offsets start ss) -> start <= o <= start + len (concat ss).
Proof.
  induction ss as [|s ss IH]; intros start o P I.
  - cbn in I. destruct I as [<-|[]]. unfold len. cbn. lia.
  - cbn [string_offsets concat] in *. rewrite len_app. destruct I as [<-|I]; [pose proof (len_nonneg s); pose proof (len_nonneg (concat ss)); lia|].
    apply IH in I; [|unfold len; lia]. unfold len in *. lia.
Qed.
Lemma slice_at2 buf a b bs : bytes_at buf a bs -> b = a + len bs -> slice buf a b = bs.
Proof. intros A ->. apply slice_at; auto. Qed.
Lemma cut_at buf : forall ss start, bytes_at buf start (concat ss) -> cut buf (string_offsets start ss) = ss.
Proof.
  induction ss as [|s ss IH]; intros start A; [reflexivity|]. cbn [concat] in A. apply bytes_at_app in A. destruct A as [A1 A2].
  cbn [string_offsets]. pose proof (IH _ A2) as E. fold (len s). destruct ss as [|s2 ss2].
  - cbn [string_offsets cut]. rewrite (slice_at2 _ _ _ s) by auto. reflexivity.
  - cbn [string_offsets] in *. cbn [cut]. cbn [cut] in E. rewrite (slice_at2 _ _ _ s) by auto. f_equal. exact E.
Qed.
Theorem string_tensor_roundtrip ss : len (tflite_strings ss) < 2 ^ 31 -> parse_string_tensor (tflite_strings ss) = Some ss.
Proof.
  intro L. set (n := Z.of_nat (length ss)). set (offs := string_offsets (4 * (n + 2)) ss).
  assert (LO : len (concat (map u32 offs)) = 4 * (n + 1)).
  { assert (K : forall l, len (concat (map u32 l)) = 4 * len l).
    { induction l as [|x l IH]; [reflexivity|]. cbn [map concat]. rewrite len_app, len_u32, IH. unfold len. cbn [length]. lia. }
    rewrite K. unfold offs, len. rewrite string_offsets_length. unfold n. lia. }
  assert (LT : len (tflite_strings ss) = 4 * (n + 2) + len (concat ss)).
  { unfold tflite_strings. fold n offs. rewrite !len_app, len_u32, LO. lia. }
  rewrite LT in L. pose proof (len_nonneg (concat ss)). assert (Pn : 0 <= n) by (unfold n; lia).
  set (buf := tflite_strings ss) in *.
  assert (A1 : bytes_at buf 0 (u32 n)) by (exists [], (concat (map u32 offs) ++ concat ss); auto).
  assert (A2 : bytes_at buf 4 (concat (map u32 offs))). { exists (u32 n), (concat ss). split; auto. }
  assert (A3 : bytes_at buf (4 * (n + 2)) (concat ss)).
  { exists (u32 n ++ concat (map u32 offs)), []. split; [unfold buf, tflite_strings; fold n offs; rewrite app_nil_r, <- app_assoc; auto|].
    fold (len (u32 n ++ concat (map u32 offs))). rewrite len_app, len_u32, LO. lia. }
  assert (SN := string_offsets_snoc ss (4 * (n + 2))). fold offs in SN.
  unfold parse_string_tensor. rewrite (read_i32_at _ _ n) by (auto; lia). cbn [bind]. replace (Z.to_nat n) with (length ss) by (unfold n; lia).
  rewrite SN, map_app, concat_app in A2. apply bytes_at_app in A2. destruct A2 as [A2 _].
  assert (LF : length (firstn (length ss) offs) = length ss) by (unfold offs; rewrite firstn_length, string_offsets_length; lia).
  rewrite <- LF at 1. rewrite (read_offsets_at buf _ 4) by (auto; apply Forall_forall; intros o I;
    assert (I' : In o offs) by (rewrite SN; apply in_app_iff; auto); apply string_offsets_range in I'; lia).
  cbn [bind]. f_equal. replace (len buf) with (4 * (n + 2) + len (concat ss)) by lia. rewrite <- SN. unfold offs. apply cut_at. exact A3.
Qed.

Lemma read_strings_at buf : forall l j, Forall (fun s => Z.of_nat (length s) < 2 ^ 32) l ->
  bytes_at buf j (content_bytes (CStrings l)) -> read_strings buf j (length l) = Some (l, j + len (content_bytes (CStrings l))).
Proof.
  induction l as [|s l IH]; intros j F A.
  - cbn. repeat f_equal. unfold len. cbn. lia.
  - inversion F; subst. cbn [content_bytes map concat] in A. rewrite <- app_assoc in A. apply bytes_at_app in A. destruct A as [A1 A2].
    rewrite len_u32 in A2. apply bytes_at_app in A2. destruct A2 as [A2 A3]. cbn [length read_strings].
    rewrite (read_u32_at buf j (Z.of_nat (length s))) by (auto; lia). cbn [bind]. fold (len s).
    rewrite IH by auto. cbn [bind fst snd]. rewrite (slice_at2 _ _ _ s) by auto. do 2 f_equal.
    cbn [content_bytes map concat]. rewrite !len_app, len_u32. fold (len s). cbn [content_bytes]. lia.
Qed.
Lemma elements_concat k : forall l rest, Forall (fun e : list Z => length e = k) l -> elements (length l) k (concat l ++ rest) = l.
Proof.
  induction l as [|e l IH]; intros rest F; [reflexivity|]. inversion F; subst. cbn [length elements concat].
  rewrite <- app_assoc. rewrite firstn_app, firstn_all, Nat.sub_diag, skipn_app, skipn_all, Nat.sub_diag. cbn [firstn skipn app].
  rewrite app_nil_r. f_equal. apply IH. auto.
Qed.
Lemma concat_fixed_len k (l : list (list Z)) : Forall (fun e => length e = k) l -> length (concat l) = (length l * k)%nat.
Proof. induction 1 as [|e l E F IH]; [reflexivity|]. cbn. rewrite app_length, IH, E. reflexivity. Qed.
Lemma strip_nul_spec s : without_nuls s (strip_nul s).
Proof.
  induction s as [|b s (N & n & E)].
  - split; [intros [|x p] H; discriminate|exists 0%nat; reflexivity].
  - cbn [strip_nul]. destruct (strip_nul s) as [|r rs] eqn:Er.
    + destruct (Z.eqb_spec b 0) as [->|Nb].
      * split; [exact N|]. exists (S n). cbn. f_equal. exact E.
      * split; [|exists n; cbn; f_equal; exact E]. intros [|x p] H; inversion H; subst; [congruence|]. destruct p; discriminate.
    + split; [|exists n; cbn; f_equal; exact E]. intros [|x p] H; inversion H; subst. exact (N _ H2).
Qed.
Lemma strip_nul_clean s : no_trailing_nul s -> strip_nul s = s.
Proof.
  intro N. destruct (strip_nul_spec s) as (_ & [|n] & E).
  - rewrite E at 2. cbn. rewrite app_nil_r. reflexivity.
  - exfalso. replace (S n) with (n + 1)%nat in E by lia. rewrite repeat_app, app_assoc in E. exact (N _ E).
Qed.
Lemma strip_all_clean l : Forall no_trailing_nul l -> map strip_nul l = l.
Proof. induction 1 as [|s l N F IH]; [reflexivity|]. cbn. rewrite IH, strip_nul_clean by auto. reflexivity. Qed.
Lemma strip_all_spec l : Forall2 without_nuls l (map strip_nul l).
Proof. induction l; constructor; auto using strip_nul_spec. Qed.
Lemma read_weight_at w c buf i : conforms w c -> nul_clean c -> bytes_at buf i (content_bytes c) -> read_weight w buf i = Some (c, len (content_bytes c)).
Proof.
  unfold conforms, read_weight. destruct (wstore w) as [|k]; destruct c as [l|l]; try contradiction; intros (E & F) NC A.
  - unfold read_string_weight, wcount. rewrite <- E. rewrite (read_strings_at buf l i F A). cbn [bind fst snd]. cbn in NC. rewrite strip_all_clean by auto. do 2 f_equal. lia.
  - destruct (bytes_at_bounds _ _ _ A) as [B1 B2]. cbn [content_bytes] in *. unfold wcount. rewrite <- E.
    assert (CL := concat_fixed_len k l F). unfold frombuffer.
    destruct (Z.leb_spec 0 i); [|lia]. unfold len at 1 in B2. rewrite CL in B2.
    destruct (Z.leb_spec (i + Z.of_nat (length l * k)) (len buf)); [|lia]. cbn [andb bind].
    destruct A as (pre & post & -> & <-). rewrite Nat2Z.id, skipn_app, skipn_all, Nat.sub_diag. cbn [skipn app].
    rewrite elements_concat by auto. do 2 f_equal. unfold len. rewrite CL. reflexivity.
Qed.
Lemma read_all_at buf : forall ws cs i, Forall2 conforms ws cs -> Forall nul_clean cs -> bytes_at buf i (concat (map content_bytes cs)) ->
  read_all ws buf i = Some (combine (map wname ws) cs, i + len (concat (map content_bytes cs))).
Proof.
  intros ws cs i F. revert i. induction F as [|w c ws cs Cw F IH]; intros i NC A.
  - cbn. repeat f_equal. unfold len. cbn. lia.
  - inversion NC; subst. cbn [map concat] in A. apply bytes_at_app in A. destruct A as [A1 A2]. cbn [read_all].
    rewrite (read_weight_at w c buf i Cw ltac:(auto) A1). cbn [bind snd fst]. rewrite IH by auto. cbn [bind fst snd map combine concat]. rewrite len_app. do 2 f_equal. lia.
Qed.

(** converse: what a successful read says about the data *)
Lemma le_uint_range bs : Forall is_byte bs -> 0 <= le_uint bs < 256 ^ Z.of_nat (length bs).
Proof.
  induction 1 as [|b bs B F IH]; [cbn; lia|]. cbn [le_uint length]. rewrite Nat2Z.inj_succ, Z.pow_succ_r by lia. unfold is_byte in B. nia.
Qed.
Lemma uint_bytes_le bs : Forall is_byte bs -> uint_bytes (length bs) (le_uint bs) = bs.
Proof.
  induction 1 as [|b bs B F IH]; [reflexivity|]. cbn [length uint_bytes le_uint]. unfold is_byte in B.
  replace (b + 256 * le_uint bs) with (b + le_uint bs * 256) by lia.
  rewrite Z_mod_plus_full, Z.mod_small by lia. rewrite Z.div_add, Z.div_small by lia. cbn [Z.add]. rewrite IH. reflexivity.
Qed.

Lemma skipn_bytes_at buf a n : 0 <= a -> 0 <= n -> a + n <= len buf -> bytes_at buf a (slice buf a (a + n)) /\ len (slice buf a (a + n)) = n.
Proof.
  intros A N B. unfold slice, norm. destruct (Z.ltb_spec a 0); [lia|]. destruct (Z.ltb_spec (a + n) 0); [lia|].
  rewrite !Z.min_l by lia. replace (a + n - a) with n by lia. split.
  - exists (firstn (Z.to_nat a) buf), (skipn (Z.to_nat n) (skipn (Z.to_nat a) buf)). rewrite !firstn_skipn. split; auto.
    rewrite firstn_length. unfold len in B. lia.
  - unfold len in *. rewrite firstn_length, skipn_length. lia.
Qed.
Lemma bytes_at_Forall (P : Z -> Prop) buf a bs : Forall P buf -> bytes_at buf a bs -> Forall P bs.
Proof. intros F (p & q & -> & _). apply Forall_app in F. destruct F as [_ F]. apply Forall_app in F. tauto. Qed.
Lemma bytes_at_join buf t s s' : bytes_at buf t s -> bytes_at buf (t + len s) s' -> bytes_at buf t (s ++ s').
Proof.
  intros (p & q & E & L) (p' & q' & E' & L'). exists p, q'. split; auto.
  assert (p' = p ++ s).
  { apply (f_equal (firstn (length p'))) in E' as E1. rewrite firstn_app, firstn_all, Nat.sub_diag in E1. cbn [firstn] in E1. rewrite app_nil_r in E1.
    rewrite <- E1, E. replace (length p') with (length (p ++ s)) by (rewrite app_length; unfold len in L'; lia).
    rewrite app_assoc, firstn_app, firstn_all, Nat.sub_diag. cbn [firstn]. rewrite app_nil_r. reflexivity. }
  subst p'. rewrite E', <- !app_assoc. reflexivity.
Qed.
Lemma read_u32_inv buf j x : Forall is_byte buf -> 0 <= j -> read_u32 buf j = Some x ->
  0 <= x < 2 ^ 32 /\ bytes_at buf j (u32 x).
Proof.
  intros FB J E. unfold read_u32, read_uint, read_bytes_exact in E. cbn [Nat.leb] in E. change (size_of 2) with 4 in E.
  destruct (Z.eqb_spec (len (slice buf j (j + 4))) 4) as [L|]; [|discriminate]. cbn [option_map] in E. inversion E; subst x. clear E.
  assert (B : j + 4 <= len buf).
  { unfold len in L. unfold slice, norm in L. destruct (Z.ltb_spec j 0); [lia|]. destruct (Z.ltb_spec (j + 4) 0); [lia|].
    rewrite firstn_length, skipn_length in L. unfold len in *. lia. }
  destruct (skipn_bytes_at buf j 4 J ltac:(lia) B) as [A _]. assert (F := bytes_at_Forall _ _ _ _ FB A).
  set (bs := slice buf j (j + 4)) in *. assert (L' : length bs = 4%nat) by (unfold len in L; lia).
  pose proof (le_uint_range bs F) as R. rewrite L' in R. split; [exact R|]. unfold u32. rewrite <- L', uint_bytes_le by auto. exact A.
Qed.
Lemma read_strings_mono buf : Forall is_byte buf -> forall n j l j', 0 <= j -> read_strings buf j n = Some (l, j') -> j <= j' /\ length l = n.
Proof.
  intros FB. induction n as [|n IH]; intros j l j' J E; cbn [read_strings] in E; [inversion E; subst; cbn; lia|].
  destruct (read_u32 buf j) as [x|] eqn:Ex; [|discriminate]. cbn [bind] in E. apply read_u32_inv in Ex; auto. destruct Ex as [Ex _].
  destruct (read_strings buf (j + 4 + x) n) as [[l' j'']|] eqn:E'; [|discriminate]. cbn [bind fst snd] in E. inversion E; subst.
  apply IH in E'; [|lia]. cbn [length]. lia.
Qed.
Lemma read_strings_inv buf : Forall is_byte buf -> forall n j l j', 0 <= j -> j' <= len buf -> read_strings buf j n = Some (l, j') ->
  bytes_at buf j (content_bytes (CStrings l)) /\ j' = j + len (content_bytes (CStrings l)) /\ Forall (fun s => Z.of_nat (length s) < 2 ^ 32) l.
Proof.
  intros FB. induction n as [|n IH]; intros j l j' J B E; cbn [read_strings] in E.
  - inversion E; subst. cbn. unfold len. cbn. split; [|split; [lia|constructor]].
    exists (firstn (Z.to_nat j') buf), (skipn (Z.to_nat j') buf). cbn [app]. rewrite firstn_skipn. split; auto. rewrite firstn_length. unfold len in B. lia.
  - destruct (read_u32 buf j) as [x|] eqn:Ex; [|discriminate]. cbn [bind] in E. apply read_u32_inv in Ex; auto. destruct Ex as [Rx Ax].
    destruct (read_strings buf (j + 4 + x) n) as [[l' j'']|] eqn:E'; [|discriminate]. cbn [bind fst snd] in E. inversion E; subst.
    assert (J4 : 0 <= j + 4 + x) by lia. assert (M := read_strings_mono buf FB _ _ _ _ J4 E'). apply IH in E'; auto. destruct E' as (A & -> & F).
    destruct (skipn_bytes_at buf (j + 4) x ltac:(lia) ltac:(lia) ltac:(lia)) as [As Ls].
    set (s := slice buf (j + 4) (j + 4 + x)) in *. cbn [content_bytes map concat] in *.
    fold (len s) in *. rewrite Ls. rewrite <- app_assoc. split; [|split].
    + apply bytes_at_join; auto. rewrite len_u32. apply bytes_at_join; auto. rewrite Ls. exact A.
    + rewrite !len_app, len_u32, Ls. lia.
    + constructor; auto. fold (len s). rewrite Ls. lia.
Qed.
Lemma elements_inv k : forall n bs, (n * k <= length bs)%nat ->
  length (elements n k bs) = n /\ Forall (fun e => length e = k) (elements n k bs) /\ concat (elements n k bs) = firstn (n * k) bs.
Proof.
  induction n as [|n IH]; intros bs L; [cbn; auto|]. cbn [elements length concat]. cbn in L.
  destruct (IH (skipn k bs)) as (A & B & C); [rewrite skipn_length; lia|]. rewrite A, C. split; [auto|]. split.
  - constructor; auto. rewrite firstn_length. lia.
  - cbn [Nat.mul]. assert (E : firstn (k + n * k) (firstn k bs ++ skipn k bs) = firstn k bs ++ firstn (n * k) (skipn k bs)).
    { rewrite firstn_app, firstn_length, Nat.min_l by lia. replace (k + n * k - k)%nat with (n * k)%nat by lia. f_equal.
      apply firstn_all2. rewrite firstn_length. lia. }
    rewrite firstn_skipn in E. symmetry. exact E.
Qed.
Lemma read_weight_mono w buf i c k : Forall is_byte buf -> 0 <= i -> read_weight w buf i = Some (c, k) -> 0 <= k.
Proof.
  intros FB I E. unfold read_weight in E. destruct (wstore w) as [|sz].
  - unfold read_string_weight in E. destruct (read_strings buf i (wcount w)) as [[l j]|] eqn:Er; [|discriminate]. cbn [bind fst snd] in E.
    inversion E; subst. apply read_strings_mono in Er; auto. lia.
  - destruct (frombuffer buf i (wcount w) sz); [|discriminate]. cbn [bind] in E. inversion E; subst. lia.
Qed.
Lemma read_weight_inv w buf i c k : Forall is_byte buf -> 0 <= i -> i + k <= len buf -> read_weight w buf i = Some (c, k) ->
  exists c0, same_up_to_nuls c0 c /\ conforms w c0 /\ bytes_at buf i (content_bytes c0) /\ k = len (content_bytes c0).
Proof.
  intros FB I B E. unfold read_weight, conforms in *. destruct (wstore w) as [|sz].
  - unfold read_string_weight in E. destruct (read_strings buf i (wcount w)) as [[l j]|] eqn:Er; [|discriminate]. cbn [bind fst snd] in E.
    inversion E; subst. assert (M := read_strings_mono buf FB _ _ _ _ I Er). apply read_strings_inv in Er; auto; [|lia].
    destruct Er as (A & J & F). exists (CStrings l). split; [apply strip_all_spec|]. split; [split; [apply M|exact F]|]. split; [exact A|lia].
  - unfold frombuffer in E. destruct (Z.leb_spec 0 i); [|lia].
    destruct (Z.leb_spec (i + Z.of_nat (wcount w * sz)) (len buf)) as [Le|]; [|discriminate]. cbn [andb bind] in E. inversion E; subst. clear E.
    destruct (elements_inv sz (wcount w) (skipn (Z.to_nat i) buf)) as (A & F & C); [rewrite skipn_length; unfold len in Le; lia|].
    eexists (CFixed _). split; [reflexivity|]. split; [split; auto|]. cbn [content_bytes]. rewrite C.
    destruct (skipn_bytes_at buf i (Z.of_nat (wcount w * sz)) ltac:(lia) ltac:(lia) Le) as [D L].
    assert (Es : slice buf i (i + Z.of_nat (wcount w * sz)) = firstn (wcount w * sz) (skipn (Z.to_nat i) buf)).
    { unfold slice, norm. destruct (Z.ltb_spec i 0); [lia|]. destruct (Z.ltb_spec (i + Z.of_nat (wcount w * sz)) 0); [lia|].
      rewrite !Z.min_l by lia. f_equal. lia. }
    rewrite Es in *. split; auto.
Qed.
Lemma read_all_mono buf : Forall is_byte buf -> forall ws i r j, 0 <= i -> read_all ws buf i = Some (r, j) -> i <= j.
Proof.
  intros FB. induction ws as [|w ws IH]; intros i r j I E; cbn [read_all] in E; [inversion E; subst; lia|].
  destruct (read_weight w buf i) as [[c k]|] eqn:Ew; [|discriminate]. cbn [bind fst snd] in E.
  destruct (read_all ws buf (i + k)) as [[r' j']|] eqn:Er; [|discriminate]. cbn [bind fst snd] in E. inversion E; subst.
  apply read_weight_mono in Ew; auto. apply IH in Er; lia.
Qed.
Lemma read_all_inv buf : Forall is_byte buf -> forall ws i r j, 0 <= i -> j <= len buf -> read_all ws buf i = Some (r, j) ->
  exists cs cs', r = combine (map wname ws) cs' /\ Forall2 same_up_to_nuls cs cs' /\ Forall2 conforms ws cs /\ bytes_at buf i (concat (map content_bytes cs)) /\
    j = i + len (concat (map content_bytes cs)).
Proof.
  intros FB. induction ws as [|w ws IH]; intros i r j I B E; cbn [read_all] in E.
  - inversion E; subst. exists [], []. split; auto. split; [constructor|]. split; [constructor|]. cbn. split; [|unfold len; cbn; lia].
    exists (firstn (Z.to_nat j) buf), (skipn (Z.to_nat j) buf). cbn [app]. rewrite firstn_skipn. split; auto. rewrite firstn_length. unfold len in B. lia.
  - destruct (read_weight w buf i) as [[c k]|] eqn:Ew; [|discriminate]. cbn [bind fst snd] in E.
    destruct (read_all ws buf (i + k)) as [[r' j']|] eqn:Er; [|discriminate]. cbn [bind fst snd] in E. inversion E; subst.
    assert (Mk := read_weight_mono _ _ _ _ _ FB I Ew). assert (J4 : 0 <= i + k) by lia. assert (M := read_all_mono buf FB _ _ _ _ J4 Er).
    apply IH in Er; auto. destruct Er as (cs & cs' & -> & S & F & A & J).
    apply read_weight_inv in Ew; auto; [|lia]. destruct Ew as (c0 & Sc & Cw & Aw & K).
    exists (c0 :: cs), (c :: cs'). split; [reflexivity|]. split; [constructor; auto|]. split; [constructor; auto|]. cbn [map concat]. split.
    + apply bytes_at_join; auto. rewrite <- K. exact A.
    + rewrite len_app. lia.
Qed.
Lemma bytes_at_all buf bs : bytes_at buf 0 bs -> len buf = len bs -> buf = bs.
Proof.
  intros (p & q & -> & L) E. destruct p; [|cbn in L; lia]. rewrite !len_app in E. unfold len in E. destruct q; [|cbn in E; lia].
  cbn [app]. rewrite app_nil_r. reflexivity.
Qed.
Lemma dupdate_In {A} (x : string) (c : A) r : NoDup (map fst r) -> In (x, c) r -> dget (dupdate [] r) x = Some c.
Proof. intros ND I. rewrite dget_dupdate, lastof_nodup by auto. rewrite (In_dget _ _ _ ND I). reflexivity. Qed.
Lemma combine_fst {A B} (l : list A) : forall (m : list B), length l = length m -> map fst (combine l m) = l.
Proof. induction l as [|a l IH]; intros [|b m] E; try discriminate; [reflexivity|]. cbn. f_equal. apply IH. inversion E. auto. Qed.
Lemma F2_length {A B} (R : A -> B -> Prop) l m : Forall2 R l m -> length l = length m.
Proof. induction 1; cbn; auto. Qed.
