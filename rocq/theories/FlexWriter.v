(** A FlexBuffer writer (not part of the repository: the counterpart of the reader, after the public format description),
    used to show that every value has a document (so that the format relation of FlexSpec is not vacuous) and that
    reading what was written gives the value back.  It uses 8 byte slots everywhere. *)
From Coq Require Import ZArith List Bool Lia.
From Verif Require Import FlexModel FlexSpec FlexProofs.
Import ListNotations.
Local Open Scope Z_scope.

Inductive slot := Inline (n : Z) | At (pos : Z).
Definition slot_bytes (off : Z) (s : slot) : list Z := uint_bytes 8 (match s with Inline n => n | At p => off - p end).
Fixpoint slots_bytes (off : Z) (ss : list slot) : list Z :=
  match ss with [] => [] | s :: ss' => slot_bytes off s ++ slots_bytes (off + 8) ss' end.
Definition u64 (n : Z) : list Z := uint_bytes 8 n.
Definition tybyte (e : slot * Z * nat) : Z := snd (fst e) * 4 + Z.of_nat (snd e).
Definition slot_of (e : slot * Z * nat) : slot := fst (fst e).

Fixpoint write_keys (buf : list Z) (ks : list (list Z)) : list Z * list slot :=
  match ks with
  | [] => (buf, [])
  | k :: ks' => let '(b, ss) := write_keys (buf ++ k ++ [0]) ks' in (b, At (len buf) :: ss)
  end.
Fixpoint write (v : value) (buf : list Z) {struct v} : list Z * (slot * Z * nat) :=
  match v with
  | VNull => (buf, (Inline 0, T_NULL, 0%nat))
  | VInt z => (buf, (Inline (z mod 2 ^ 64), T_INT, 0%nat))
  | VBool b => (buf, (Inline (if b then 1 else 0), T_BOOL, 0%nat))
  | VFloat bs => (buf ++ bs, (At (len buf), T_INDIRECT_FLOAT, if Nat.eqb (length bs) 4 then 2%nat else 3%nat))
  | VStr s => (buf ++ u64 (len s) ++ s ++ [0], (At (len buf + 8), T_STRING, 3%nat))
  | VBytes s => (buf ++ u64 (len s) ++ s, (At (len buf + 8), T_BLOB, 3%nat))
  | VList vs =>
      let fix go (vs : list value) (buf : list Z) : list Z * list (slot * Z * nat) :=
        match vs with [] => (buf, []) | v :: vs' => let '(b, e) := write v buf in let '(b', es) := go vs' b in (b', e :: es) end in
      let '(b, es) := go vs buf in
      (b ++ u64 (len vs) ++ slots_bytes (len b + 8) (map slot_of es) ++ map tybyte es, (At (len b + 8), T_VECTOR, 3%nat))
  | VMap kvs =>
      let fix go (vs : list (list Z * value)) (buf : list Z) : list Z * list (slot * Z * nat) :=
        match vs with [] => (buf, []) | (_, v) :: vs' => let '(b, e) := write v buf in let '(b', es) := go vs' b in (b', e :: es) end in
      let '(b0, es) := go kvs buf in
      let '(b1, ks) := write_keys b0 (map fst kvs) in
      let kv := len b1 + 8 in
      let b := b1 ++ u64 (len kvs) ++ slots_bytes kv ks in
      let t := len b + 24 in
      (b ++ slot_bytes (len b) (At kv) ++ u64 8 ++ u64 (len kvs) ++ slots_bytes t (map slot_of es) ++ map tybyte es, (At t, T_MAP, 3%nat))
  end.
Definition encode (v : value) : list Z :=
  let '(b, e) := write v [] in b ++ slot_bytes (len b) (slot_of e) ++ [tybyte e; 8].

(** the values FlexBuffers can represent *)
Inductive representable : value -> Prop :=
| r_null : representable VNull
| r_int z : - 2 ^ 63 <= z < 2 ^ 63 -> representable (VInt z)
| r_bool b : representable (VBool b)
| r_float bs : length bs = 4%nat \/ length bs = 8%nat -> representable (VFloat bs)
| r_str s : Forall is_byte s -> representable (VStr s)
| r_bytes s : representable (VBytes s)
| r_list vs : (forall v, In v vs -> representable v) -> representable (VList vs)
| r_map kvs : NoDup (map fst kvs) -> (forall k v, In (k, v) kvs -> nul_free k) -> (forall k v, In (k, v) kvs -> representable v) -> representable (VMap kvs).

Definition writes (ws : list value) (buf : list Z) : list Z * list (slot * Z * nat) :=
  (fix go (vs : list value) (buf : list Z) : list Z * list (slot * Z * nat) :=
        match vs with [] => (buf, []) | v :: vs' => let '(b, e) := write v buf in let '(b', es) := go vs' b in (b', e :: es) end) ws buf.
Lemma writes_cons v vs buf : writes (v :: vs) buf = let '(b, e) := write v buf in let '(b', es) := writes vs b in (b', e :: es).
Proof. reflexivity. Qed.
Lemma write_list vs buf : write (VList vs) buf =
  let '(b, es) := writes vs buf in
  (b ++ u64 (len vs) ++ slots_bytes (len b + 8) (map slot_of es) ++ map tybyte es, (At (len b + 8), T_VECTOR, 3%nat)).
Proof. reflexivity. Qed.
Lemma write_map kvs buf : write (VMap kvs) buf =
  let '(b0, es) := writes (map snd kvs) buf in
  let '(b1, ks) := write_keys b0 (map fst kvs) in
  let kv := len b1 + 8 in
  let b := b1 ++ u64 (len kvs) ++ slots_bytes kv ks in
  let t := len b + 24 in
  (b ++ slot_bytes (len b) (At kv) ++ u64 8 ++ u64 (len kvs) ++ slots_bytes t (map slot_of es) ++ map tybyte es, (At t, T_MAP, 3%nat)).
Proof.
  cbn [write].
  match goal with |- (let '(a, b) := ?G kvs buf in _) = _ => assert (E : forall kvs buf, G kvs buf = writes (map snd kvs) buf) end.
  { clear. induction kvs as [|[k v] kvs IH]; intro buf; [reflexivity|]. cbn [map snd]. rewrite writes_cons.
    destruct (write v buf) as [b e]. rewrite IH. reflexivity. }
  rewrite E. reflexivity.
Qed.

Definition extends (b full : list Z) : Prop := exists post, full = b ++ post.
Lemma extends_app b x full : extends (b ++ x) full -> extends b full.
Proof. intros (p & ->). exists (x ++ p). rewrite app_assoc. reflexivity. Qed.
Lemma extends_at b x full : extends (b ++ x) full -> bytes_at full (len b) x.
Proof. intros (p & ->). exists b, p. rewrite <- app_assoc. auto. Qed.
Lemma extends_at' b x y full : extends (b ++ x ++ y) full -> bytes_at full (len b) x.
Proof. rewrite app_assoc. intro E. apply extends_at. eapply extends_app; eauto. Qed.
Lemma extends_len b full : extends b full -> len b <= len full.
Proof. intros (p & ->). unfold len. rewrite app_length. lia. Qed.
Lemma len_app {A} (a b : list A) : len (a ++ b) = len a + len b.
Proof. unfold len. rewrite app_length. lia. Qed.
Lemma len_u64 n : len (u64 n) = 8. Proof. unfold u64, len. rewrite uint_bytes_length. reflexivity. Qed.
Lemma len_nonneg {A} (l : list A) : 0 <= len l. Proof. unfold len. lia. Qed.
Lemma zb3 : zbytes 3 = 8. Proof. reflexivity. Qed.
Lemma nb3 : nbytes 3 = 8%nat. Proof. reflexivity. Qed.

Lemma uint64_at full off n : 0 <= n < 2 ^ 63 -> bytes_at full off (u64 n) -> uint_at full off 3 n.
Proof. intros R A. split; [lia|]. split; [rewrite zb3; change (2 ^ (8 * 8)) with (2 * 2 ^ 63); lia|exact A]. Qed.
Lemma At_points full off p : 0 <= p <= off -> off < 2 ^ 63 -> bytes_at full off (slot_bytes off (At p)) -> points full off 3 p.
Proof. intros R L A. split; [lia|]. apply uint64_at; [lia|exact A]. Qed.

Lemma slots_len ss : forall off, len (slots_bytes off ss) = 8 * len ss.
Proof. induction ss as [|s ss IH]; intro off; [reflexivity|]. cbn [slots_bytes]. rewrite len_app, IH. unfold slot_bytes, len. rewrite uint_bytes_length. cbn [length]. lia. Qed.
Lemma slots_at full ss : forall off base, bytes_at full base (slots_bytes off ss) -> base = off -> forall i s, nth_error ss i = Some s ->
  bytes_at full (off + Z.of_nat i * 8) (slot_bytes (off + Z.of_nat i * 8) s).
Proof.
  induction ss as [|s ss IH]; intros off base A -> i s' E; [destruct i; discriminate|]. cbn [slots_bytes] in A. apply bytes_at_app in A. destruct A as [A1 A2].
  destruct i as [|i]; cbn [nth_error] in E.
  - inversion E; subst. replace (off + Z.of_nat 0 * 8) with off by lia. exact A1.
  - replace (off + Z.of_nat (S i) * 8) with ((off + 8) + Z.of_nat i * 8) by lia. eapply IH; eauto.
Qed.

Definition good_write v := forall buf, let '(b, (s, ty, tw)) := write v buf in
  extends buf b /\ 0 <= ty < 64 /\ (tw <= 3)%nat /\
  forall full off, extends b full -> len full < 2 ^ 63 -> len b <= off < 2 ^ 63 -> bytes_at full off (slot_bytes off s) -> stored full off 3 ty tw v.
Lemma writes_good vs : (forall v, In v vs -> good_write v) -> forall buf, let '(b, es) := writes vs buf in
  extends buf b /\ length es = length vs /\
  forall i v s ty tw, nth_error vs i = Some v -> nth_error es i = Some (s, ty, tw) ->
    0 <= ty < 64 /\ (tw <= 3)%nat /\
    forall full off, extends b full -> len full < 2 ^ 63 -> len b <= off < 2 ^ 63 -> bytes_at full off (slot_bytes off s) -> stored full off 3 ty tw v.
Proof.
  induction vs as [|v vs IH]; intros G buf.
  - cbn. split; [exists []; rewrite app_nil_r; auto|]. split; auto. intros [|i] ? ? ? ? E; discriminate.
  - rewrite writes_cons. pose proof (G v (or_introl eq_refl) buf) as Gv. destruct (write v buf) as [b [[s ty] tw]].
    assert (G' : forall v, In v vs -> good_write v) by (intros; apply G; right; auto).
    specialize (IH G' b). destruct (writes vs b) as [b' es]. destruct Gv as (E1 & T1 & W1 & S1). destruct IH as (E2 & L2 & S2).
    assert (EE : forall full, extends b' full -> extends b full). { intros full (p & ->). destruct E2 as (q & ->). exists (q ++ p). rewrite app_assoc. auto. }
    split; [destruct E1 as (p & ->); destruct E2 as (q & ->); exists (p ++ q); rewrite <- app_assoc; auto|].
    split; [cbn; lia|]. intros [|i] v' s' ty' tw' Ev Ee; cbn [nth_error] in *.
    + inversion Ev; inversion Ee; subst. split; auto. split; auto. intros full off Ef Lf Lo A. apply S1; auto.
      destruct E2 as (q & ->). rewrite len_app in Lo. pose proof (len_nonneg q). lia.
    + eapply S2; eauto.
Qed.
Lemma write_keys_good ks : forall buf, let '(b, ss) := write_keys buf ks in
  extends buf b /\ length ss = length ks /\
  forall i k s, nth_error ks i = Some k -> nth_error ss i = Some s -> exists p, s = At p /\ 0 <= p <= len b /\
    forall full, extends b full -> bytes_at full p (k ++ [0]).
Proof.
  induction ks as [|k ks IH]; intro buf.
  - cbn. split; [exists []; rewrite app_nil_r; auto|]. split; auto. intros [|i] ? ? E; discriminate.
  - cbn [write_keys]. specialize (IH (buf ++ k ++ [0])). destruct (write_keys (buf ++ k ++ [0]) ks) as [b ss]. destruct IH as (E & L & Hk).
    assert (EB : extends buf b) by (destruct E as (p & ->); exists ((k ++ [0]) ++ p); rewrite <- !app_assoc; auto).
    split; auto. split; [cbn; lia|]. intros [|i] k' s' Ek Es; cbn [nth_error] in *.
    + inversion Ek; inversion Es; subst. exists (len buf). split; auto. split; [split; [apply len_nonneg|apply extends_len; exact EB]|].
      intros full (p & ->). apply extends_at. destruct E as (q & ->). exists (q ++ p). rewrite <- !app_assoc. reflexivity.
    + eauto.
Qed.

Lemma value_ind' (P : value -> Prop) : P VNull -> (forall z, P (VInt z)) -> (forall b, P (VBool b)) -> (forall b, P (VFloat b)) ->
  (forall s, P (VStr s)) -> (forall s, P (VBytes s)) -> (forall vs, (forall v, In v vs -> P v) -> P (VList vs)) ->
  (forall kvs, (forall k v, In (k, v) kvs -> P v) -> P (VMap kvs)) -> forall v, P v.
Proof.
  intros H1 H2 H3 H4 H5 H6 H7 H8. fix IH 1. intros [|z|b|b|s|s|vs|kvs]; [exact H1|apply H2|apply H3|apply H4|apply H5|apply H6| |].
  - apply H7. induction vs as [|v vs IHv]; intros w I; [destruct I|]; destruct I as [E|I]; [rewrite <- E; apply IH|exact (IHv w I)].
  - apply H8. induction kvs as [|[k v] kvs IHv]; intros k' w I; [destruct I|]; destruct I as [E|I]; [injection E as <- <-; apply IH|exact (IHv k' w I)].
Qed.

Theorem write_good v : representable v -> good_write v.
Proof.
  induction v as [|z|b|bs|s|s|vs IH|kvs IH] using value_ind'; intros R buf; inversion R as [|? Rz| |? Rf|? Rs| |? Rl|? ND RK Rm]; subst.
  - cbn. split; [exists []; rewrite app_nil_r; auto|]. split; [cbv; split; [discriminate|reflexivity]|]. split; [lia|]. intros. constructor.
  - cbn. split; [exists []; rewrite app_nil_r; auto|]. split; [cbv; split; [discriminate|reflexivity]|]. split; [lia|].
    intros full off _ _ _ A. constructor. split; [lia|]. split; [rewrite zb3; exact Rz|exact A].
  - cbn. split; [exists []; rewrite app_nil_r; auto|]. split; [cbv; split; [discriminate|reflexivity]|]. split; [lia|].
    intros full off _ _ _ A. apply st_bool with (z := if b then 1 else 0).
    + apply uint64_at; [destruct b; lia|exact A].
    + destruct b; split; try discriminate; auto; intro N; exfalso; apply N; reflexivity.
  - cbn [write]. split; [eexists; reflexivity|]. split; [cbv; split; [discriminate|reflexivity]|].
    split; [destruct (Nat.eqb (length bs) 4); lia|]. intros full off E Lf Lo A. pose proof (len_nonneg buf). pose proof (len_nonneg bs). rewrite len_app in Lo.
    apply st_indirect_float with (t := len buf).
    + apply At_points; auto; lia.
    + destruct (Nat.eqb (length bs) 4); lia.
    + apply extends_at. exact E.
    + destruct Rf as [Rf|Rf]; rewrite Rf; reflexivity.
  - cbn [write]. split; [eexists; reflexivity|]. split; [cbv; split; [discriminate|reflexivity]|]. split; [lia|].
    intros full off E Lf Lo A. pose proof (len_nonneg buf). pose proof (len_nonneg s). rewrite !len_app, len_u64 in Lo. change (len [0]) with 1 in Lo.
    pose proof (extends_len _ _ E) as LE. rewrite !len_app, len_u64 in LE. change (len [0]) with 1 in LE.
    apply st_string with (t := len buf + 8).
    + apply At_points; auto; lia.
    + rewrite zb3. lia.
    + exact Rs.
    + rewrite zb3. replace (len buf + 8 - 8) with (len buf) by lia. apply uint64_at; [fold (len s); lia|]. eapply extends_at'; eauto.
    + rewrite app_assoc in E. apply extends_at in E. rewrite len_app, len_u64 in E. exact E.
  - cbn [write]. split; [eexists; reflexivity|]. split; [cbv; split; [discriminate|reflexivity]|]. split; [lia|].
    intros full off E Lf Lo A. pose proof (len_nonneg buf). pose proof (len_nonneg s). rewrite !len_app, len_u64 in Lo.
    pose proof (extends_len _ _ E) as LE. rewrite !len_app, len_u64 in LE.
    apply st_blob with (t := len buf + 8).
    + apply At_points; auto; lia.
    + rewrite zb3. replace (len buf + 8 - 8) with (len buf) by lia. apply uint64_at; [fold (len s); lia|]. eapply extends_at'; eauto.
    + rewrite app_assoc in E. apply extends_at in E. rewrite len_app, len_u64 in E. exact E.
  - rewrite write_list. pose proof (writes_good vs (fun v I => IH v I (Rl v I)) buf) as G. destruct (writes vs buf) as [b es]. destruct G as (E0 & L0 & S0).
    split; [destruct E0 as (p & ->); eexists; rewrite <- app_assoc; reflexivity|]. split; [cbv; split; [discriminate|reflexivity]|]. split; [lia|].
    intros full off E Lf Lo A. pose proof (len_nonneg b). rewrite !len_app, len_u64, slots_len in Lo.
    assert (LM : len (map slot_of es) = len vs) by (unfold len; rewrite map_length, L0; reflexivity).
    assert (LT : len (map tybyte es) = len vs) by (unfold len; rewrite map_length, L0; reflexivity). pose proof (len_nonneg vs).
    pose proof (extends_len _ _ E) as LE. rewrite !len_app, len_u64, slots_len, LM, LT in LE. rewrite LM, LT in Lo.
    assert (Eb : extends b full) by (eapply extends_app; eauto).
    assert (A1 : bytes_at full (len b + 8) (slots_bytes (len b + 8) (map slot_of es))).
    { rewrite app_assoc in E. apply extends_at' in E. rewrite len_app, len_u64 in E. exact E. }
    assert (A2 : bytes_at full (len b + 8 + len vs * 8) (map tybyte es)).
    { rewrite !app_assoc in E. apply extends_at in E. rewrite !len_app, len_u64, slots_len, LM in E. replace (len b + 8 + len vs * 8) with (len b + 8 + 8 * len vs) by lia. exact E. }
    apply st_vector with (t := len b + 8) (tys := map (fun e => (snd (fst e), snd e)) es).
    + apply At_points; auto; lia.
    + rewrite zb3. replace (len b + 8 - 8) with (len b) by lia. apply uint64_at; [fold (len vs); lia|]. eapply extends_at'; eauto.
    + rewrite map_length. exact L0.
    + intros i v ty tw Ev Et. rewrite nth_error_map in Et. destruct (nth_error es i) as [[[s ty'] tw']|] eqn:Ee; [|discriminate]. cbn in Et. inversion Et; subst.
      destruct (S0 _ _ _ _ _ Ev Ee) as (T & W & _). split; auto. split; auto. rewrite zb3. fold (len vs).
      eapply bytes_at_nth; [exact A2|]. rewrite nth_error_map, Ee. reflexivity.
    + intros i v ty tw Ev Et. rewrite nth_error_map in Et. destruct (nth_error es i) as [[[s ty'] tw']|] eqn:Ee; [|discriminate]. cbn in Et. inversion Et; subst.
      destruct (S0 _ _ _ _ _ Ev Ee) as (T & W & Sv). rewrite zb3.
      assert (Li : (i < length vs)%nat) by (apply nth_error_Some; congruence).
      apply Sv; auto; [unfold len in *; lia|].
      eapply slots_at; eauto. rewrite nth_error_map, Ee. reflexivity.
  - rewrite write_map.
    assert (G0 : forall v, In v (map snd kvs) -> good_write v).
    { intros v I. apply in_map_iff in I. destruct I as ([k v'] & <- & I). eapply IH; eauto. }
    pose proof (writes_good (map snd kvs) G0 buf) as G. destruct (writes (map snd kvs) buf) as [b0 es]. destruct G as (E0 & L0 & S0).
    pose proof (write_keys_good (map fst kvs) b0) as GK. destruct (write_keys b0 (map fst kvs)) as [b1 ks]. destruct GK as (E1 & L1 & S1).
    cbv zeta. set (kv := len b1 + 8). set (b := b1 ++ u64 (len kvs) ++ slots_bytes kv ks). set (t := len b + 24).
    rewrite map_length in L0, L1.
    assert (LM : len (map slot_of es) = len kvs) by (unfold len; rewrite map_length, L0; reflexivity).
    assert (LT : len (map tybyte es) = len kvs) by (unfold len; rewrite map_length, L0; reflexivity).
    assert (LK : len ks = len kvs) by (unfold len; rewrite L1; reflexivity).
    assert (Lb : len b = len b1 + 8 + 8 * len kvs) by (unfold b; rewrite !len_app, len_u64, slots_len, LK; lia).
    pose proof (len_nonneg kvs). pose proof (len_nonneg b1). pose proof (len_nonneg b0). pose proof (extends_len _ _ E1) as LE1.
    split. { destruct E0 as (p & ->). destruct E1 as (q & ->). unfold b. exists (p ++ q ++ u64 (len kvs) ++ slots_bytes kv ks ++ slot_bytes (len b) (At kv) ++ u64 8 ++ u64 (len kvs) ++ slots_bytes t (map slot_of es) ++ map tybyte es).
             unfold b. rewrite <- !app_assoc. reflexivity. }
    split; [cbv; split; [discriminate|reflexivity]|]. split; [lia|].
    intros full off E Lf Lo A.
    assert (LSB : len (slot_bytes (len b) (At kv)) = 8) by (unfold slot_bytes, len; rewrite uint_bytes_length; reflexivity).
    rewrite !len_app, !len_u64, slots_len, LM, LT, LSB in Lo.
    pose proof (extends_len _ _ E) as LE. rewrite !len_app, !len_u64, slots_len, LM, LT, LSB in LE.
    assert (Eb : extends b full) by (eapply extends_app; eauto).
    assert (Eb1 : extends b1 full) by (unfold b in Eb; eapply extends_app; eauto).
    assert (Eb0 : extends b0 full). { destruct E1 as (q & ->). eapply extends_app; eauto. }
    assert (A0 : bytes_at full (len b) (slot_bytes (len b) (At kv))) by (eapply extends_at'; eauto).
    assert (A1 : bytes_at full (len b + 8) (u64 8)). { rewrite app_assoc in E. apply extends_at' in E. rewrite len_app, LSB in E. exact E. }
    assert (A2 : bytes_at full (len b + 16) (u64 (len kvs))).
    { rewrite app_assoc, app_assoc in E. apply extends_at' in E. rewrite !len_app, LSB, len_u64 in E. replace (len b + 16) with (len b + 8 + 8) by lia. exact E. }
    assert (A3 : bytes_at full t (slots_bytes t (map slot_of es))).
    { rewrite app_assoc, app_assoc, app_assoc in E. apply extends_at' in E. rewrite !len_app, LSB, !len_u64 in E. unfold t at 1. replace (len b + 24) with (len b + 8 + 8 + 8) by lia. exact E. }
    assert (A4 : bytes_at full (t + len kvs * 8) (map tybyte es)).
    { rewrite !app_assoc in E. apply extends_at in E. rewrite !len_app, LSB, !len_u64, slots_len, LM in E. unfold t. replace (len b + 24 + len kvs * 8) with (len b + 8 + 8 + 8 + 8 * len kvs) by lia. exact E. }
    assert (AK : bytes_at full kv (slots_bytes kv ks)).
    { unfold b in Eb. rewrite app_assoc in Eb. apply extends_at in Eb. rewrite !len_app, len_u64 in Eb. exact Eb. }
    apply st_map with (t := t) (kv := kv) (kw := 3%nat) (tys := map (fun e => (snd (fst e), snd e)) es).
    + apply At_points; auto; unfold t; lia.
    + rewrite zb3. unfold t. replace (len b + 24 - 8) with (len b + 16) by lia. apply uint64_at; [fold (len kvs); lia|]. exact A2.
    + rewrite map_length. exact L0.
    + exact ND.
    + rewrite zb3. unfold t. replace (len b + 24 - 8 * 3) with (len b) by lia. apply At_points; auto; unfold kv; lia.
    + lia.
    + rewrite zb3. unfold t. replace (len b + 24 - 8 * 2) with (len b + 8) by lia. apply uint64_at; [lia|]. exact A1.
    + intros i k v Ek. rewrite zb3. assert (Li : (i < length kvs)%nat) by (apply nth_error_Some; congruence).
      destruct (some_none ks i) as (s & Es); [lia|].
      destruct (S1 i k s) as (p & -> & Rp & Ap); [rewrite nth_error_map, Ek; reflexivity|exact Es|].
      apply st_key with (t := p).
      * apply At_points; [unfold kv; unfold len in *; lia|unfold kv; unfold len in *; lia|].
        eapply slots_at; eauto.
      * eapply RK. eapply nth_error_In; eauto.
      * apply Ap. exact Eb1.
    + intros i k v ty tw Ev Et. rewrite nth_error_map in Et. destruct (nth_error es i) as [[[s ty'] tw']|] eqn:Ee; [|discriminate]. cbn in Et. inversion Et; subst.
      destruct (S0 i v _ _ _ ltac:(rewrite nth_error_map, Ev; reflexivity) Ee) as (T & W & _). split; auto. split; auto. rewrite zb3. fold (len kvs).
      eapply bytes_at_nth; [exact A4|]. rewrite nth_error_map, Ee. reflexivity.
    + intros i k v ty tw Ev Et. rewrite nth_error_map in Et. destruct (nth_error es i) as [[[s ty'] tw']|] eqn:Ee; [|discriminate]. cbn in Et. inversion Et; subst.
      destruct (S0 i v _ _ _ ltac:(rewrite nth_error_map, Ev; reflexivity) Ee) as (T & W & Sv). rewrite zb3.
      assert (Li : (i < length kvs)%nat) by (apply nth_error_Some; congruence).
      apply Sv; auto; [unfold t; unfold len in *; lia|].
      eapply slots_at; eauto. rewrite nth_error_map, Ee. reflexivity.
Qed.

Theorem encode_document v : representable v -> len (encode v) < 2 ^ 63 -> document (encode v) v.
Proof.
  intros R L. pose proof (write_good v R []) as G. unfold encode in *. destruct (write v []) as [b [[s ty] tw]]. destruct G as (_ & T & W & S0).
  cbn [slot_of tybyte fst snd] in *.
  exists b, (slot_bytes (len b) s), ty, tw, 3%nat. split; [lia|]. split; [exact W|]. split; [exact T|].
  split; [unfold slot_bytes; rewrite uint_bytes_length; reflexivity|]. split; [reflexivity|].
  pose proof (len_nonneg b). rewrite len_app in L. pose proof (len_nonneg (slot_bytes (len b) s ++ [ty * 4 + Z.of_nat tw; 8])).
  apply S0; auto.
  - eexists. reflexivity.
  - rewrite len_app. exact L.
  - unfold len in *. lia.
  - exists b, [ty * 4 + Z.of_nat tw; 8]. auto.
Qed.
