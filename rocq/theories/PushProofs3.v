(** Proofs about the transpose optimizer, continued: operators with several inputs, and Transpose replaced by Reshape. *)
From Coq Require Import List Arith ZArith Bool Lia Permutation.
From Verif Require Import Util Tensor TensorProofs OnnxSpec FoldModel FoldProofs FoldFunProofs B2BProofs NNSpec NNModel PushSpec PushModel PushProofs PushProofs2.
Import ListNotations.
Local Open Scope list_scope.
Local Open Scope nat_scope.

(** ** Reshape to a shape that is known up to one dimension *)
Lemma reshape_known {A} target sh (x y : tensor A) : describes target sh -> ~ In 0%Z target -> length (filter (Z.eqb (-1)) target) <= 1 -> size sh = size (shape x) ->
  (reshape_rel false target x y <-> wf x /\ y = Tensor sh (data x)).
Proof.
  intros D Z0 C S.
  assert (Ok : wf x -> reshape_rel false target x (Tensor sh (data x))).
  { intro W. unfold reshape_rel, wf. cbn [shape data]. unfold wf in W. do 2 (split; [congruence|]). split; auto. split; [symmetry; exact (F2_len _ _ _ D)|]. split; [|split; [auto|]].
    - intros k t d Ht Hd. unfold dim_ok. assert (K : t = (-1)%Z \/ t = Z.of_nat d).
      { clear -D Ht Hd. revert k Ht Hd. induction D as [|z n l l' H F IH]; intros [|k] Ht Hd; cbn in *; try discriminate; [inversion Ht; inversion Hd; subst; auto|eauto]. }
      destruct K as [-> | ->]; auto. right. right. assert (Ne : d <> 0) by (intro; subst; apply Z0; eapply nth_error_In; eauto). split; lia.
    - intros ix jx I J E. apply reshape_get; cbn; auto. }
  split; [|intros [W ->]; auto]. intro R. assert (W : wf x) by apply R. split; auto. eapply reshape_fun'; [|apply R|apply Ok; auto].
  intros _. destruct R as (_ & _ & _ & L & Dk & _). clear -Z0 L Dk.
  assert (Gn : forall target k l, ~ In 0%Z target -> (forall i t d, nth_error target i = Some t -> nth_error l i = Some d -> dim_ok false (shape x) (k + i) t d) -> others target l <> 0).
  { clear. induction target as [|t target IH]; intros k [|d l] Z0 H; cbn; try lia. destruct (Z.eqb_spec t (-1)).
    - apply (IH (S k)); [intro K; apply Z0; cbn; auto|]. intros i t' d' Y1 Y2. replace (S k + i) with (k + S i) by lia. apply (H (S i)); auto.
    - assert (H0 := H 0 t d eq_refl eq_refl). unfold dim_ok in H0. assert (Nt : t <> 0%Z) by (intro; subst; apply Z0; cbn; auto).
      assert (d <> 0) by (destruct H0 as [H0|[[H0 _]|[H0 ->]]]; [congruence|congruence|lia]).
      assert (others target l <> 0); [|lia]. apply (IH (S k)); [intro K; apply Z0; cbn; auto|]. intros i t' d' Y1 Y2. replace (S k + i) with (k + S i) by lia. apply (H (S i)); auto. }
  apply (Gn target 0); auto.
Qed.

(** ** Transpose as Reshape *)
(** row-major position read off the dimensions other than 1 *)
Fixpoint rv (l : list (nat * nat)) : nat * nat :=
  match l with [] => (0, 1) | (d, i) :: l' => let (r, s) := rv l' in (i * s + r, d * s) end.
Lemma rv_ravel : forall sh ix, inb ix sh -> rv (filter (fun di => negb (Nat.eqb (fst di) 1)) (combine sh ix)) = (ravel sh ix, size sh).
Proof.
  induction sh as [|d sh IH]; intros [|i ix] H; cbn in H; [reflexivity|destruct H|destruct H|]. destruct H as [Hi H]. cbn [combine filter fst]. destruct (Nat.eqb_spec d 1); cbn [negb].
  - rewrite IH by auto. subst. rewrite size_cons. cbn [ravel]. f_equal; [|lia]. assert (i = 0) by lia. subst. lia.
  - cbn [rv]. rewrite IH by auto. reflexivity.
Qed.
Lemma filter_map {A B} (f : A -> B) (g : B -> bool) l : filter g (map f l) = map f (filter (fun a => g (f a)) l).
Proof. induction l as [|a l IH]; cbn; auto. destruct (g (f a)); cbn; now rewrite IH. Qed.
Lemma combine_pick p a b : combine (pick p a) (pick p b) = map (fun k => (nth k a 0, nth k b 0)) p.
Proof. unfold pick. induction p as [|k p IH]; cbn; auto. now rewrite IH. Qed.
Lemma reorder_ravel p n sh ix : is_perm p n -> length sh = n -> inb ix sh -> filter (fun k => negb (Nat.eqb (nth k sh 0) 1)) p = filter (fun k => negb (Nat.eqb (nth k sh 0) 1)) (seq 0 n) ->
  ravel (pick p sh) (pick p ix) = ravel sh ix /\ size (pick p sh) = size sh.
Proof.
  intros P L I E. assert (R1 := rv_ravel sh ix I). assert (R2 := rv_ravel (pick p sh) (pick p ix) (pick_inb p n ix sh P L I)).
  rewrite combine_pick, filter_map in R2. cbn [fst] in R2. rewrite E in R2.
  assert (K : combine sh ix = map (fun k => (nth k sh 0, nth k ix 0)) (seq 0 n)).
  { rewrite <- combine_pick. assert (Li := inb_length _ _ I). rewrite <- L at 1. rewrite pick_seq. rewrite <- L, <- Li. now rewrite pick_seq. }
  rewrite K, filter_map in R1. cbn [fst] in R1. rewrite R2 in R1. now inversion R1.
Qed.
Lemma reorder_size p n sh : is_perm p n -> length sh = n -> size (pick p sh) = size sh.
Proof.
  intros P L. unfold size. assert (K : Permutation (pick p sh) sh).
  { rewrite <- (pick_seq sh) at 2. rewrite L. unfold pick. now apply Permutation_map. }
  clear P L. induction K as [|a l l' K IH|a b l|l l' l'' K1 IH1 K2 IH2]; cbn; [auto|now rewrite IH|lia|congruence].
Qed.
Lemma reorder_transpose {A} p n (x y : tensor A) : is_perm p n -> length (shape x) = n -> wf x ->
  filter (fun k => negb (Nat.eqb (nth k (shape x) 0) 1)) p = filter (fun k => negb (Nat.eqb (nth k (shape x) 0) 1)) (seq 0 n) ->
  (transpose_rel p x y <-> y = Tensor (pick p (shape x)) (data x)).
Proof.
  intros P L W E. assert (Sz := reorder_size p n (shape x) P L).
  assert (Ok : transpose_rel p x (Tensor (pick p (shape x)) (data x))).
  { unfold transpose_rel, wf. cbn [shape data]. rewrite L. do 2 (split; [auto; fail|]). split; [unfold wf in W; congruence|]. split; auto.
    intros ix I. unfold get. cbn [shape data]. f_equal. apply (reorder_ravel p n); auto. }
  split; [|intros ->; auto]. intro T. eapply transpose_fun; eauto.
Qed.

(** the tags of the model *)
Lemma tagged_nth shape k : k < length shape -> nth k (tagged shape) None = if (nth k shape 0 =? 1)%Z then None else Some k.
Proof.
  intro H. unfold tagged. set (f := fun id : nat * Z => if (snd id =? 1)%Z then None else Some (fst id)). rewrite (nth_indep _ None (f (0, 0%Z))) by (rewrite map_length, enumerate_len; auto).
  rewrite (map_nth f), enumerate_nth by auto. reflexivity.
Qed.
Lemma trim_tags shape l : (forall k, In k l -> k < length shape) -> trim (map (fun i => nth i (tagged shape) None) l) = filter (fun k => negb (nth k shape 0 =? 1)%Z) l.
Proof.
  induction l as [|k l IH]; intro B; cbn; auto. rewrite tagged_nth by (apply B; cbn; auto). unfold trim in IH. rewrite IH by (intros; apply B; cbn; auto). now destruct (nth k shape 0 =? 1)%Z.
Qed.
Lemma map_nth_seq {A} (d : A) l : map (fun i => nth i l d) (seq 0 (length l)) = l.
Proof.
  induction l as [|a l IH]; cbn [length seq map nth]; auto. f_equal. rewrite <- seq_shift, map_map. exact IH.
Qed.
Lemma filter_and {A} (f g : A -> bool) l : filter f (filter g l) = filter (fun a => g a && f a) l.
Proof. induction l as [|a l IH]; cbn; auto. destruct (g a); cbn; rewrite ?IH; auto. Qed.
Lemma reshape_instead_order shape0 p n (sh : list nat) r : is_perm p n -> length sh = n -> describes shape0 sh -> reshape_instead shape0 p = Some r ->
  filter (fun k => negb (Nat.eqb (nth k sh 0) 1)) p = filter (fun k => negb (Nat.eqb (nth k sh 0) 1)) (seq 0 n).
Proof.
  intros P L D E. assert (Ls : length shape0 = n) by (rewrite <- L; exact (F2_len _ _ _ D)). unfold reshape_instead in E. destruct (list_eqb _ _) eqn:Eq; [|discriminate]. apply list_eqb_spec in Eq. clear E.
  assert (Lt : length (tagged shape0) = n) by (unfold tagged; rewrite map_length, enumerate_len; auto).
  assert (Et : trim (tagged shape0) = filter (fun k => negb (nth k shape0 0 =? 1)%Z) (seq 0 n)).
  { rewrite <- trim_tags by (intros k K; apply in_seq in K; lia). f_equal. rewrite <- Lt. symmetry. apply map_nth_seq. }
  rewrite Et, trim_tags in Eq by (intros k K; apply (is_perm_in p n P) in K; lia).
  assert (F : forall l, (forall k, In k l -> k < n) -> filter (fun k => negb (Nat.eqb (nth k sh 0) 1)) l = filter (fun k => negb (Nat.eqb (nth k sh 0) 1)) (filter (fun k => negb (nth k shape0 0 =? 1)%Z) l)).
  { intros l B. rewrite filter_and. apply filter_ext_in. intros k K. specialize (B k K). destruct (Z.eqb_spec (nth k shape0 0%Z) 1); cbn; auto.
    assert (H : nth k sh 0 = 1). { clear -D e B L. revert k e B. subst n. induction D as [|z m l l' H F IH]; intros [|k] e B; cbn in *; try lia. apply IH; lia. }
    now rewrite H. }
  rewrite F by (intros k K; now apply (is_perm_in p n P)). rewrite (F (seq 0 n)) by (intros k K; apply in_seq in K; lia). now rewrite Eq.
Qed.
Lemma describes_pick p n s sh : is_perm p n -> length sh = n -> describes s sh -> describes (map (fun i => nth i s 0%Z) p) (pick p sh).
Proof.
  intros P L D. unfold describes, pick. assert (Q : forall k, k < n -> nth k s 0%Z = (-1)%Z \/ nth k s 0%Z = Z.of_nat (nth k sh 0)).
  { clear P. subst n. induction D as [|z m l l' H F IH]; intros [|k] B; cbn in *; try lia; auto. apply IH. lia. }
  assert (B : forall k, In k p -> k < n) by (intros k K; now apply (is_perm_in p n P)). clear P. induction p as [|k p IH]; cbn; constructor; [apply Q, B; cbn; auto|apply IH; intros; apply B; cbn; auto].
Qed.
Lemma perm_map_nth {A} (d : A) p n s : is_perm p n -> length s = n -> Permutation (map (fun i => nth i s d) p) s.
Proof. intros P L. apply Permutation_trans with (map (fun i => nth i s d) (seq 0 (length s))); [rewrite L; now apply Permutation_map|rewrite map_nth_seq; auto]. Qed.
Lemma reshape_static {A} s p n target (x y : tensor A) : is_perm p n -> length (shape x) = n -> describes s (shape x) -> ~ In 0%Z s -> wf x -> reshape_instead s p = Some (Some target) ->
  (transpose_rel p x y <-> reshape_rel false target x y).
Proof.
  intros P L D Z0 W E. rewrite (reorder_transpose p n x y P L W) by (eapply reshape_instead_order; eauto). assert (Ls : length s = n) by (rewrite <- L; exact (F2_len _ _ _ D)).
  unfold reshape_instead in E. destruct (list_eqb _ _); [|discriminate]. destruct (Nat.leb_spec (length (filter (Z.eqb (-1)) s)) 1) as [C|]; [|discriminate]. inversion E; subst target.
  assert (Pm := perm_map_nth 0%Z p n s P Ls). rewrite (reshape_known _ (pick p (shape x)) x y).
  - split; [intros ->; auto|intros [_ ->]; auto].
  - eapply describes_pick; eauto.
  - intro K. apply Z0. eapply Permutation_in; eauto.
  - assert (K : Permutation (filter (Z.eqb (-1)) (map (fun i => nth i s 0%Z) p)) (filter (Z.eqb (-1)) s)); [|now rewrite (Permutation_length K)].
    clear -Pm. induction Pm; cbn -[Z.eqb]; auto; [destruct (Z.eqb (-1) x); auto|destruct (Z.eqb (-1) x), (Z.eqb (-1) y); auto; apply perm_swap|eapply Permutation_trans; eauto].
  - now apply (reorder_size p n).
Qed.
(** the shape computed while the model runs *)
Lemma reshape_dynamic {A} s p n (x y : tensor A) : is_perm p n -> length (shape x) = n -> describes s (shape x) -> ~ In 0 (shape x) -> wf x -> reshape_instead s p = Some None ->
  (transpose_rel p x y <-> exists sx target, shape_rel x sx /\ gather_rel p sx target /\ reshape_rel false (map Z.of_nat (data target)) x y).
Proof.
  intros P L D Z0 W E. rewrite (reorder_transpose p n x y P L W) by (eapply reshape_instead_order; eauto).
  assert (K : reshape_rel false (map Z.of_nat (pick p (shape x))) x y <-> wf x /\ y = Tensor (pick p (shape x)) (data x)).
  { assert (Nz : forall k, In k (map Z.of_nat (pick p (shape x))) -> (0 < k)%Z).
    { intros k K. apply in_map_iff in K. destruct K as (d & <- & K). unfold pick in K. apply in_map_iff in K. destruct K as (i & <- & K). apply (is_perm_in p n P) in K.
      assert (nth i (shape x) 0 <> 0); [|lia]. intro C. apply Z0. rewrite <- C. apply nth_In. lia. }
    apply reshape_known.
    - unfold describes. clear. induction (pick p (shape x)); cbn; constructor; auto.
    - intro C. apply Nz in C. lia.
    - assert (F : filter (Z.eqb (-1)) (map Z.of_nat (pick p (shape x))) = []); [|rewrite F; cbn; lia].
      clear -Nz. induction (map Z.of_nat (pick p (shape x))) as [|z l IH]; auto. cbn -[Z.eqb]. destruct (Z.eqb_spec (-1) z); [subst; specialize (Nz (-1)%Z (or_introl eq_refl)); lia|].
      apply IH. intros; apply Nz; cbn; auto.
    - now apply (reorder_size p n). }
  split.
  - intros ->. exists (Tensor [n] (shape x)), (Tensor [length p] (pick p (shape x))). split; [unfold shape_rel; now rewrite L|]. split.
    + unfold gather_rel, wf. cbn. rewrite L. split; [lia|]. split; auto. split; [intros i Hi; now apply (is_perm_in p n P)|reflexivity].
    + apply K. auto.
  - intros (sx & t & -> & (_ & _ & _ & ->) & R). cbn [data] in R. apply K in R. tauto.
Qed.

(** ** Shape of a transposed tensor *)
Lemma shape_gather {A} p n (x : tensor A) y : is_perm p n -> length (shape x) = n -> wf x ->
  ((exists t, transpose_rel p x t /\ shape_rel t y) <-> exists s, shape_rel x s /\ gather_rel p s y).
Proof.
  intros P L W. split.
  - intros (t & T & ->). destruct (tr_facts p n P x t T) as (_ & Lt & _ & _ & S & _). exists (Tensor [n] (shape x)). split; [unfold shape_rel; now rewrite L|].
    unfold gather_rel, wf. cbn. rewrite L. split; [lia|]. split; auto. split; [intros i Hi; now apply (is_perm_in p n P)|]. rewrite Lt, S, (pn p n P). reflexivity.
  - intros (s & -> & (_ & _ & _ & ->)). destruct (tr_exists p n P x W L) as (t & T). exists t. split; auto. destruct (tr_facts p n P x t T) as (_ & Lt & _ & _ & S & _).
    unfold shape_rel. rewrite Lt, S, (pn p n P). reflexivity.
Qed.

(** ** elementwise operators with several inputs *)
Lemma bcast_len r sh ix : length ix = r -> length sh <= r -> length (bcast_ix r sh ix) = length sh.
Proof. intros. unfold bcast_ix. rewrite map_length, combine_length, skipn_length. lia. Qed.
Lemma combine_nth' {A B} (a : A) (b : B) : forall l l' k, k < length l -> k < length l' -> nth k (combine l l') (a, b) = (nth k l a, nth k l' b).
Proof. induction l as [|x l IH]; intros [|y l'] [|k] H H'; cbn in *; try lia; auto. apply IH; lia. Qed.
Lemma nth_skipn' {A} (d : A) : forall a l k, nth k (skipn a l) d = nth (a + k) l d.
Proof. induction a as [|a IH]; intros [|x l] k; cbn; auto. now destruct k. Qed.
Lemma bcast_nth r sh ix k : length ix = r -> length sh <= r -> k < length sh -> nth k (bcast_ix r sh ix) 0 = if Nat.eqb (nth k sh 0) 1 then 0 else nth (r - length sh + k) ix 0.
Proof.
  intros Li Ls K. unfold bcast_ix. set (f := fun '(d, i) => if Nat.eqb d 1 then 0 else i). rewrite (nth_indep _ 0 (f (0, 0))) by (rewrite map_length, combine_length, skipn_length; lia).
  rewrite (map_nth f). rewrite combine_nth' by (rewrite ?skipn_length; lia). rewrite nth_skipn'. reflexivity.
Qed.
Lemma bcast_inb r sh ix ysh : inb ix ysh -> length ysh = r -> length sh <= r ->
  (forall k, k < r -> nth k (repeat 1 (r - length sh) ++ sh) 0 = 1 \/ nth k (repeat 1 (r - length sh) ++ sh) 0 = nth k ysh 0) -> inb (bcast_ix r sh ix) sh.
Proof.
  intros I L Ls H. assert (Li : length ix = r) by (apply inb_length in I; congruence). apply inb_nth. rewrite bcast_len by auto. split; auto. intros k K. rewrite bcast_nth by auto.
  specialize (H (r - length sh + k) ltac:(lia)). rewrite app_nth2, repeat_length in H by (rewrite repeat_length; lia). replace (r - length sh + k - (r - length sh)) with k in H by lia.
  apply inb_nth in I. destruct I as [_ I]. specialize (I (r - length sh + k) ltac:(lia)). destruct (Nat.eqb_spec (nth k sh 0) 1); lia.
Qed.
Lemma bcast_pick p n sh ix : is_perm p n -> length sh = n -> length ix = n -> bcast_ix n (pick p sh) (pick p ix) = pick p (bcast_ix n sh ix).
Proof.
  intros P Ls Li. assert (Lp := pick_len p n P). apply list_nth_ext; [rewrite bcast_len, !Lp; auto; rewrite Lp; auto|]. intros k K. rewrite bcast_len, Lp in K by (rewrite Lp; auto).
  rewrite bcast_nth by (rewrite ?Lp; auto). rewrite Lp, Nat.sub_diag, !(pick_at p n P) by auto. rewrite bcast_nth by (rewrite ?Ls; auto; now apply (p_lt p n)).
  now rewrite Ls, Nat.sub_diag.
Qed.
Lemma F2_map {A B C} (R : A -> B -> Prop) (f : A -> C) (g : B -> C) l l' : Forall2 R l l' -> (forall a b, In a l -> In b l' -> R a b -> f a = g b) -> map f l = map g l'.
Proof. induction 1 as [|a b l l' H F IH]; intro E; cbn; auto. rewrite (E a b), IH; cbn; auto. intros; apply E; cbn; auto. Qed.
Lemma F2_In {A B} (R : A -> B -> Prop) l l' : Forall2 R l l' -> forall b, In b l' -> exists a, In a l /\ R a b.
Proof. induction 1 as [|a b l l' H F IH]; intros c C; [destruct C|]. destruct C as [->|C]; [exists a; cbn; auto|]. destruct (IH c C) as (a' & Ha & K). exists a'. cbn; auto. Qed.
Lemma F2_In' {A B} (R : A -> B -> Prop) l l' : Forall2 R l l' -> forall a, In a l -> exists b, In b l' /\ R a b.
Proof. induction 1 as [|a b l l' H F IH]; intros c C; [destruct C|]. destruct C as [->|C]; [exists b; cbn; auto|]. destruct (IH c C) as (a' & Ha & K). exists a'. cbn; auto. Qed.
Lemma F2_swap {A B C} (R : A -> B -> Prop) (P : A -> C -> Prop) (Q : B -> C -> Prop) l l' vs : Forall2 R l l' -> (forall a b c, In a l -> In b l' -> R a b -> P a c -> Q b c) -> Forall2 P l vs -> Forall2 Q l' vs.
Proof.
  intro H. revert vs. induction H as [|a b l l' H F IH]; intros vs E FP; inversion FP; subst; constructor; [eapply E; cbn; eauto|]. apply IH; auto. intros; eapply E; cbn; eauto.
Qed.
Lemma F2_flip {A B} (R : A -> B -> Prop) l l' : Forall2 R l l' -> Forall2 (fun b a => R a b) l' l.
Proof. induction 1; constructor; auto. Qed.
Lemma nary_tr {A} (f : list A -> A) p n xs ts (u y : tensor A) : is_perm p n -> Forall2 (transpose_rel p) xs ts -> transpose_rel p u y -> (nary_rel f ts y <-> nary_rel f xs u).
Proof.
  intros P F U. destruct (tr_facts p n P u y U) as (Lu & Ly & Wu & Wy & Sy & Gy).
  assert (Fx : forall x, In x xs -> wf x /\ length (shape x) = n) by (intros x Hx; destruct (F2_In' _ _ _ F x Hx) as (t & _ & T); destruct (tr_facts p n P x t T) as (Lx & Lt & Wx & Wt & S & G); auto).
  assert (Ft : forall t, In t ts -> wf t /\ length (shape t) = n) by (intros t Ht; destruct (F2_In _ _ _ F t Ht) as (x & _ & T); destruct (tr_facts p n P x t T) as (Lx & Lt & Wx & Wt & S & G); auto).
  unfold nary_rel. rewrite Lu, Ly.
  set (dims := fun (l : list (tensor A)) k => map (fun x => nth k (repeat 1 (n - length (shape x)) ++ shape x) 0) l).
  assert (Dm : forall k, k < n -> dims ts k = dims xs (nth k p 0)).
  { intros k K. unfold dims. symmetry. eapply F2_map; [exact F|]. intros x t Hx Ht T. rewrite (proj2 (Fx x Hx)), (proj2 (Ft t Ht)), Nat.sub_diag. cbn [repeat app].
    destruct (tr_facts p n P x t T) as (_ & _ & _ & _ & S & _). rewrite S. symmetry. now apply (pick_at p n P). }
  assert (D : (forall k, k < n -> In (nth k (shape y) 0) (dims ts k) /\ forall d, In d (dims ts k) -> d = 1 \/ d = nth k (shape y) 0) <->
              (forall k, k < n -> In (nth k (shape u) 0) (dims xs k) /\ forall d, In d (dims xs k) -> d = 1 \/ d = nth k (shape u) 0)).
  { rewrite (forall_axes p n P (fun k => In (nth k (shape u) 0) (dims xs k) /\ forall d, In d (dims xs k) -> d = 1 \/ d = nth k (shape u) 0)).
    split; intros H k K; specialize (H k K); rewrite Sy, (pick_at p n P), (Dm k K) in * by auto; exact H. }
  assert (Ne : (exists x, In x ts /\ length (shape x) = n) <-> (exists x, In x xs /\ length (shape x) = n)).
  { split; intros (x & Hx & _); [destruct (F2_In _ _ _ F x Hx) as (z & Hz & _); exists z; split; auto; now apply Fx|destruct (F2_In' _ _ _ F x Hx) as (z & Hz & _); exists z; split; auto; now apply Ft]. }
  assert (E : (forall k, k < n -> In (nth k (shape u) 0) (dims xs k) /\ forall d, In d (dims xs k) -> d = 1 \/ d = nth k (shape u) 0) ->
    forall ix x t, inb ix (shape u) -> In x xs -> transpose_rel p x t -> get t (bcast_ix n (shape t) (pick p ix)) = get x (bcast_ix n (shape x) ix)).
  { intros Hd ix x t I Hx T. destruct (tr_facts p n P x t T) as (Lx & Lt & Wx & Wt & S & G). assert (Li : length ix = n) by (apply inb_length in I; congruence).
    rewrite S, (bcast_pick p n) by auto. apply G. apply (bcast_inb n _ _ (shape u)); auto; [lia|]. intros k K. apply (proj2 (Hd k K)). unfold dims. apply in_map_iff. exists x. auto. }
  split.
  - intros (_ & _ & H1 & H2 & H3). assert (H2' := proj1 D H2). clear H2. rename H2' into H2. split; auto. split; [intros x Hx; destruct (Fx x Hx); split; auto; lia|]. split; [now apply Ne|]. split; [exact H2|].
    intros ix I. destruct (H3 (pick p ix)) as (vs & V1 & V2); [rewrite Sy; now apply (pick_inb p n)|]. exists vs. rewrite <- Gy by auto. split; auto.
    eapply F2_swap; [apply F2_flip; exact F| |exact V1]. cbn. intros t x v Ht Hx T V. rewrite <- (E H2 ix x t) by auto. exact V.
  - intros (_ & _ & H1 & H2 & H3). split; auto. split; [intros x Hx; destruct (Ft x Hx); split; auto; lia|]. split; [now apply Ne|]. split; [exact (proj2 D H2)|].
    intros jx J. rewrite Sy in J. destruct (index_back p n P _ _ Lu J) as (ix & I & ->). destruct (H3 ix I) as (vs & V1 & V2). exists vs. rewrite Gy by auto. split; auto.
    eapply F2_swap; [exact F| |exact V1]. cbn. intros x t v Hx Ht T V. rewrite (E H2 ix x t) by auto. exact V.
Qed.

(** leading dimensions 1 *)
Lemma ravel_ones k sh jx : ravel (repeat 1 k ++ sh) (repeat 0 k ++ jx) = ravel sh jx.
Proof. induction k as [|k IH]; cbn; auto. Qed.
Lemma size_ones k : size (repeat 1 k) = 1.
Proof. induction k as [|k IH]; cbn; auto. unfold size in IH. rewrite IH. lia. Qed.
Lemma expands_facts {A} n (x e : tensor A) : expands n x e -> wf x /\ wf e /\ length (shape x) <= n /\ length (shape e) = n /\ shape e = repeat 1 (n - length (shape x)) ++ shape x.
Proof.
  intros (W & L & ->). cbn [shape]. rewrite app_length, repeat_length. unfold wf in *. cbn [shape data]. rewrite size_app, size_ones, W. repeat split; auto; lia.
Qed.
Lemma expands_same {A} n (x : tensor A) : wf x -> length (shape x) = n -> expands n x x.
Proof. intros W L. split; auto. split; [lia|]. rewrite L, Nat.sub_diag. destruct x; reflexivity. Qed.
Lemma nth_repeat' {A} (d : A) : forall m k, nth k (repeat d m) d = d.
Proof. induction m as [|m IH]; intros [|k]; cbn; auto. Qed.
Lemma nth_ones n k : k < n -> nth k (repeat 1 n) 0 = 1.
Proof. intro. rewrite (nth_indep _ 0 1) by (now rewrite repeat_length). apply nth_repeat'. Qed.
Lemma bcast_expand r k sh ix : length ix = r -> k + length sh = r -> bcast_ix r (repeat 1 k ++ sh) ix = repeat 0 k ++ bcast_ix r sh ix.
Proof.
  intros Li Ls. apply list_nth_ext; [rewrite bcast_len, !app_length, !repeat_length, bcast_len by (rewrite ?app_length, ?repeat_length; lia); auto|].
  intros i Hi. rewrite bcast_len, app_length, repeat_length in Hi by (rewrite ?app_length, ?repeat_length; lia).
  rewrite bcast_nth by (rewrite ?app_length, ?repeat_length; lia). rewrite app_length, repeat_length. replace (r - (k + length sh) + i) with i by lia.
  destruct (Nat.lt_ge_cases i k).
  - rewrite !app_nth1 by (rewrite repeat_length; auto). rewrite nth_repeat', (nth_indep _ 0 1) by (rewrite repeat_length; auto). now rewrite nth_repeat'.
  - rewrite !app_nth2, !repeat_length by (rewrite repeat_length; auto). rewrite bcast_nth by lia. replace (r - length sh + (i - k)) with i by lia. reflexivity.
Qed.
Lemma nary_expand {A} (f : list A -> A) n ts es (y : tensor A) : Forall2 (expands n) ts es -> (exists t, In t ts /\ length (shape t) = n) -> (nary_rel f ts y <-> nary_rel f es y).
Proof.
  intros F (t0 & Ht0 & Lt0). destruct (F2_In' _ _ _ F t0 Ht0) as (e0 & He0 & _).
  assert (Ft : forall t, In t ts -> wf t /\ length (shape t) <= n) by (intros t Ht; destruct (F2_In' _ _ _ F t Ht) as (e & _ & E); apply expands_facts in E; tauto).
  assert (Fe : forall e, In e es -> wf e /\ length (shape e) = n) by (intros e He; destruct (F2_In _ _ _ F e He) as (t & _ & E); apply expands_facts in E; tauto).
  assert (Rk : forall l, (l = ts \/ l = es) -> nary_rel f l y -> length (shape y) = n).
  { intros l Hl (_ & H1 & (x & Hx & Lx) & _). destruct Hl as [-> | ->].
    - destruct (H1 t0 Ht0) as [_ K]. destruct (Ft x Hx). lia.
    - destruct (Fe x Hx). lia. }
  assert (Main : length (shape y) = n -> (nary_rel f ts y <-> nary_rel f es y)).
  { intro Ly. unfold nary_rel. rewrite Ly.
    set (dims := fun (l : list (tensor A)) k => map (fun x => nth k (repeat 1 (n - length (shape x)) ++ shape x) 0) l).
    assert (Dm : forall k, dims ts k = dims es k).
    { intro k. unfold dims. eapply F2_map; [exact F|]. intros t e Ht He E. apply expands_facts in E. destruct E as (_ & _ & _ & Le & Se). rewrite Le, Nat.sub_diag, Se. reflexivity. }
    assert (G : forall ix (t e : tensor A), inb ix (shape y) -> expands n t e -> get e (bcast_ix n (shape e) ix) = get t (bcast_ix n (shape t) ix)).
    { intros ix t e I (W & L & ->). apply inb_length in I. unfold get. cbn [shape data]. rewrite bcast_expand, ravel_ones by lia. reflexivity. }
    split; intros (W & _ & _ & H2 & H3); (split; [exact W|]).
    - split; [intros e He; destruct (Fe e He); split; auto; lia|]. split; [exists e0; split; auto; now apply Fe|]. split.
      + intros k K. specialize (H2 k K). cbv zeta in *. fold (dims ts k) in H2. fold (dims es k). rewrite <- Dm. exact H2.
      + intros ix I. destruct (H3 ix I) as (vs & V1 & V2). exists vs. split; auto. eapply F2_swap; [exact F| |exact V1]. cbn. intros t e v Ht He E V. rewrite (G ix t e); auto.
    - split; [intros e He; destruct (Ft e He); split; auto; lia|]. split; [exists t0; split; auto|]. split.
      + intros k K. specialize (H2 k K). cbv zeta in *. fold (dims es k) in H2. fold (dims ts k). rewrite Dm. exact H2.
      + intros ix I. destruct (H3 ix I) as (vs & V1 & V2). exists vs. split; auto. eapply F2_swap; [apply F2_flip; exact F| |exact V1]. cbn. intros e t v He Ht E V. rewrite <- (G ix t e); auto. }
  split; intro H; [apply (Main (Rk ts (or_introl eq_refl) H)); auto|apply (Main (Rk es (or_intror eq_refl) H)); auto].
Qed.
Lemma F2_split {A B C} (R1 : A -> B -> Prop) (R2 : B -> C -> Prop) l l' : Forall2 (fun a c => exists b, R1 a b /\ R2 b c) l l' -> exists m, Forall2 R1 l m /\ Forall2 R2 m l'.
Proof. induction 1 as [|a c l l' (b & H1 & H2) F (m & F1 & F2)]; [exists []; auto|]. exists (b :: m). auto. Qed.
Lemma nary_carried {A} (f : list A -> A) p n ts xs (u y : tensor A) : is_perm p n -> Forall2 (carried p n) ts xs -> (exists t, In t ts /\ length (shape t) = n) -> (exists x, In x xs /\ length (shape x) = n) ->
  transpose_rel p u y -> (nary_rel f ts y <-> nary_rel f xs u).
Proof.
  intros P F Et Ex U. unfold carried in F.
  assert (F' : Forall2 (fun t x => exists e, expands n t e /\ exists e', transpose_rel p e' e /\ expands n x e') ts xs).
  { revert F. clear. induction 1 as [|t x ts xs (e & e' & H1 & H2 & H3) F IH]; constructor; eauto. }
  apply F2_split in F'. destruct F' as (es & F1 & F2). apply F2_split in F2. destruct F2 as (es' & F2 & F3).
  rewrite (nary_expand f n ts es y F1 Et). rewrite (nary_tr f p n es' es u y P (F2_flip _ _ _ F2) U). symmetry. apply (nary_expand f n xs es'); auto. apply F2_flip in F3. exact F3.
Qed.
Lemma nary_moves {A} (f : list A -> A) p n ts xs : is_perm p n -> Forall2 (carried p n) ts xs -> (exists t, In t ts /\ length (shape t) = n) -> (exists x, In x xs /\ length (shape x) = n) ->
  forall y, nary_rel f ts y <-> exists u, nary_rel f xs u /\ transpose_rel p u y.
Proof.
  intros P F Et Ex y. assert (Rk : forall l z, (l = ts \/ l = xs) -> nary_rel f l z -> length (shape z) = n).
  { assert (Le : forall t x : tensor A, carried p n t x -> length (shape t) <= n /\ length (shape x) <= n) by (intros t x (e & e' & H1 & H2 & _); apply expands_facts in H1, H2; tauto).
    intros l z [-> | ->] (_ & H1 & (x & Hx & Lx) & _).
    - destruct Et as (t & Ht & Lt). destruct (F2_In' _ _ _ F x Hx) as (x' & _ & C). apply Le in C. destruct (H1 t Ht). lia.
    - destruct Ex as (t & Ht & Lt). destruct (F2_In _ _ _ F x Hx) as (x' & _ & C). apply Le in C. destruct (H1 t Ht). lia. }
  split.
  - intro H. destruct (tr_back p n P y (proj1 H) (Rk ts y (or_introl eq_refl) H)) as (u & U). exists u. split; auto. now apply (nary_carried f p n ts xs u y).
  - intros (u & H & U). now apply (nary_carried f p n ts xs u y).
Qed.
(** the ways an input is carried *)
Lemma inv_inv p n : is_perm p n -> inv_perm (inv_perm p) = p.
Proof.
  intro P. assert (Q := inv_perm_perm p n P). assert (R := inv_perm_perm _ n Q). apply list_nth_ext; [rewrite (is_perm_length _ n R), (is_perm_length _ n P); auto|].
  intros k K. rewrite (is_perm_length _ n R) in K. assert (K2 := q_lt _ n Q k K). assert (E := pq _ n Q k K). assert (E2 := pq p n P (nth k (inv_perm (inv_perm p)) 0) K2). rewrite E in E2. congruence.
Qed.
Lemma carried_transpose {A} p n (x t : tensor A) : is_perm p n -> transpose_rel p x t -> carried p n t x.
Proof. intros P T. destruct (tr_facts p n P x t T) as (Lx & Lt & Wx & Wt & _). exists t, x. split; [now apply expands_same|]. split; [now apply expands_same|auto]. Qed.
Lemma carried_pair {A} p n (t e x : tensor A) : is_perm p n -> expands n t e -> transpose_rel (invert_perm p) e x -> carried p n t x.
Proof.
  intros P E T. rewrite (invert_perm_spec p n P) in T. assert (Q := inv_perm_perm p n P). destruct (tr_facts _ n Q e x T) as (Lx & Lt & Wx & Wt & _).
  exists e, x. split; auto. split; [now apply expands_same|]. assert (K := tr_inv _ n Q e x T). rewrite (inv_inv p n P) in K. exact K.
Qed.
Lemma ones_transpose {A} p n (e : tensor A) : is_perm p n -> shape e = repeat 1 n -> wf e -> transpose_rel p e e.
Proof.
  intros P S W. assert (Le : length (shape e) = n) by (rewrite S; apply repeat_length). assert (B : forall k, In k p -> k < n) by (intros; now apply (is_perm_in p n P)).
  assert (F : forall l, (forall k, In k l -> k < n) -> filter (fun k => negb (Nat.eqb (nth k (shape e) 0) 1)) l = []).
  { intros l Bl. rewrite S. induction l as [|k l IH]; auto. cbn [filter]. rewrite (nth_indep _ 0 1) by (rewrite repeat_length; apply Bl; cbn; auto). rewrite nth_repeat'. apply IH. intros; apply Bl; cbn; auto. }
  apply (reorder_transpose p n e e P Le W).
  - rewrite !F; auto. intros k K. apply in_seq in K. lia.
  - destruct e as [sh d]. cbn [shape data] in *. f_equal. subst sh. symmetry. apply list_nth_ext; [rewrite pick_length, repeat_length; apply (pn p n P)|].
    intros k K. rewrite pick_length, (pn p n P) in K. rewrite (pick_at p n P) by auto. rewrite !nth_ones; auto. now apply (p_lt p n P).
Qed.
Lemma carried_scalar {A} p n (c : tensor A) : is_perm p n -> wf c -> shape c = repeat 1 (length (shape c)) -> length (shape c) <= n -> carried p n c c.
Proof.
  intros P W S L. exists (Tensor (repeat 1 (n - length (shape c)) ++ shape c) (data c)), (Tensor (repeat 1 (n - length (shape c)) ++ shape c) (data c)).
  assert (E : expands n c (Tensor (repeat 1 (n - length (shape c)) ++ shape c) (data c))) by (split; auto). split; auto. split; auto. apply (ones_transpose p n); auto.
  - cbn [shape]. rewrite S at 2. rewrite <- repeat_app. f_equal. lia.
  - now apply expands_facts in E.
Qed.
