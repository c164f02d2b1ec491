(** Lifting: what holds of single elements holds of tensors. *)
From Coq Require Import ZArith String List Bool Lia Arith.
From Verif Require Import ElemSpec.
Import ListNotations.
Local Open Scope list_scope.

(** ** shapes *)
Fixpoint ler (a b : list nat) : Prop :=
  match a, b with [], _ => True | x :: a', y :: b' => (x = 1 \/ x = y) /\ ler a' b' | _ :: _, [] => False end.
Definition le_shape (s u : list nat) : Prop := ler (rev s) (rev u).
Lemma ler_refl a : ler a a.
Proof. induction a; cbn; auto. Qed.
Lemma ler_trans a : forall b c, ler a b -> ler b c -> ler a c.
Proof. induction a as [|x a IH]; intros [|y b] [|z c]; cbn; try tauto. intros [H K] [H' K']. split; [|eauto]. destruct H; subst; tauto. Qed.
Lemma ler_antisym a : forall b, ler a b -> ler b a -> a = b.
Proof. induction a as [|x a IH]; intros [|y b]; cbn; try tauto. intros [H K] [H' K']. f_equal; [|auto]. destruct H, H'; congruence. Qed.
Lemma ler_length a : forall b, ler a b -> length a <= length b.
Proof. induction a as [|x a IH]; intros [|y b]; cbn; try tauto; [lia|lia|]. intros [_ H]. apply IH in H. lia. Qed.
Lemma bcast_rev_lub a : forall b, 
  match bcast_rev a b with
  | Some u => ler a u /\ ler b u /\ forall v, ler a v -> ler b v -> ler u v
  | None => forall v, ler a v -> ler b v -> False
  end.
Proof.
  induction a as [|x a IH]; intros b; [destruct b; cbn; repeat split; auto using ler_refl|].
  destruct b as [|y b]; [cbn; repeat split; auto using ler_refl|]. cbn. specialize (IH b). destruct (bcast_rev a b) as [l|].
  - destruct IH as (I1 & I2 & I3). destruct (Nat.eqb_spec x y) as [->|N]; [cbn; repeat split; auto; intros [|z v]; cbn; try tauto; intros [H K] [H' K']; split; auto|].
    destruct (Nat.eqb_spec x 1) as [->|N1]; [cbn; repeat split; auto; intros [|z v]; cbn; try tauto; intros [H K] [H' K']; split; auto|].
    destruct (Nat.eqb_spec y 1) as [->|N2]; [cbn; repeat split; auto; intros [|z v]; cbn; try tauto; intros [H K] [H' K']; split; auto|].
    intros [|z v]; cbn; try tauto. intros [H K] [H' K']. destruct H, H'; congruence.
  - intros [|z v]; cbn; try tauto. intros [H K] [H' K']. eauto.
Qed.
Lemma bcast_some s t u : bcast s t = Some u -> le_shape s u /\ le_shape t u /\ forall v, le_shape s v -> le_shape t v -> le_shape u v.
Proof.
  unfold bcast, le_shape. generalize (bcast_rev_lub (rev s) (rev t)). destruct (bcast_rev (rev s) (rev t)) as [l|]; [|discriminate].
  intros (A & B & C) [= <-]. rewrite rev_involutive. repeat split; auto.
Qed.
Lemma bcast_exists s t v : le_shape s v -> le_shape t v -> exists u, bcast s t = Some u.
Proof.
  unfold bcast, le_shape. generalize (bcast_rev_lub (rev s) (rev t)). destruct (bcast_rev (rev s) (rev t)) as [l|]; cbn; [eauto|].
  intros H A B. destruct (H _ A B).
Qed.
Lemma le_refl s : le_shape s s. Proof. apply ler_refl. Qed.
Lemma le_trans s t u : le_shape s t -> le_shape t u -> le_shape s u. Proof. apply ler_trans. Qed.
Lemma le_antisym s t : le_shape s t -> le_shape t s -> s = t.
Proof. intros A B. rewrite <- (rev_involutive s), <- (rev_involutive t). f_equal. now apply ler_antisym. Qed.
Lemma le_length s t : le_shape s t -> length s <= length t.
Proof. intros H. apply ler_length in H. now rewrite !rev_length in H. Qed.
Lemma le_nil s : le_shape [] s. Proof. exact I. Qed.
Lemma bcast_all_some l : forall u, bcast_all l = Some u ->
  Forall (fun s => le_shape s u) l /\ forall v, Forall (fun s => le_shape s v) l -> le_shape u v.
Proof.
  induction l as [|s l IH]; intros u; cbn [bcast_all].
  - intros [= <-]. split; [constructor|]. intros v _. apply le_nil.
  - destruct (bcast_all l) as [r|]; [|discriminate]. intros H. apply bcast_some in H. destruct H as (A & B & C).
    destruct (IH r eq_refl) as (D & E). split.
    { constructor; [exact A|]. eapply Forall_impl; [|exact D]. cbn beta. intros x X. exact (le_trans _ _ _ X B). }
    intros v F. inversion F; subst. apply C; auto.
Qed.
Lemma bcast_all_exists l v : Forall (fun s => le_shape s v) l -> exists u, bcast_all l = Some u.
Proof.
  induction 1 as [|s l H F (u & IH)]; cbn [bcast_all]; [eauto|]. rewrite IH. apply (bcast_exists s u v); [exact H|].
  now apply (bcast_all_some l u IH).
Qed.
(** ** indices *)
Definition alignr (sh ix : list nat) : list nat := map (fun '(d, i) => if Nat.eqb d 1 then 0 else i) (combine sh ix).
Lemma combine_app {A B} (a a' : list A) (b b' : list B) : length a = length b -> combine (a ++ a') (b ++ b') = combine a b ++ combine a' b'.
Proof. revert b. induction a as [|x a IH]; intros [|y b]; cbn; try discriminate; auto. intros [= H]. f_equal. auto. Qed.
Lemma combine_rev {A B} (a : list A) : forall (b : list B), length a = length b -> combine (rev a) (rev b) = rev (combine a b).
Proof.
  induction a as [|x a IH]; intros [|y b]; cbn; try discriminate; auto. intros [= H].
  rewrite combine_app by now rewrite !rev_length. rewrite IH by auto. reflexivity.
Qed.
Lemma combine_long {A B} (a : list A) : forall (b c : list B), length a = length b -> combine a (b ++ c) = combine a b.
Proof. induction a as [|x a IH]; intros [|y b] c; cbn; try discriminate; auto. intros [= H]. f_equal. auto. Qed.
Lemma align_rev sh ix : length sh <= length ix -> rev (align sh ix) = alignr (rev sh) (rev ix).
Proof.
  intros L. unfold align, alignr. rewrite <- map_rev. f_equal. set (n := length ix - length sh).
  rewrite <- (firstn_skipn n ix) at 2. rewrite rev_app_distr, combine_long, combine_rev; auto; rewrite ?rev_length, skipn_length; unfold n; lia.
Qed.
Lemma alignr_alignr a : forall b ix, ler a b -> length b <= length ix -> alignr a (alignr b ix) = alignr a ix.
Proof.
  induction a as [|x a IH]; intros [|y b] [|i ix]; cbn; try tauto; try lia. intros [H K] L. f_equal.
  - destruct H; subst; [reflexivity|]. now destruct (Nat.eqb_spec y 1).
  - apply IH; auto; lia.
Qed.
Lemma align_length sh ix : length sh <= length ix -> length (align sh ix) = length sh.
Proof. intros. unfold align. rewrite map_length, combine_length, skipn_length. lia. Qed.
Lemma align_align s u ix : le_shape s u -> length u <= length ix -> align s (align u ix) = align s ix.
Proof.
  intros H L. assert (Ls := le_length _ _ H). rewrite <- (rev_involutive (align s _)), <- (rev_involutive (align s ix)). f_equal.
  rewrite !align_rev by (rewrite ?align_length by auto; lia). apply alignr_alignr; auto. now rewrite !rev_length.
Qed.
Lemma inb_length ix sh : inb ix sh -> length ix = length sh.
Proof. revert sh. induction ix as [|i ix IH]; intros [|d sh]; cbn; try tauto. intros [_ H]. f_equal. auto. Qed.
Lemma align_self ix sh : inb ix sh -> align sh ix = ix.
Proof.
  intros H. unfold align. rewrite (inb_length _ _ H), Nat.sub_diag. cbn [skipn]. revert sh H.
  induction ix as [|i ix IH]; intros [|d sh]; cbn; try tauto. intros [H K]. f_equal; [|auto]. destruct (Nat.eqb_spec d 1); lia.
Qed.
Lemma inb_app a b c d : length a = length c -> (inb (a ++ b) (c ++ d) <-> inb a c /\ inb b d).
Proof. revert c. induction a as [|x a IH]; intros [|y c]; cbn; try discriminate; [tauto|]. intros [= H]. rewrite IH by auto. tauto. Qed.
Lemma inb_rev a : forall b, inb (rev a) (rev b) <-> inb a b.
Proof.
  assert (G : forall a b, inb a b -> inb (rev a) (rev b)).
  { clear. induction a as [|x a IH]; intros [|y b]; cbn; try tauto. intros [H K]. apply inb_app; [rewrite !rev_length; now apply inb_length|].
    cbn. auto. }
  intros b. split; [|apply G]. intros H. apply G in H. now rewrite !rev_involutive in H.
Qed.
(** the aligned index is an index of the smaller tensor *)
Lemma align_inb s u ix : le_shape s u -> inb ix u -> inb (align s ix) s.
Proof.
  intros H K. rewrite <- inb_rev. rewrite align_rev by (rewrite (inb_length _ _ K); now apply le_length).
  apply inb_rev in K. unfold le_shape in H. revert H K. generalize (rev s) (rev u) (rev ix). clear.
  induction l as [|x l IH]; intros [|y l0] [|i ix]; cbn; try tauto. intros [H K] [L M]. split; [|eauto].
  destruct H; subst; [cbn; lia|]. destruct (Nat.eqb_spec y 1); lia.
Qed.

(** ** programs *)
(** one element *)
Definition pt (ix : list nat) (t : ten) : option val := telem t (align (tshape t) ix).
Fixpoint sevals (opset : nat) (ins tmps : list val) (steps : list step) : option (list val) :=
  match steps with
  | [] => Some tmps
  | s :: steps' =>
      match match s with
            | Const _ v => Some v
            | Node op a rs => match looks ins tmps rs with Some vs => onnx_op opset op a vs | None => None end
            end with
      | Some v => sevals opset ins (tmps ++ [v]) steps'
      | None => None
      end
  end.
Definition seval (opset : nat) (p : list step * ref) (ins : list val) : option val :=
  match sevals opset ins [] (fst p) with Some tmps => look ins tmps (snd p) | None => None end.
(** the inputs a result depends on *)
Fixpoint leaves (n : nat) (lv : list (list nat)) (steps : list step) : option (list (list nat)) :=
  match steps with
  | [] => Some lv
  | Const [] _ :: steps' => leaves n (lv ++ [[]]) steps'
  | Const _ _ :: _ => None
  | Node _ _ rs :: steps' =>
      match looks (map (fun k => [k]) (seq 0 n)) lv rs with Some ls => leaves n (lv ++ [concat ls]) steps' | None => None end
  end.
Definition covers (n : nat) (p : list step * ref) : bool :=
  match leaves n [] (fst p) with
  | Some lv => match look (map (fun k => [k]) (seq 0 n)) lv (snd p) with
               | Some l => forallb (fun k => existsb (Nat.eqb k) l) (seq 0 n)
               | None => false
               end
  | None => false
  end.
Section Run.
  Context (opset : nat) (ins : list ten) (S : list nat).
  Hypothesis HS : Forall (fun t => le_shape (tshape t) S) ins.
  (** [t] depends on the inputs [l] and has the shape they broadcast to *)
  Definition dep (l : list nat) (t : ten) : Prop :=
    (forall k, In k l -> exists u, nth_error ins k = Some u /\ le_shape (tshape u) (tshape t)) /\
    (forall v, (forall k u, In k l -> nth_error ins k = Some u -> le_shape (tshape u) v) -> le_shape (tshape t) v).
  Lemma dep_le l t : dep l t -> le_shape (tshape t) S.
  Proof. intros (_ & H). apply H. intros k u _ E. apply nth_error_In in E. now apply (proj1 (Forall_forall _ _) HS). Qed.
  Lemma dep_in k u : nth_error ins k = Some u -> dep [k] u.
  Proof.
    intros E. split; [intros k' [<-|[]]; exists u; split; auto using le_refl|]. intros v H. apply (H k u); [now left|auto].
  Qed.
  Lemma nth_leaf n k l : nth_error (map (fun k => [k]) (seq 0 n)) k = Some l -> l = [k] /\ k < n.
  Proof.
    intros E. assert (L : k < n). { rewrite <- (seq_length n 0), <- (map_length (fun k => [k])). apply nth_error_Some. congruence. }
    split; auto. assert (H : nth_error (map (fun k => [k]) (seq 0 n)) k = Some [k]).
    { rewrite nth_error_map. rewrite nth_error_nth' with (d := 0); [|now rewrite seq_length]. cbn. now rewrite seq_nth. }
    congruence.
  Qed.
  Lemma look_dep lv tmps r l : length ins = length ins -> Forall2 dep lv tmps ->
    look (map (fun k => [k]) (seq 0 (length ins))) lv r = Some l -> exists t, look ins tmps r = Some t /\ dep l t.
  Proof.
    intros _ F E. destruct r as [k|k]; cbn in *.
    - apply nth_leaf in E. destruct E as (-> & L). destruct (nth_error ins k) as [u|] eqn:E; [|apply nth_error_None in E; lia].
      exists u. split; auto. now apply dep_in.
    - revert k E. induction F as [|l' t' lv tmps D F IH]; intros [|k]; cbn; try discriminate; [|apply IH].
      intros [= <-]. eauto.
  Qed.
  Lemma looks_dep lv tmps rs : Forall2 dep lv tmps -> forall ls,
    looks (map (fun k => [k]) (seq 0 (length ins))) lv rs = Some ls -> exists ts, looks ins tmps rs = Some ts /\ Forall2 dep ls ts.
  Proof.
    intros F. induction rs as [|r rs IH]; cbn; intros ls.
    - intros [= <-]. exists []. split; auto.
    - destruct (look _ lv r) as [l|] eqn:E; [|discriminate]. destruct (looks _ lv rs) as [ls'|]; [|discriminate]. intros [= <-].
      destruct (look_dep _ _ _ _ eq_refl F E) as (t & -> & D). destruct (IH _ eq_refl) as (ts & -> & D').
      exists (t :: ts). split; auto.
  Qed.
  Lemma dep_bcast ls ts : Forall2 dep ls ts -> exists u, bcast_all (map tshape ts) = Some u /\ forall f, dep (concat ls) (Ten u f).
  Proof.
    intros F. assert (B : Forall (fun s => le_shape s S) (map tshape ts)).
    { induction F; cbn; constructor; auto. eapply dep_le; eauto. }
    destruct (bcast_all_exists _ _ B) as (u & E). exists u. split; auto. destruct (bcast_all_some _ _ E) as (A & C). intros f. split; cbn.
    - intros k H. apply in_concat in H. destruct H as (l & L & K). clear C B E. revert A L. induction F as [|l' t ls ts D F IH]; cbn; [tauto|].
      intros A [->|L]; inversion A; subst; auto. destruct D as (D & _). destruct (D k K) as (w & W & V). exists w. split; auto.
      eapply le_trans; eauto.
    - intros v H. apply C. clear A B C E. induction F as [|l' t ls ts D F IH]; cbn; constructor.
      + apply D. intros k w K W. apply (H k w); auto. cbn. apply in_or_app. now left.
      + apply IH. intros k w K W. apply (H k w); auto. cbn. apply in_or_app. now right.
  Qed.
  Lemma run_dep steps : forall lv tmps lv', Forall2 dep lv tmps -> leaves (length ins) lv steps = Some lv' ->
    exists tmps', run opset ins tmps steps = Some tmps' /\ Forall2 dep lv' tmps'.
  Proof.
    induction steps as [|s steps IH]; intros lv tmps lv' F; cbn [leaves run].
    - intros [= <-]. eauto.
    - destruct s as [sh v|op a rs]; cbn [run_step].
      + destruct sh; [|discriminate]. intros E. eapply IH; [|exact E]. apply Forall2_app; auto. constructor; auto.
        split; [intros k []|intros w _; apply le_nil].
      + destruct (looks _ lv rs) as [ls|] eqn:E; [|discriminate]. intros E'. destruct (looks_dep _ _ _ F _ E) as (ts & -> & D).
        destruct (dep_bcast _ _ D) as (u & U & V). unfold lift. rewrite U. eapply IH; [|exact E'].
        apply Forall2_app; auto.
  Qed.
  (** elements *)
  Context (ix : list nat) (vs : list val).
  Hypothesis Hix : inb ix S.
  Hypothesis Hvs : map (pt ix) ins = map Some vs.
  Lemma all_vals_map ws : all_vals (map Some ws) = Some ws.
  Proof. induction ws as [|w ws IH]; cbn; auto. now rewrite IH. Qed.
  Lemma look_pt tmps ws r w : map (pt ix) tmps = map Some ws -> look vs ws r = Some w -> exists t, look ins tmps r = Some t /\ pt ix t = Some w.
  Proof.
    assert (G : forall (l : list ten) us k u, map (pt ix) l = map Some us -> nth_error us k = Some u -> exists t, nth_error l k = Some t /\ pt ix t = Some u).
    { clear. induction l as [|t l IH]; intros [|u us] [|k] w; cbn; try discriminate; intros [= E E'].
      - intros [= <-]. eauto.
      - intros H. eauto. }
    intros E. destruct r; cbn; intros H; eapply G; eauto.
  Qed.
  Lemma looks_pt tmps ws rs us : map (pt ix) tmps = map Some ws -> looks vs ws rs = Some us ->
    forall ts, looks ins tmps rs = Some ts -> map (pt ix) ts = map Some us.
  Proof.
    intros E. revert us. induction rs as [|r rs IH]; cbn; intros us.
    - intros [= <-] ts [= <-]. reflexivity.
    - destruct (look vs ws r) as [w|] eqn:L; [|discriminate]. destruct (looks vs ws rs) as [l|]; [|discriminate]. intros [= <-] ts.
      destruct (look_pt _ _ _ _ E L) as (t & -> & P). destruct (looks ins tmps rs) as [ts'|]; [|discriminate]. intros [= <-]. cbn.
      f_equal; auto.
  Qed.
  Lemma lift_pt f ts t us : lift f ts = Some t -> le_shape (tshape t) S -> map (pt ix) ts = map Some us -> pt ix t = f us.
  Proof.
    unfold lift. destruct (bcast_all (map tshape ts)) as [u|] eqn:E; [|discriminate]. intros [= <-] L H. cbn [tshape] in L.
    destruct (bcast_all_some _ _ E) as (A & _).
    assert (Lu : length u <= length ix) by (rewrite (inb_length _ _ Hix); now apply le_length).
    assert (G : map (fun t => telem t (align (tshape t) (align u ix))) ts = map (pt ix) ts).
    { clear H E. induction ts as [|t ts IH]; cbn [map]; auto. cbn [map] in A. inversion A; subst. f_equal; [|now apply IH].
      unfold pt. now rewrite align_align. }
    unfold pt. cbn [telem tshape]. rewrite G, H, all_vals_map. reflexivity.
  Qed.
  Lemma run_pt steps : forall lv tmps ws lv' tmps' ws', Forall2 dep lv tmps -> map (pt ix) tmps = map Some ws ->
    leaves (length ins) lv steps = Some lv' -> run opset ins tmps steps = Some tmps' -> sevals opset vs ws steps = Some ws' ->
    map (pt ix) tmps' = map Some ws'.
  Proof.
    induction steps as [|s steps IH]; intros lv tmps ws lv' tmps' ws' F P; cbn [leaves run sevals].
    - intros _ [= <-] [= <-]. exact P.
    - destruct s as [sh v|op a rs]; cbn [run_step].
      + destruct sh; [|discriminate]. intros A B C. eapply IH; [| |exact A|exact B|exact C].
        * apply Forall2_app; auto. constructor; auto. split; [intros k []|intros w _; apply le_nil].
        * rewrite !map_app, P. reflexivity.
      + destruct (looks _ lv rs) as [ls|] eqn:E; [|discriminate]. destruct (looks_dep _ _ _ F _ E) as (ts & T & D). rewrite T.
        destruct (dep_bcast _ _ D) as (u & U & V).
        destruct (looks vs ws rs) as [us|] eqn:K; [|intros _ _ H; discriminate H].
        destruct (lift (onnx_op opset op a) ts) as [t|] eqn:L; [|intros _ H; discriminate H].
        destruct (onnx_op opset op a us) as [w|] eqn:O; [|intros _ _ H; discriminate H].
        assert (Dt : dep (concat ls) t). { unfold lift in L. rewrite U in L. injection L as <-. apply V. }
        intros A B C. eapply IH; [| |exact A|exact B|exact C].
        * apply Forall2_app; auto.
        * rewrite !map_app, P. cbn. f_equal. f_equal. rewrite <- O. eapply lift_pt; [exact L|eapply dep_le; exact Dt|].
          eapply looks_pt; [exact P|exact K|exact T].
  Qed.
End Run.

Theorem computes_lift opset p n (Q : list val -> Prop) f : covers n p = true ->
  (forall vs v, length vs = n -> Q vs -> f vs = Some v -> exists w, seval opset p vs = Some w /\ same v w) ->
  computes opset p n Q f.
Proof.
  intros C H ins tf Ln Hl HQ. subst n. destruct p as [steps r]. unfold covers in C. cbn [fst snd] in C.
  destruct (leaves (length ins) [] steps) as [lv|] eqn:E; [|discriminate C]. destruct (look _ lv r) as [l|] eqn:L; [|discriminate C].
  unfold lift in Hl. destruct (bcast_all (map tshape ins)) as [S|] eqn:B; [|discriminate Hl]. injection Hl as <-.
  destruct (bcast_all_some _ _ B) as (U & LU).
  assert (HS : Forall (fun t => le_shape (tshape t) S) ins). { apply Forall_map in U. exact U. }
  destruct (run_dep opset ins S HS steps [] [] lv (Forall2_nil _) E) as (tmps & R & D).
  destruct (look_dep ins lv tmps r l eq_refl D L) as (t & T & Dt).
  exists t. unfold result. cbn [fst snd]. rewrite R. split; [exact T|].
  assert (Et : S = tshape t).
  { apply le_antisym; [|eapply dep_le; eauto]. apply LU. apply Forall_map. apply Forall_forall. intros u Hu.
    apply In_nth_error in Hu. destruct Hu as (k & K). assert (Lk : k < length ins) by (apply nth_error_Some; congruence).
    assert (I : In k l).
    { rewrite forallb_forall in C. specialize (C k). assert (J : In k (seq 0 (length ins))) by (apply in_seq; lia). apply C in J.
      apply existsb_exists in J. destruct J as (k' & K1 & K2). apply Nat.eqb_eq in K2. now subst. }
    destruct Dt as (Dt & _). destruct (Dt k I) as (w & W & V). congruence. }
  split; [exact Et|]. cbn [tshape telem]. intros ix Hix v Hv.
  destruct (all_vals (map (fun t => telem t (align (tshape t) ix)) ins)) as [vs|] eqn:A; [|discriminate Hv].
  assert (P : map (pt ix) ins = map Some vs).
  { clear - A. change (all_vals (map (pt ix) ins) = Some vs) in A. revert vs A. induction ins as [|t ins IH]; cbn; intros vs.
    - intros [= <-]. reflexivity.
    - destruct (pt ix t); [|discriminate]. destruct (all_vals _) as [l|]; [|discriminate]. intros [= <-]. cbn. f_equal. auto. }
  assert (Lv : length vs = length ins) by (rewrite <- (map_length Some vs), <- P, map_length; reflexivity).
  destruct (H vs v Lv (HQ S ix vs B Hix A) Hv) as (w & W & Sm).
  unfold seval in W. cbn [fst snd] in W. destruct (sevals opset vs [] steps) as [ws|] eqn:SE; [|discriminate W].
  assert (Pt := run_pt opset ins S HS ix vs Hix P steps [] [] [] lv tmps ws (Forall2_nil _) eq_refl E R SE).
  destruct (look_pt ins ix vs P tmps ws r w Pt W) as (t' & T' & Pw). rewrite T in T'. injection T' as <-.
  exists w. split; [|exact Sm]. unfold pt in Pw. rewrite <- Et in Pw. rewrite align_self in Pw; auto.
Qed.
