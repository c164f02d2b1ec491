(** What the graphs of ScatModel compute. *)
From Coq Require Import List Arith ZArith Bool Lia.
From Verif Require Import Tensor FoldModel OnnxSpec FoldProofs TensorProofs TOps TOpsProofs TOpsProofs2 RewValues ReduceSpec ReduceProofs ScatSpec ScatModel.
Import ListNotations.
Local Open Scope list_scope.

Lemma split_any : forall s p k, inb p s -> inb (firstn k p) (firstn k s) /\ inb (skipn k p) (skipn k s).
Proof.
  induction s as [|d s IH]; intros [|i p] k; cbn [inb]; try tauto; [intros _; rewrite !firstn_nil, !skipn_nil; cbn; auto|].
  intros [H K]. destruct k as [|k]; cbn [firstn skipn inb]; [auto|]. destruct (IH p k K). auto.
Qed.
Section S.
Context {A : Type} (f : A -> A -> A).
Variables (sh q : list nat) (k : nat) (idx : tensor Z) (upd : tensor A).
Hypothesis args : scatter_args sh q k idx upd.

Lemma norm_index_nat : forall s pos, inb pos s -> norm_index s (map Z.of_nat pos) = Some pos.
Proof.
  induction s as [|d s IH]; intros [|i pos]; cbn [inb map norm_index]; try tauto. intros [H K]. rewrite IH by exact K.
  assert (E : norm_axis d (Z.of_nat i) = Some i). { unfold norm_axis. rewrite (proj2 (Z.leb_le 0 _)) by lia. rewrite (proj2 (Z.ltb_lt _ _)) by lia. now rewrite Nat2Z.id. }
  now rewrite E.
Qed.
Lemma row_is ix pos : length pos = k -> points idx ix pos -> sequence (map (fun j => get idx (ix ++ [j])) (seq 0 k)) = Some (map Z.of_nat pos).
Proof.
  intros L P. rewrite <- (sequence_map_some (map Z.of_nat pos)), map_map. f_equal. rewrite <- L in *. clear L.
  apply nth_ext with (d := get idx (ix ++ [0])) (d' := None); [now rewrite !map_length, seq_length|].
  intros j J. rewrite map_length, seq_length in J. rewrite (map_nth (fun j0 => get idx (ix ++ [j0]))). rewrite seq_nth by exact J. cbn [Nat.add]. rewrite P by exact J.
  rewrite (nth_indep _ None (Some (Z.of_nat 0))) by (now rewrite map_length). now rewrite (map_nth (fun x => Some (Z.of_nat x))).
Qed.
Lemma points_unique ix p p' : length p = length p' -> points idx ix p -> points idx ix p' -> p = p'.
Proof.
  intros L P P'. apply nth_ext with (d := 0) (d' := 0); [exact L|]. intros j J. assert (E : Some (Z.of_nat (nth j p 0)) = Some (Z.of_nat (nth j p' 0))) by (rewrite <- P, <- P'; congruence || lia). injection E as E. lia.
Qed.
Lemma pos_length pos : inb pos (firstn k sh) -> length pos = k.
Proof. intro I. rewrite (inb_length _ _ I), firstn_length. destruct args as (_ & _ & _ & K & _). lia. Qed.
(** the rows among l that point at pos *)
Definition pointsb (pos ix : list nat) : bool :=
  match sequence (map (fun j => get idx (ix ++ [j])) (seq 0 k)) with Some l => if list_eq_dec Z.eq_dec l (map Z.of_nat pos) then true else false | None => false end.
Lemma pointsb_spec pos ix : length pos = k -> pointsb pos ix = true <-> points idx ix pos.
Proof.
  intro L. split.
  - unfold pointsb. destruct (sequence _) as [l|] eqn:E; [|discriminate]. destruct (list_eq_dec _ _ _) as [->|]; [|discriminate]. intros _ j J.
    apply sequence_spec in E. assert (Q := f_equal (fun m => nth_error m j) E). cbv beta in Q. rewrite !nth_error_map in Q.
    rewrite (nth_error_nth' _ 0) in Q by (rewrite seq_length; lia). rewrite seq_nth in Q by lia. rewrite (nth_error_nth' pos 0 J) in Q. cbn in Q. congruence.
  - intro P. unfold pointsb. rewrite (row_is ix pos L P). now destruct (list_eq_dec _ _ _).
Qed.
Definition update (rest ix : list nat) (d : A) : A := match get upd (ix ++ rest) with Some u => u | None => d end.
Lemma split_inb p : inb p sh -> inb (firstn k p) (firstn k sh) /\ inb (skipn k p) (skipn k sh).
Proof. apply split_any. Qed.
Lemma join_inb pos rest : inb pos (firstn k sh) -> inb rest (skipn k sh) -> inb (pos ++ rest) sh.
Proof. intros P Q. rewrite <- (firstn_skipn k sh). apply inb_app; [now apply inb_length|auto]. Qed.
Lemma split_join (pos rest : list nat) : length pos = k -> firstn k (pos ++ rest) = pos /\ skipn k (pos ++ rest) = rest.
Proof. intros <-. split; [rewrite firstn_app, firstn_all, Nat.sub_diag; cbn [firstn]; apply app_nil_r|rewrite skipn_app, skipn_all, Nat.sub_diag; reflexivity]. Qed.
Lemma scatter_loop : forall l t, wf t -> shape t = sh -> (forall ix, In ix l -> inb ix q) ->
  exists y, fold_left (fun o ix => match o with Some t => scatter_row f k idx upd t ix | None => None end) l (Some t) = Some y /\ wf y /\ shape y = sh /\
    forall pos rest, inb pos (firstn k sh) -> inb rest (skipn k sh) -> exists d us, get t (pos ++ rest) = Some d /\
      Forall2 (fun ix u => get upd (ix ++ rest) = Some u) (filter (pointsb pos) l) us /\ get y (pos ++ rest) = Some (fold_left f us d).
Proof.
  destruct args as (Wi & Wu & Si & K & Su & R). induction l as [|ix l IH]; intros t W Sh In0.
  - exists t. split; [reflexivity|]. split; [exact W|]. split; [exact Sh|]. intros pos rest P Q. destruct (get_wf t (pos ++ rest) W) as [d E]; [rewrite Sh; now apply join_inb|]. exists d, []. split; [exact E|]. split; [constructor|exact E].
  - cbn [fold_left]. destruct (R ix (In0 ix (or_introl eq_refl))) as (pos0 & P0 & Pt0). assert (L0 := pos_length _ P0).
    unfold scatter_row at 2. rewrite (row_is ix pos0 L0 Pt0), Sh, (norm_index_nat _ _ P0).
    assert (U : forall p, inb p sh -> get upd (ix ++ skipn k p) <> None).
    { intros p Ip. apply get_some; [exact Wu|]. rewrite Su. apply inb_app; [apply inb_length; apply In0; now left|]. split; [apply In0; now left|]. now apply split_inb. }
    match goal with |- context [build sh ?g] => set (F := g); destruct (build_ex sh F) as (t' & E & St & Wt & Gt) end.
    { intros p Ip. unfold F. destruct (list_eqb _ _); [|apply get_some; [exact W|now rewrite Sh]]. destruct (get_wf t p W) as [a ->]; [now rewrite Sh|].
      specialize (U p Ip). destruct (get upd _); [discriminate|congruence]. }
    rewrite E. destruct (IH t' Wt St (fun i H => In0 i (or_intror H))) as (y & Ey & Wy & Sy & Gy). exists y. split; [exact Ey|]. split; [exact Wy|]. split; [exact Sy|].
    intros pos rest P Q. destruct (Gy pos rest P Q) as (d' & us & Gd & Fu & Gv). assert (L := pos_length _ P). assert (Ip := join_inb pos rest P Q).
    rewrite Gt in Gd by exact Ip. unfold F in Gd. destruct (split_join pos rest L) as [S1 S2]. rewrite S1, S2 in Gd. destruct (get_wf t (pos ++ rest) W) as [d Ed]; [now rewrite Sh|]. rewrite Ed in Gd.
    exists d. cbn [filter]. destruct (pointsb pos ix) eqn:Pb.
    + apply pointsb_spec in Pb; [|exact L]. assert (EP : pos = pos0) by (apply (points_unique ix); auto; congruence). subst pos0. rewrite (proj2 (list_eqb_spec pos pos) eq_refl) in Gd.
      specialize (U _ Ip). rewrite S2 in U. destruct (get upd (ix ++ rest)) as [u|] eqn:Eu; [|congruence]. injection Gd as <-.
      exists (u :: us). split; [exact Ed|]. split; [constructor; auto|]. exact Gv.
    + assert (NE : list_eqb pos pos0 = false). { apply not_true_is_false. intro T. apply list_eqb_spec in T. subst pos0. apply (proj2 (pointsb_spec pos ix L)) in Pt0. congruence. }
      rewrite NE in Gd. injection Gd as <-. exists us. auto.
Qed.
Lemma scatter_ok t : wf t -> shape t = sh -> exists y, f_scatter_nd f t idx upd = Some y /\ tf_scatter f sh q k (get t) idx upd y.
Proof.
  intros W Sh. destruct (args) as (Wi & Wu & Si & K & Su & R). destruct (scatter_loop (indices q) t W Sh) as (y & E & Wy & Sy & Gy); [intros ix I; now apply in_indices|].
  exists y. split.
  - unfold f_scatter_nd. cbv zeta. rewrite Si, last_last, removelast_last, Su, Sh, app_length. cbn [length]. rewrite Nat.add_1_r. cbn [Nat.eqb negb andb].
    rewrite (proj2 (Nat.leb_le 1 k)), (proj2 (Nat.leb_le k _)) by lia. rewrite (proj2 (list_eqb_spec _ _) eq_refl). exact E.
  - split; [exact Wy|]. split; [exact Sy|]. intros pos rest P Q. destruct (Gy pos rest P Q) as (d & us & Ed & Fu & Ey). exists (filter (pointsb pos) (indices q)), d, us.
    split; [|auto]. split; [apply NoDup_filter, indices_NoDup|]. intro ix. rewrite filter_In, in_indices, (pointsb_spec pos ix (pos_length _ P)). reflexivity.
Qed.
End S.
