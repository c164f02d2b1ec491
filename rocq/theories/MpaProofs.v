(** Proofs about the positions of MaxPoolWithArgmax. *)
From Coq Require Import List Arith ZArith Lia Bool.
From Verif Require Import Tensor TensorProofs OnnxSpec FoldModel RewValues TOps TOpsProofs MpaSpec MpaModel.
Import ListNotations.
Local Open Scope list_scope.

Definition Is4 (N I J C : nat) (t : tensor Z) (f : nat -> nat -> nat -> nat -> Z) : Prop :=
  wf t /\ shape t = [N; I; J; C] /\ forall n i j c, n < N -> i < I -> j < J -> c < C -> get t [n; i; j; c] = Some (f n i j c).
Lemma self4 N I J C n i j c : n < N -> i < I -> j < J -> c < C -> bcast_ix 4 [N; I; J; C] [n; i; j; c] = [n; i; j; c].
Proof. intros. exact (bcast_self [N; I; J; C] [n; i; j; c] ltac:(cbn; auto)). Qed.
Lemma bin4 (op : Z -> Z -> Z) N I J C t f (u : tensor Z) g : Is4 N I J C t f -> length (shape u) <= 4 -> bcast_dims [N; I; J; C] (pad_ones 4 (shape u)) = Some [N; I; J; C] ->
  (forall n i j c, n < N -> i < I -> j < J -> c < C -> get u (bcast_ix 4 (shape u) [n; i; j; c]) = Some (g n i j c)) ->
  exists y, f_binary op t u = Some y /\ Is4 N I J C y (fun n i j c => op (f n i j c) (g n i j c)).
Proof.
  intros (W & Sh & G) L B Gu. unfold f_binary. cbv zeta. rewrite Sh. cbn [length]. rewrite Nat.max_l by exact L.
  change (pad_ones 4 [N; I; J; C]) with [N; I; J; C]. rewrite B.
  match goal with |- context [build ?sh ?F] => destruct (build_ex sh F) as (y & E & Sy & Wy & Gy) end.
  - intros ix Hix. destruct ix as [|n [|i [|j [|c [|? ?]]]]]; cbn [inb] in Hix; try tauto. destruct Hix as (Hn & Hi & Hj & Hc & _).
    rewrite self4 by auto. rewrite G, Gu by auto. discriminate.
  - exists y. split; [exact E|]. split; [exact Wy|]. split; [exact Sy|]. intros n i j c Hn Hi Hj Hc. rewrite Gy by (cbn; auto).
    rewrite self4 by auto. rewrite G, Gu by auto. reflexivity.
Qed.
Lemma bcast_one d : (if Nat.eqb d 1 then 1 else d) = d.
Proof. destruct (Nat.eqb_spec d 1); auto. Qed.
Lemma bcast4 N I J C a b c d : (a = 1 \/ a = N) -> (b = 1 \/ b = I) -> (c = 1 \/ c = J) -> (d = 1 \/ d = C) -> bcast_dims [N; I; J; C] [a; b; c; d] = Some [N; I; J; C].
Proof. intros H1 H2 H3 H4. cbn [bcast_dims]. destruct H1 as [-> | ->], H2 as [-> | ->], H3 as [-> | ->], H4 as [-> | ->];
  repeat match goal with |- context [Nat.eqb ?x ?y] => destruct (Nat.eqb_spec x y); try congruence end; subst; reflexivity. Qed.
Lemma bin4_scalar (op : Z -> Z -> Z) N I J C t f v : Is4 N I J C t f -> exists y, f_binary op t (Tensor [1] [v]) = Some y /\ Is4 N I J C y (fun n i j c => op (f n i j c) v).
Proof.
  intro H. apply (bin4 op N I J C t f (Tensor [1] [v]) (fun _ _ _ _ => v) H); cbn [shape length]; [lia| |].
  - change (pad_ones 4 [1]) with [1; 1; 1; 1]. apply bcast4; auto.
  - intros. reflexivity.
Qed.
Lemma bin4_range (op : Z -> Z -> Z) N I J C t f : Is4 N I J C t f -> exists y, f_binary op t (range_n C) = Some y /\ Is4 N I J C y (fun n i j c => op (f n i j c) (Z.of_nat c)).
Proof.
  intro H. apply (bin4 op N I J C t f (range_n C) (fun _ _ _ c => Z.of_nat c) H); cbn [shape length range_n]; [lia| |].
  - change (pad_ones 4 [C]) with [1; 1; 1; C]. apply bcast4; auto.
  - intros n i j c _ _ _ Hc. unfold bcast_ix. cbn [length Nat.sub skipn combine map fst snd]. unfold get. cbn [shape data ravel size fold_right].
    assert (E : (if Nat.eqb C 1 then 0 else c) = c) by (destruct (Nat.eqb_spec C 1); lia). rewrite E. unfold range_n. cbn [shape data ravel size fold_right]. replace (c * 1 + 0) with c by lia. now apply nth_error_map_seq.
Qed.
Lemma bin4_batch (op : Z -> Z -> Z) N I J C t f u g : Is4 N I J C t f -> Is4 N 1 1 1 u g -> exists y, f_binary op t u = Some y /\ Is4 N I J C y (fun n i j c => op (f n i j c) (g n 0 0 0)).
Proof.
  intros H (W & Sh & G). apply (bin4 op N I J C t f u (fun n _ _ _ => g n 0 0 0) H); rewrite ?Sh; cbn [length]; [lia| |].
  - change (pad_ones 4 [N; 1; 1; 1]) with [N; 1; 1; 1]. apply bcast4; auto.
  - intros n i j c Hn _ _ _. assert (E : bcast_ix 4 [N; 1; 1; 1] [n; i; j; c] = [n; 0; 0; 0]).
    { unfold bcast_ix. cbn [length Nat.sub skipn combine map fst snd Nat.eqb]. destruct (Nat.eqb_spec N 1); f_equal; lia. }
    rewrite E. apply G; auto.
Qed.
Lemma is4_ext N I J C y f g : Is4 N I J C y f -> (forall n i j c, n < N -> i < I -> j < J -> c < C -> f n i j c = g n i j c) -> Is4 N I J C y g.
Proof. intros (W & Sh & G) E. split; [exact W|]. split; [exact Sh|]. intros. rewrite G, E by auto. reflexivity. Qed.
Lemma batch_column N : exists u, f_unsqueeze [1; 2; 3]%Z (range_n N) = Some u /\ Is4 N 1 1 1 u (fun n _ _ _ => Z.of_nat n).
Proof.
  exists (Tensor [N; 1; 1; 1] (map Z.of_nat (seq 0 N))). split; [reflexivity|]. split; [unfold wf; cbn; rewrite map_length, seq_length; lia|]. split; [reflexivity|].
  intros n i j c Hn Hi Hj Hc. unfold get. cbn [shape data ravel size fold_right]. replace (n * (1 * (1 * (1 * 1))) + (i * (1 * (1 * 1)) + (j * (1 * 1) + (c * 1 + 0)))) with n by lia.
  now apply nth_error_map_seq.
Qed.
Lemma agrees_dim guess sh k d : agrees guess sh -> nth_error sh k = Some d -> match dim guess k with Some z => z = (-1)%Z \/ z = Z.of_nat d | None => True end.
Proof.
  unfold dim, agrees. destruct guess as [g|]; [|auto]. intro F. revert k. induction F as [|z d' g' l Hz F IH]; intros [|k] E; cbn in *; try discriminate; auto.
  - injection E as ->. exact Hz.
  - now apply IH.
Qed.
Section Convert.
Variables (opset : nat) (guess : option (list Z)) (include : option bool) (N H W C OH OW : nat) (sel : nat -> nat -> nat -> nat -> nat * nat) (ind : tensor Z).
Hypothesis within : forall n i j c, n < N -> i < OH -> j < OW -> c < C -> fst (sel n i j c) < H /\ snd (sel n i j c) < W.
Hypothesis holds : Is4 N OH OW C ind (fun n i j c => Z.of_nat (onnx_index H W C n c (fst (sel n i j c)) (snd (sel n i j c)))).
Hypothesis known : agrees guess [N; H; W; C].
Let hw : Z := (Z.of_nat H * Z.of_nat W)%Z.
Let place n i j c : Z := Z.of_nat (fst (sel n i j c) * W + snd (sel n i j c)).
Lemma rest h w n c : h < H -> w < W -> (Z.of_nat (onnx_index H W C n c h w) = Z.of_nat (n * C + c) * hw + Z.of_nat (h * W + w) /\ 0 <= Z.of_nat (h * W + w) < hw)%Z.
Proof.
  intros Hh Hw. unfold onnx_index, hw. split; [nia|]. split; [lia|]. rewrite <- Nat2Z.inj_mul. apply Nat2Z.inj_lt. nia.
Qed.
Lemma remainder_ok : exists xy, (if Nat.leb 10 opset then f_binary Z.modulo ind (Tensor [1] [hw])
         else obind (f_binary Z.quot ind (Tensor [1] [hw])) (fun xy_div => obind (f_binary Z.mul xy_div (Tensor [1] [hw])) (fun xy_mul => f_binary Z.sub ind xy_mul))) = Some xy /\
  Is4 N OH OW C xy place.
Proof.
  destruct (Nat.leb 10 opset).
  - destruct (bin4_scalar Z.modulo _ _ _ _ _ _ hw holds) as (y & -> & Y). exists y. split; [reflexivity|]. apply (is4_ext _ _ _ _ _ _ _ Y).
    intros n i j c Hn Hi Hj Hc. destruct (within n i j c) as [Hh Hw]; auto. destruct (rest (fst (sel n i j c)) (snd (sel n i j c)) n c Hh Hw) as [-> B]. cbn beta.
    rewrite Z.add_comm, Z.mod_add by lia. now apply Z.mod_small.
  - destruct (bin4_scalar Z.quot _ _ _ _ _ _ hw holds) as (y & -> & Y). cbn [obind]. destruct (bin4_scalar Z.mul _ _ _ _ _ _ hw Y) as (z & -> & K). cbn [obind].
    assert (E : exists xy, f_binary Z.sub ind z = Some xy /\ Is4 N OH OW C xy (fun n i j c => (Z.of_nat (onnx_index H W C n c (fst (sel n i j c)) (snd (sel n i j c))) -
        (Z.of_nat (onnx_index H W C n c (fst (sel n i j c)) (snd (sel n i j c))) ÷ hw) * hw)%Z)).
    { destruct K as (Wz & Sz & Gz). apply (bin4 Z.sub _ _ _ _ _ _ z (fun n i j c => (Z.of_nat (onnx_index H W C n c (fst (sel n i j c)) (snd (sel n i j c))) ÷ hw * hw)%Z) holds); rewrite ?Sz; cbn [length]; [lia| |].
      - change (pad_ones 4 [N; OH; OW; C]) with [N; OH; OW; C]. apply bcast4; auto.
      - intros. rewrite self4 by auto. apply Gz; auto. }
    destruct E as (xy & -> & X). exists xy. split; [reflexivity|]. apply (is4_ext _ _ _ _ _ _ _ X).
    intros n i j c Hn Hi Hj Hc. destruct (within n i j c) as [Hh Hw]; auto. destruct (rest (fst (sel n i j c)) (snd (sel n i j c)) n c Hh Hw) as [-> B]. fold (place n i j c) in *.
    assert (Q : (0 <= Z.of_nat (n * C + c) * hw)%Z) by (apply Z.mul_nonneg_nonneg; lia).
    rewrite Z.quot_div_nonneg by lia. rewrite (Z.add_comm _ (place n i j c)), Z.div_add, Z.div_small by lia. lia.
Qed.
Lemma known_dim k d : nth_error [N; H; W; C] k = Some d -> match dim guess k with Some z => z = (-1)%Z \/ z = Z.of_nat d | None => True end.
Proof. now apply agrees_dim. Qed.
(** what the handler asks for *)
Definition supported : bool :=
  ((match dim guess 3 with Some d => (0 <? d)%Z | None => false end) || Nat.leb 11 opset) &&
  (negb (match include with Some b => b | None => true end) || (match dim guess 0 with Some d => Z.eqb d 1 | None => false end) || Nat.leb 11 opset).
Lemma channels_ok : ((match dim guess 3 with Some d => (0 <? d)%Z | None => false end) || Nat.leb 11 opset) = true ->
  match dim guess 3 with
  | Some d => if (0 <? d)%Z then Some (range_n (Z.to_nat d)) else if Nat.leb 11 opset then obind (f_squeeze [0%Z] (Tensor [1] [Z.of_nat C])) f_range else None
  | None => if Nat.leb 11 opset then obind (f_squeeze [0%Z] (Tensor [1] [Z.of_nat C])) f_range else None
  end = Some (range_n C).
Proof.
  assert (K := known_dim 3 C eq_refl). assert (R : obind (f_squeeze [0%Z] (Tensor [1] [Z.of_nat C])) f_range = Some (range_n C)) by (cbn; now rewrite Nat2Z.id).
  intro S0. destruct (dim guess 3) as [d|]; [destruct (Z.ltb_spec 0 d)|].
  - destruct K as [-> | ->]; [lia|]. now rewrite Nat2Z.id.
  - cbn [orb] in S0. now rewrite S0.
  - cbn [orb] in S0. now rewrite S0.
Qed.
Lemma convert_ok : supported = true -> exists y, convert_indices opset guess include [N; H; W; C] ind = Some y /\
  Is4 N OH OW C y (fun n i j c => Z.of_nat (tf_index H W C (match include with Some b => b | None => true end) n c (fst (sel n i j c)) (snd (sel n i j c)))).
Proof.
  intro Su. apply andb_prop in Su. destruct Su as [S1 S2]. unfold convert_indices. cbn [length map].
  change (f_split 0 4 0 (Tensor [4] [Z.of_nat N; Z.of_nat H; Z.of_nat W; Z.of_nat C])) with (Some (Tensor [1] [Z.of_nat N])).
  change (f_split 0 4 1 (Tensor [4] [Z.of_nat N; Z.of_nat H; Z.of_nat W; Z.of_nat C])) with (Some (Tensor [1] [Z.of_nat H])).
  change (f_split 0 4 2 (Tensor [4] [Z.of_nat N; Z.of_nat H; Z.of_nat W; Z.of_nat C])) with (Some (Tensor [1] [Z.of_nat W])).
  change (f_split 0 4 3 (Tensor [4] [Z.of_nat N; Z.of_nat H; Z.of_nat W; Z.of_nat C])) with (Some (Tensor [1] [Z.of_nat C])). cbn [obind].
  change (f_binary Z.mul (Tensor [1] [Z.of_nat H]) (Tensor [1] [Z.of_nat W])) with (Some (Tensor [1] [hw])). cbn [obind].
  change (f_binary Z.mul (Tensor [1] [hw]) (Tensor [1] [Z.of_nat C])) with (Some (Tensor [1] [(hw * Z.of_nat C)%Z])). cbn [obind].
  destruct remainder_ok as (xy & -> & X). cbn [obind]. destruct (bin4_scalar Z.mul _ _ _ _ _ _ (Z.of_nat C) X) as (xc & -> & XC). cbn [obind].
  rewrite (channels_ok S1). cbn [obind]. destruct (bin4_range Z.add _ _ _ _ _ _ XC) as (xyc & -> & Y). cbn [obind]. cbv zeta.
  set (inc := match include with Some b => b | None => true end) in *. set (single := match dim guess 0 with Some d => Z.eqb d 1 | None => false end) in *.
  destruct (inc && negb single) eqn:B.
  - apply andb_prop in B. destruct B as [B1 B2]. rewrite B1 in S2 |- *. destruct single; [discriminate|]. cbn [negb orb] in S2. rewrite S2.
    assert (R : obind (f_squeeze [0%Z] (Tensor [1] [Z.of_nat N])) f_range = Some (range_n N)) by (cbn; now rewrite Nat2Z.id).
    destruct (f_squeeze [0%Z] (Tensor [1] [Z.of_nat N])) as [nsq|]; [|discriminate]. cbn [obind] in *. rewrite R. cbn [obind]. destruct (batch_column N) as (u & -> & U). cbn [obind].
    destruct (bin4_scalar Z.mul _ _ _ _ _ _ (hw * Z.of_nat C)%Z U) as (us & -> & US). cbn [obind]. destruct (bin4_batch Z.add _ _ _ _ _ _ _ _ Y US) as (y & -> & K). exists y. split; [reflexivity|].
    apply (is4_ext _ _ _ _ _ _ _ K). intros n i j c Hn Hi Hj Hc. unfold tf_index, place, hw. nia.
  - exists xyc. split; [reflexivity|]. apply (is4_ext _ _ _ _ _ _ _ Y). intros n i j c Hn Hi Hj Hc. unfold tf_index, place.
    destruct inc; [|nia]. cbn [andb] in B. assert (n = 0) as ->; [|nia]. unfold single in B. assert (K := known_dim 0 N eq_refl). destruct (dim guess 0) as [d|]; [|discriminate].
    apply negb_false_iff, Z.eqb_eq in B as ->. destruct K; lia.
Qed.
Lemma unsupported_fails : supported = false -> convert_indices opset guess include [N; H; W; C] ind = None.
Proof.
  intro Su. unfold convert_indices. repeat (match goal with |- obind ?x _ = None => destruct x as [?|] eqn:?; [cbn [obind]|reflexivity] end).
  cbv zeta. unfold supported in Su.
  destruct (dim guess 3) as [d|]; [destruct (0 <? d)%Z|]; destruct (Nat.leb 11 opset) eqn:E; cbn [orb andb] in Su; try discriminate; try (rewrite ?orb_true_r in Su; discriminate).
  destruct (match include with Some b => b | None => true end); cbn [negb orb andb] in Su |- *; [|discriminate]. destruct (match dim guess 0 with Some d0 => (d0 =? 1)%Z | None => false end); [discriminate|]. reflexivity.
Qed.
End Convert.
