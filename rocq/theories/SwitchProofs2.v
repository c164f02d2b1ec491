(** The handlers that only rewrite attributes, on graphs. *)
From Coq Require Import String List Arith ZArith Bool Lia Permutation.
From Verif Require Import FGraph FGraphSpec FGraphProofs IdentityModel IdentityProofs ApplyOptProofs RewriteProofs.
From Verif Require Import Tensor TensorProofs OnnxSpec FoldModel FoldProofs NNModel PushSpec PushModel PushProofs PushProofs2 SwitchModel SwitchSpec SwitchProofs.
Import ListNotations.
Local Open Scope string_scope.
Local Open Scope list_scope.

(** ** attributes *)
Lemma find_filter {A} (f h : A -> bool) l : (forall a, f a = true -> h a = true) -> find f (filter h l) = find f l.
Proof. intro H. induction l as [|a l IH]; cbn [filter find]; auto. destruct (h a) eqn:E; cbn [find]; rewrite IH; auto. destruct (f a) eqn:F; auto. rewrite H in E; auto. discriminate. Qed.
Lemma find_put k v k' at_ : find (fun p => String.eqb (fst p) k') (put_attr k v at_) = if String.eqb k k' then Some (k, v) else find (fun p => String.eqb (fst p) k') at_.
Proof.
  unfold put_attr. cbn [find fst]. destruct (String.eqb_spec k k'); auto. apply find_filter. intros [a b]. cbn [fst]. intro H. apply String.eqb_eq in H. subst a. destruct (String.eqb_spec k' k); [congruence|reflexivity].
Qed.
Lemma find_del k k' at_ : k <> k' -> find (fun p => String.eqb (fst p) k') (del_attr k at_) = find (fun p => String.eqb (fst p) k') at_.
Proof.
  intro N. unfold del_attr. apply find_filter. intros [a b]. cbn [fst]. intro H. apply String.eqb_eq in H. subst a. destruct (String.eqb_spec k' k); [congruence|reflexivity].
Qed.
Lemma attr_int_spec k at_ d : match attr_int k at_ with Some a => a | None => d end = int_attr k at_ d.
Proof. unfold attr_int, lookup_attr, int_attr. destruct (find _ at_) as [[k' [z|l|s|i]]|]; reflexivity. Qed.
Lemma attr_ints_spec k at_ d : match attr_ints k at_ with Some a => a | None => d end = ints_attr k at_ d.
Proof. unfold attr_ints, lookup_attr, ints_attr. destruct (find _ at_) as [[k' [z|l|s|i]]|]; reflexivity. Qed.
Lemma int_put k z k' at_ d : int_attr k' (put_attr k (AInt z) at_) d = if String.eqb k k' then z else int_attr k' at_ d.
Proof. unfold int_attr. rewrite find_put. destruct (String.eqb k k'); reflexivity. Qed.
Lemma int_put' k l k' at_ d : k <> k' -> int_attr k' (put_attr k (AInts l) at_) d = int_attr k' at_ d.
Proof. intro N. unfold int_attr. rewrite find_put. destruct (String.eqb_spec k k'); congruence. Qed.
Lemma ints_put k l at_ d : ints_attr k (put_attr k (AInts l) at_) d = l.
Proof. unfold ints_attr. now rewrite find_put, String.eqb_refl. Qed.

(** ** ranks *)
Lemma moves_rank {A B} p n (F G : tensor A -> tensor B -> Prop) q : moves p F (fun x u => G x u /\ length (shape x) = n) q ->
  (forall x u y, G x u -> transpose_rel q u y -> length (shape x) = n) -> moves p F G q.
Proof.
  intros H R x y. rewrite (H x y). split; intros (u & K1 & K2); exists u.
  - tauto.
  - split; auto. split; auto. now apply (R x u y).
Qed.
Lemma tr_rank {A} p n (x y : tensor A) : is_perm p n -> transpose_rel p x y -> length (shape x) = n.
Proof. intros H (P & _). apply Permutation_length in P. apply Permutation_length in H. rewrite seq_length in P, H. lia. Qed.

Lemma tr_rank_out {A} p n (x y : tensor A) : is_perm p n -> transpose_rel p x y -> length (shape y) = n.
Proof. intros H (P & _ & _ & E & _). rewrite E, pick_length. now apply (pn p n). Qed.
Lemma tr_len {A} p (x y : tensor A) : transpose_rel p x y -> length (shape x) = length p.
Proof. intros (P & _). symmetry. now apply (pn p _). Qed.
Lemma moves_on {A B} p (F F' G : tensor A -> tensor B -> Prop) q : (forall x t y, transpose_rel p x t -> (F t y <-> F' t y)) -> moves p F G q -> moves p F' G q.
Proof.
  intros H M x y. rewrite <- (M x y). split; intros (t & K1 & K2); exists t; (split; [exact K1|]); now apply (H x t y K1).
Qed.
Lemma after_drop_len p n ax : is_perm p n -> NoDup ax -> (forall a, In a ax -> a < n) -> length (after_drop p ax) + length ax = n.
Proof. intros P ND B. unfold after_drop. rewrite map_length. etransitivity; [|apply (pn p n P)]. apply drop_len; auto. rewrite (pn p n P). exact B. Qed.
Lemma squeeze_rank {A} axes (x u : tensor A) : squeeze_rel axes x u -> length (shape u) + length axes = length (shape x).
Proof.
  intros (_ & _ & ax & N & ND & _ & E & _). rewrite E. assert (L : length axes = length ax). { apply norm_axes_F2 in N. clear - N. induction N; cbn; congruence. }
  rewrite L. apply drop_len; auto. apply (norm_axes_lt _ _ _ N).
Qed.
Lemma sorted_len {A} (le : A -> A -> bool) l : length (sorted_by le l) = length l.
Proof. apply Permutation_length. apply Permutation_sym, sorted_by_perm. Qed.

(** ** each handler *)
Section Handlers.
Context {A : Type}.
Variables (p : list nat) (n : nat).
Hypothesis P : is_perm p n.
Notation T := (tensor A).
Lemma simple_push (f : A -> A) : moves p (map_rel f) (map_rel f) p.
Proof. apply (moves_rank p n); [now apply map_moves|]. intros x u y (_ & _ & E & _) H. rewrite <- E. now apply (tr_rank p n u y). Qed.
Lemma softmax_push (h : list A -> list A) axis ax : n <> 0 -> norm_axis n axis = Some ax ->
  moves p (softmax_rel h axis) (softmax_rel h (Z.of_nat (nth ax p 0))) p.
Proof.
  intros N0 N. apply (moves_rank p n).
  - apply softmax_moves; auto. apply (py_get_spec p n _ P). eauto.
  - intros x u y (_ & _ & E & _) H. rewrite <- E. now apply (tr_rank p n u y).
Qed.
Lemma softmax12_push (h : A -> list A -> A) axis : (forall v, order_free (h v)) -> (0 <= match axis with Some a => a | None => 1 end)%Z -> softmax12_movable p axis = true ->
  let a := match axis with Some a => a | None => 1%Z end in moves p (softmax12_rel h a) (softmax12_rel h a) p.
Proof.
  intros O N0 M. apply (moves_rank p n).
  - now apply softmax12_moves.
  - intros x u y (_ & _ & E & _) H. rewrite <- E. now apply (tr_rank p n u y).
Qed.
Lemma reduce_push (agg : list A -> A) axes ax keep new : order_free agg -> norm_axes n axes = Some ax -> NoDup ax -> moved_reduce_axes p (Some axes) = Some new ->
  moves p (reduce_rel agg axes keep) (reduce_rel agg (map Z.of_nat new) keep) (if keep then p else reduce_new_perm p new).
Proof.
  intros O N ND M. apply (moves_rank p n); [now apply (reduce_moves agg p n axes ax)|].
  rewrite (plus_rank_axes p n axes ax P N) in M. inversion M; subst new. clear M. assert (B := norm_axes_lt _ _ _ N).
  intros x u y (ax' & z & Nz & NDz & (_ & _ & Lz & _) & K) H. destruct keep.
  - subst u. rewrite <- Lz. now apply (tr_rank p n z y).
  - apply squeeze_rank in K. rewrite (reduce_perm p n ax P B) in H. apply tr_len in H. assert (L := after_drop_len p n ax P ND B). rewrite map_length, pick_length in K. lia.
Qed.
Lemma arg_push (g : list A -> A) axis ax keep new : norm_axis n axis = Some ax -> moved_reduce_axes p (Some [axis]) = Some [new] ->
  moves p (arg_rel g axis keep) (arg_rel g (Z.of_nat new) keep) (if keep then p else reduce_new_perm p [new]).
Proof.
  intros N M. apply (moves_rank p n); [now apply (arg_moves g p n axis ax)|].
  assert (Nx : norm_axes n [axis] = Some [ax]) by (cbn; now rewrite N). assert (B := norm_axes_lt _ _ _ Nx).
  rewrite (plus_rank_axes p n [axis] [ax] P Nx) in M. cbn in M. inversion M; subst new. clear M.
  intros x u y (z & (_ & _ & ax' & _ & Ez & _) & K) H. assert (Lz : length (shape z) = length (shape x)) by (rewrite Ez; apply set_dim_len). destruct keep.
  - subst u. rewrite <- Lz. now apply (tr_rank p n z y).
  - apply squeeze_rank in K. change [nth ax p 0] with (pick [ax] p) in H. rewrite (reduce_perm p n [ax] P B) in H. apply tr_len in H.
    assert (L := after_drop_len p n [ax] P ltac:(constructor; [intros []|constructor]) B). cbn [length] in *. lia.
Qed.
Lemma norm_axes_perm r axes axes' ax : Permutation axes axes' -> norm_axes r axes = Some ax -> exists ax', norm_axes r axes' = Some ax' /\ Permutation ax ax'.
Proof.
  intro H. revert ax. induction H as [|a l l' H IH|a b l|l l' l'' H1 IH1 H2 IH2]; cbn [norm_axes]; intros ax N.
  - exists ax. auto.
  - destruct (norm_axis r a) as [k|]; [|discriminate]. destruct (norm_axes r l) as [ks|]; [|discriminate]. inversion N; subst. destruct (IH ks eq_refl) as (ks' & -> & K). eauto.
  - destruct (norm_axis r b) as [k|]; [|discriminate]. destruct (norm_axis r a) as [k'|]; [|discriminate]. destruct (norm_axes r l) as [ks|]; [|discriminate]. inversion N; subst. eexists. split; [reflexivity|]. constructor.
  - destruct (IH1 ax N) as (ax1 & N1 & K1). destruct (IH2 ax1 N1) as (ax2 & N2 & K2). exists ax2. split; auto. now transitivity ax1.
Qed.
Lemma squeeze_perm axes axes' (x y : T) : Permutation axes axes' -> squeeze_rel axes x y -> squeeze_rel axes' x y.
Proof.
  intros H (W1 & W2 & ax & N & ND & O & E & K). split; auto. split; auto. destruct (norm_axes_perm _ _ _ _ H N) as (ax' & N' & Pm). exists ax'.
  assert (S : forall a, In a ax <-> In a ax') by (intro a; split; apply Permutation_in; auto using Permutation_sym).
  split; auto. split; [now apply (Permutation_NoDup Pm)|]. split; [intros a Ha; apply O, S, Ha|]. unfold drop_axes in *. split.
  - rewrite E. now apply drop_same.
  - intros ix Hx. rewrite <- (drop_same ax ax' S). auto.
Qed.
Lemma squeeze_push axes ax q new : norm_axes n axes = Some ax -> NoDup ax -> squeeze_new_attr p (sorted_by Z.leb axes) = Some (q, new) ->
  moves p (@squeeze_rel A axes) (squeeze_rel (map Z.of_nat new)) q.
Proof.
  intros N ND E. destruct (norm_axes_perm _ _ _ _ (sorted_by_perm Z.leb axes) N) as (ax' & N' & Pm). assert (ND' : NoDup ax') by now apply (Permutation_NoDup Pm).
  assert (B := norm_axes_lt _ _ _ N').
  apply (moves_on p (squeeze_rel (sorted_by Z.leb axes))).
  { intros x t y _. split; apply squeeze_perm; [apply Permutation_sym|]; apply sorted_by_perm. }
  apply (moves_rank p n); [now apply (squeeze_moves p n (sorted_by Z.leb axes) ax')|].
  rewrite (squeeze_attr p n _ ax' P N') in E. inversion E; subst. intros x u y K H. apply squeeze_rank in K. apply tr_len in H. assert (L := after_drop_len p n ax' P ND' B).
  rewrite map_length, sorted_len, pick_length in K. lia.
Qed.
Lemma unsqueeze_push axes ax q new : norm_axes (n + length axes) axes = Some ax -> NoDup ax -> unsqueeze_new_attr p axes = (q, new) ->
  is_perm q (n + length axes) /\ moves p (@unsqueeze_rel A axes) (unsqueeze_rel (map Z.of_nat new)) q.
Proof.
  intros N ND E. destruct (unsqueeze_moves (A := A) p n axes ax q new P N ND E) as [Q M]. split; auto.
  assert (Ln : length new = length axes).
  { unfold unsqueeze_new_attr in E. inversion E. rewrite sorted_len. rewrite (proj1 (new_axes_spec p n _ P)). unfold unsqueeze_sorted_axes. now rewrite sorted_len, map_length. }
  apply (moves_rank p n); auto. intros x u y (_ & _ & L & _) H. apply (tr_rank q _ u y Q) in H. rewrite map_length in L. lia.
Qed.
End Handlers.

Lemma moves_and {A B} (C C' : Prop) p (F G : tensor A -> tensor B -> Prop) q : (C <-> C') -> (C -> moves p F G q) -> moves p (fun v w => C /\ F v w) (fun v w => C' /\ G v w) q.
Proof.
  intros E M x y. split.
  - intros (t & H & c & K). destruct (proj1 (M c x y)) as (u & U1 & U2); [eauto|]. exists u. tauto.
  - intros (u & (c & H) & K). apply E in c. destruct (proj2 (M c x y)) as (t & U1 & U2); [eauto|]. exists t. tauto.
Qed.
Section Push.
Context {A : Type}.
Variable op_rel : string -> string -> list (string * attr) -> nat -> list (tensor A) -> list (list (tensor A) -> list (tensor A) -> Prop) -> list (tensor A) -> Prop.
Variables (opset n : nat) (p : list nat).
Hypothesis Sem : onnx_means op_rel opset.
Hypothesis P : is_perm p n.
Lemma push_attrs_moves op at_ at' q : valid_attrs opset n op at_ -> push_attrs opset p op at_ = Some (Some (at', q)) ->
  exists rel, means op_rel op rel /\ forall ws, moves p (rel at_ ws) (rel at' ws) q.
Proof.
  intros (V1 & V2 & V3 & V4 & V5) H. unfold push_attrs in H.
  destruct (mem op simple_ops) eqn:E1.
  { apply mem_in in E1. inversion H; subst. destruct (o_simple _ _ Sem op E1) as (ok & f & M). eexists. split; [exact M|]. intro ws. cbv beta. apply moves_and; [tauto|]. intros _. now apply (simple_push q n). }
  clear E1. destruct (mem op ["Softmax"; "LogSoftmax"]) eqn:E2.
  { apply mem_in in E2. destruct V1 as [N0 V1]; [cbn in E2; intuition congruence|]. assert (M := o_softmax _ _ Sem op E2). destruct (Nat.leb 13 opset).
    - destruct V1 as (ax & N & _). cbn [norm_axes] in N. destruct (norm_axis n (int_attr "axis" at_ (-1))) as [k|] eqn:Nk; [|discriminate].
      destruct M as (h & M). assert (K : moved_softmax_axis p (attr_int "axis" at_) = Some (nth k p 0)).
      { rewrite <- (plus_rank_axis p n _ k P Nk). unfold moved_softmax_axis. now rewrite attr_int_spec. }
      rewrite K in H. inversion H; subst. eexists. split; [exact M|]. intro ws. cbv beta. apply moves_and; [tauto|]. intros _. rewrite int_put, String.eqb_refl. now apply (softmax_push q n).
    - destruct M as (h & O & M). destruct (softmax12_movable p (attr_int "axis" at_)) eqn:Mv; inversion H; subst. eexists. split; [exact M|]. intro ws. cbv beta. apply moves_and; [tauto|]. intros _.
      rewrite <- attr_int_spec. apply (softmax12_push q n); auto. now rewrite attr_int_spec. }
  clear E2. destruct (mem op ["ArgMax"; "ArgMin"]) eqn:E3.
  { apply mem_in in E3. destruct V2 as (ax & N & _); [cbn in E3; intuition congruence|]. cbn [norm_axes] in N. destruct (norm_axis n (int_attr "axis" at_ 0)) as [k|] eqn:Nk; [|discriminate].
    destruct (o_arg _ _ Sem op E3) as (g & M). rewrite !attr_int_spec in H. destruct (moved_reduce_axes p (Some [int_attr "axis" at_ 0])) as [[|a [|]]|] eqn:Ma; try discriminate. inversion H; subst. clear H.
    eexists. split; [exact M|]. intro ws. cbv beta. apply moves_and; [tauto|]. intros _.
    assert (D : forall k d, k <> "axes" -> int_attr k (del_attr "axes" at_) d = int_attr k at_ d). { intros k0 d Nk0. unfold int_attr. now rewrite find_del by congruence. }
    rewrite !int_put, String.eqb_refl. cbn [String.eqb Ascii.eqb Bool.eqb]. rewrite !D by discriminate.
    assert (K := arg_push p n P (g (int_attr "select_last_index" at_ 0)) _ k (negb (int_attr "keepdims" at_ 1 =? 0)%Z) a Nk Ma).
    destruct (int_attr "keepdims" at_ 1 =? 0)%Z; exact K. }
  clear E3. destruct (mem op reduce_ops && Nat.ltb opset 18 || String.eqb op "ReduceSum" && Nat.ltb opset 13)%bool eqn:E4.
  { assert (C : (In op reduce_ops /\ opset < 18) \/ (op = "ReduceSum" /\ opset < 13)).
    { apply orb_prop in E4. destruct E4 as [E4|E4]; apply andb_prop in E4; destruct E4 as [E4 E5]; apply Nat.ltb_lt in E5; [left|right]; split; auto; [now apply mem_in|now apply String.eqb_eq]. }
    destruct V3 as (ax & N & ND). { unfold reduce_ops in C. cbn [In] in *. intuition congruence. }
    destruct (o_reduce _ _ Sem op C) as (agg & O & M).
    assert (K : moved_reduce_axes p (attr_ints "axes" at_) = moved_reduce_axes p (Some (ints_attr "axes" at_ (map Z.of_nat (seq 0 n))))).
    { rewrite <- attr_ints_spec. destruct (attr_ints "axes" at_); auto. apply (plus_rank_all p n P). }
    rewrite K, attr_int_spec in H. destruct (moved_reduce_axes p (Some (ints_attr "axes" at_ (map Z.of_nat (seq 0 n))))) as [new|] eqn:Mv; [|discriminate]. inversion H; subst. clear H.
    eexists. split; [exact M|]. intro ws. cbv beta. apply moves_and; [tauto|]. intros _.
    assert (R := reduce_push p n P agg _ ax (negb (int_attr "keepdims" at_ 1 =? 0)%Z) new O N ND Mv).
    rewrite int_put' by discriminate.
    apply (moves_on p (reduce_rel agg (ints_attr "axes" at_ (map Z.of_nat (seq 0 n))) (negb (int_attr "keepdims" at_ 1 =? 0)%Z))).
    { intros x t y Hx. now rewrite (tr_rank_out p n x t P Hx). }
    intros x y. rewrite (R x y). destruct (int_attr "keepdims" at_ 1 =? 0)%Z; cbn [negb]; split; intros (u & U1 & U2); exists u; rewrite ints_put in *; auto. }
  clear E4. destruct (String.eqb op "Squeeze" && Nat.leb opset 12)%bool eqn:E5.
  { apply andb_prop in E5. destruct E5 as [E5 L]. apply String.eqb_eq in E5. apply Nat.leb_le in L. subst op. destruct (o_squeeze _ _ Sem L) as (any & M).
    assert (Ea := attr_ints_spec "axes" at_ []). destruct (attr_ints "axes" at_) as [axes|] eqn:Ai; [|discriminate]. rewrite <- Ea in V4. destruct V4 as (ax & N & ND); auto.
    destruct (squeeze_new_attr p (sorted_by Z.leb axes)) as [[q' new]|] eqn:Sq; [|discriminate]. inversion H; subst. clear H.
    eexists. split; [exact M|]. intro ws. cbv beta. apply moves_and; [tauto|]. intros _.
    assert (X1 : existsb (fun q => String.eqb (fst q) "axes") at_ = true).
    { unfold attr_ints, lookup_attr in Ai. destruct (find _ at_) as [e|] eqn:F; [|discriminate]. apply find_some in F. apply existsb_exists. eauto. }
    rewrite X1. cbn [put_attr existsb fst]. rewrite String.eqb_refl. cbn [orb]. change (("axes", AInts (map Z.of_nat new)) :: filter (fun p0 : string * attr => negb (String.eqb (fst p0) "axes")) at_) with (put_attr "axes" (AInts (map Z.of_nat new)) at_).
    rewrite ints_put. now apply (squeeze_push p n P _ ax). }
  clear E5. destruct (String.eqb op "Unsqueeze" && Nat.leb opset 12)%bool eqn:E6; [|discriminate].
  apply andb_prop in E6. destruct E6 as [E6 L]. apply String.eqb_eq in E6. apply Nat.leb_le in L. subst op. assert (M := o_unsqueeze _ _ Sem L).
  assert (Ea := attr_ints_spec "axes" at_ []). destruct (attr_ints "axes" at_) as [axes|] eqn:Ai; [|discriminate]. rewrite <- Ea in V5. destruct V5 as (ax & N & ND); auto.
  destruct (unsqueeze_new_attr p axes) as [q' new] eqn:Un. inversion H; subst. clear H.
  eexists. split; [exact M|]. intro ws. cbv beta. apply moves_and; [tauto|]. intros _. rewrite ints_put. now apply (unsqueeze_push p n P _ ax).
Qed.
End Push.
