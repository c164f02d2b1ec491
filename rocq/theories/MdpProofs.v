(** Proofs about MatrixDiagPart. *)
From Coq Require Import List Arith ZArith Lia Bool.
From Verif Require Import Tensor TensorProofs FoldModel OnnxSpec RewValues TOps TOpsProofs TOpsProofs2 MdpSpec MdpModel.
From Verif Require DiagModel DiagProofs.
Import ListNotations.
Local Open Scope list_scope.

(** ** the dimensions *)
Lemma clamp_pos d m : (0 <= m)%Z -> clamp d m = Nat.min d (Z.to_nat m).
Proof. intro H. unfold clamp. rewrite (proj2 (Z.ltb_ge m 0)) by lia. lia. Qed.
Lemma last_two l (a b : Z) : f_slice [(-2)%Z] [Z.of_nat (length (l ++ [a; b]))] None (tvec (l ++ [a; b])) = Some (tvec [a; b]).
Proof.
  rewrite slice_vec. set (n := length (l ++ [a; b])). assert (N : n = length l + 2) by (subst n; rewrite app_length; reflexivity).
  assert (C1 : clamp n (-2) = length l) by (unfold clamp; change (-2 <? 0)%Z with true; cbv iota; lia). rewrite C1, clamp_pos by lia. rewrite Nat2Z.id, Nat.min_id.
  replace (n - length l) with 2 by lia. rewrite skipn_app, skipn_all, Nat.sub_diag. reflexivity.
Qed.
Lemma all_but_last l (a : Z) : f_slice [0%Z] [(-1)%Z] None (tvec (l ++ [a])) = Some (tvec l).
Proof.
  rewrite slice_vec. rewrite app_length. cbn [length].
  assert (C1 : clamp (length l + 1) (-1) = length l) by (unfold clamp; change (-1 <? 0)%Z with true; cbv iota; lia). rewrite C1. change (clamp (length l + 1) 0) with (Z.to_nat (Z.max 0 (Z.min (Z.of_nat (length l + 1)) 0))).
  replace (Z.to_nat (Z.max 0 (Z.min (Z.of_nat (length l + 1)) 0))) with 0 by lia. rewrite Nat.sub_0_r. cbn [skipn]. rewrite firstn_app, firstn_all, Nat.sub_diag. cbn [firstn]. now rewrite app_nil_r.
Qed.
Lemma concat_neg {T} (a b : list T) : f_concat (-1) [tvec a; tvec b] = Some (tvec (a ++ b)).
Proof. change (f_concat (-1) [tvec a; tvec b]) with (f_concat 0 (map tvec [a; b])). rewrite concat_vecs by discriminate. cbn [concat]. now rewrite app_nil_r. Qed.

(** ** the slice: axes 2 and 1 are cut *)
Lemma slice_two {A} (x : tensor A) a b c rest m : wf x -> shape x = a :: b :: c :: rest ->
  exists y, f_slice [0; 0]%Z [Z.of_nat m; Z.of_nat m] (Some [2; 1]%Z) x = Some y /\ wf y /\ shape y = a :: Nat.min b m :: Nat.min c m :: rest /\
    forall ix, inb ix (a :: Nat.min b m :: Nat.min c m :: rest) -> get y ix = get x ix.
Proof.
  intros W Sx. unfold f_slice. rewrite Sx. assert (Ax : norm_axes (length (a :: b :: c :: rest)) [2; 1]%Z = Some [2; 1]).
  { change [2; 1]%Z with (map Z.of_nat [2; 1]). apply nat_axes. constructor; [cbn; lia|]. constructor; [cbn; lia|constructor]. }
  rewrite Ax. change (nodupb [2; 1]) with true. cbn [length Nat.eqb andb]. cbv zeta.
  set (ps := combine [2; 1] (combine [0; 0]%Z [Z.of_nat m; Z.of_nat m])).
  assert (Rs : map (fun '(k, d) => slice_range ps k d) (combine (seq 0 (S (S (S (length rest))))) (a :: b :: c :: rest)) =
    (0, a) :: (0, Nat.min b m) :: (0, Nat.min c m) :: map (fun d => (0, d)) rest).
  { cbn [seq combine map]. f_equal. assert (P : forall d, clamp d 0 = 0) by (intro d; rewrite clamp_pos by lia; cbn; lia). f_equal; [|f_equal].
    - unfold slice_range, ps. cbn [combine assoc_nat Nat.eqb]. now rewrite P, clamp_pos, Nat2Z.id, Nat.sub_0_r by lia.
    - unfold slice_range, ps. cbn [combine assoc_nat Nat.eqb]. now rewrite P, clamp_pos, Nat2Z.id, Nat.sub_0_r by lia.
    - apply ranges_out. intros j Hj. unfold ps. cbn [combine assoc_nat]. do 3 (destruct j as [|j]; [lia|]). reflexivity. }
  rewrite Rs. cbn [map fst snd]. rewrite ranges_snd_id.
  assert (Z0 : forall ix, length ix = S (S (S (length rest))) -> addix (0 :: 0 :: 0 :: map fst (map (fun d : nat => (0, d)) rest)) ix = ix).
  { intros [|i [|j [|k ix]]] L; cbn in L; try discriminate. cbn [addix Nat.add]. do 3 f_equal. apply addix_zeros. lia. }
  match goal with |- context [build ?sh ?F] => destruct (build_ex sh F) as (y & E & Sy & Wy & Gy) end.
  - intros ix H. rewrite Z0 by (now rewrite (inb_length _ _ H)). apply get_some; [exact W|]. rewrite Sx.
    destruct ix as [|i [|j [|k ix]]]; cbn [inb] in *; try tauto. destruct H as (H1 & H2 & H3 & H4). repeat split; auto; lia.
  - exists y. split; [exact E|]. split; [exact Wy|]. split; [exact Sy|]. intros ix H. rewrite Gy by exact H. now rewrite Z0 by (now rewrite (inb_length _ _ H)).
Qed.

(** ** Expand of a column, GatherElements, Squeeze *)
Lemma repeat_inb l : Forall (fun d => 0 < d) l -> inb (repeat 0 (length l)) l.
Proof. induction 1; cbn; auto. Qed.
Lemma bcast_column lead m : bcast_dims (pad_ones (length lead + 2) [m; 1]) (lead ++ [m; 1]) = Some (lead ++ [m; 1]).
Proof.
  unfold pad_ones. replace (length lead + 2 - length [m; 1]) with (length lead) by (cbn; lia). induction lead as [|d lead IH].
  - cbn. now rewrite Nat.eqb_refl.
  - cbn [length repeat app bcast_dims]. rewrite IH. destruct (Nat.eqb_spec 1 d) as [<-|]; reflexivity.
Qed.
Lemma skipn_pre {X} (p q : list X) n : n = length p -> skipn n (p ++ q) = q.
Proof. intros ->. rewrite skipn_app, skipn_all, Nat.sub_diag. reflexivity. Qed.
Lemma expand_column lead m : exists e, f_expand (map Z.of_nat (lead ++ [m; 1])) (Tensor [m; 1] (map Z.of_nat (seq 0 m))) = Some e /\ wf e /\ shape e = lead ++ [m; 1] /\
  forall p n, inb p lead -> n < m -> get e (p ++ [n; 0]) = Some (Z.of_nat n).
Proof.
  unfold f_expand. assert (P : forallb (fun z => (0 <=? z)%Z) (map Z.of_nat (lead ++ [m; 1])) = true).
  { apply forallb_forall. intros z Hz. apply in_map_iff in Hz. destruct Hz as (k & <- & _). apply Z.leb_le. lia. }
  rewrite P. assert (M : map Z.to_nat (map Z.of_nat (lead ++ [m; 1])) = lead ++ [m; 1]) by (rewrite map_map; rewrite <- (map_id (lead ++ [m; 1])) at 2; apply map_ext; apply Nat2Z.id).
  rewrite M. cbn [shape]. assert (L : Nat.max (length [m; 1]) (length (lead ++ [m; 1])) = length lead + 2) by (rewrite app_length; cbn [length]; lia). rewrite L.
  assert (Q : pad_ones (length lead + 2) (lead ++ [m; 1]) = lead ++ [m; 1]) by (unfold pad_ones; rewrite app_length; cbn [length]; now rewrite Nat.sub_diag).
  rewrite Q, bcast_column.
  assert (At : forall p n, inb p lead -> n < m -> get (Tensor [m; 1] (map Z.of_nat (seq 0 m))) (bcast_ix (length lead + 2) [m; 1] (p ++ [n; 0])) = Some (Z.of_nat n)).
  { intros p n Hp Hn. unfold bcast_ix. replace (length lead + 2 - length [m; 1]) with (length lead) by (cbn [length]; lia). rewrite skipn_pre by (symmetry; now apply inb_length).
    cbn [combine map fst snd Nat.eqb]. unfold get. cbn [shape data ravel size fold_right]. replace ((if Nat.eqb m 1 then 0 else n) * (1 * 1) + (0 * 1 + 0)) with n by (destruct (Nat.eqb_spec m 1); lia). now apply nth_error_map_seq. }
  match goal with |- context [build ?sh ?F] => destruct (build_ex sh F) as (e & E & Se & We & Ge) end.
  - intros ix H. replace (lead ++ [m; 1]) with ((lead ++ [m]) ++ [1]) in H by (now rewrite <- app_assoc). destruct (split_ix _ _ _ _ H) as (q & k & r & -> & Hq & Hk & Hr). destruct r; [|destruct Hr].
    destruct (split_ix _ _ _ _ Hq) as (p & n & r & -> & Hp & Hn & Hr'). destruct r; [|destruct Hr']. rewrite <- app_assoc. cbn [app]. replace k with 0 by lia. rewrite At by auto. discriminate.
  - exists e. split; [exact E|]. split; [exact We|]. split; [exact Se|]. intros p n Hp Hn. rewrite Ge; [now apply At|]. apply inb_app; [now apply inb_length|]. split; [exact Hp|]. cbn. auto with arith.
Qed.
Lemma removelast_two {X} (l : list X) a b : removelast (l ++ [a; b]) = l ++ [a].
Proof. replace (l ++ [a; b]) with ((l ++ [a]) ++ [b]) by (now rewrite <- app_assoc). apply removelast_last. Qed.
Lemma last_two_last {X} (l : list X) a b d : last (l ++ [a; b]) d = b.
Proof. replace (l ++ [a; b]) with ((l ++ [a]) ++ [b]) by (now rewrite <- app_assoc). apply last_last. Qed.
Lemma le_refl_b l : forallb (fun '(a, b) => Nat.leb a b) (combine l l) = true.
Proof. induction l; cbn; auto. rewrite Nat.leb_refl. auto. Qed.

(** everything after the slice: [xs] is the sliced input *)
Definition after_slice {A} (min_dim : tensor Z) (sliced_input : tensor A) : option (tensor A) :=
  obind (f_slice [0%Z] [(-1)%Z] None (shape_of sliced_input)) (fun half =>
  obind (f_concat (-1) [half; zvec [1%Z]]) (fun new =>
  obind (f_squeeze [0%Z] min_dim) (fun min_ =>
  obind (f_range min_) (fun range =>
  obind (f_unsqueeze [(-1)%Z] range) (fun unsq =>
  obind (f_expand (data new) unsq) (fun expanded =>
  obind (f_gather_last sliced_input expanded) (fun gathered => f_squeeze [(-1)%Z] gathered))))))).
Lemma tail_ok {A} (xs : tensor A) lead m cols : wf xs -> shape xs = lead ++ [m; cols] -> m <= cols ->
  exists y, after_slice (tvec [Z.of_nat m]) xs = Some y /\ wf y /\ shape y = lead ++ [m] /\
    forall p n, inb p lead -> n < m -> get y (p ++ [n]) = get xs (p ++ [n; n]).
Proof.
  intros W Sx Le. unfold after_slice. assert (Sh : shape_of xs = tvec (map Z.of_nat (lead ++ [m]) ++ [Z.of_nat cols])).
  { unfold shape_of. rewrite Sx. change zvec with (@tvec Z). f_equal. rewrite !map_app. cbn [map]. now rewrite <- app_assoc. }
  rewrite Sh, all_but_last. cbn [obind]. change (zvec [1%Z]) with (tvec [1%Z]). rewrite concat_neg. cbn [obind].
  change (f_squeeze [0%Z] (tvec [Z.of_nat m])) with (Some (Tensor (@nil nat) [Z.of_nat m])). cbn [obind]. unfold f_range. cbn [shape data]. cbn [obind]. rewrite Nat2Z.id.
  assert (U : f_unsqueeze [(-1)%Z] (zvec (map Z.of_nat (seq 0 m))) = Some (Tensor [m; 1] (map Z.of_nat (seq 0 m)))).
  { unfold zvec. rewrite map_length, seq_length. reflexivity. }
  rewrite U. cbn [obind]. change (data (tvec (map Z.of_nat (lead ++ [m]) ++ [1%Z]))) with (map Z.of_nat (lead ++ [m]) ++ map Z.of_nat [1]).
  rewrite <- map_app, <- app_assoc. cbn [app]. destruct (expand_column lead m) as (e & -> & We & Se & Ge). cbn [obind].
  unfold f_gather_last. rewrite Se, Sx. rewrite !app_length. cbn [length]. rewrite (proj2 (Nat.ltb_lt 0 _)) by lia. rewrite Nat.eqb_refl, !removelast_two, le_refl_b, last_two_last. cbn [andb].
  match goal with |- context [build ?sh ?F] => destruct (build_ex sh F) as (g & Eg & Sg & Wg & Gg) end.
  - intros ix H. replace (lead ++ [m; 1]) with ((lead ++ [m]) ++ [1]) in H by (now rewrite <- app_assoc). destruct (split_ix _ _ _ _ H) as (q & k & r & -> & Hq & Hk & Hr). destruct r; [|destruct Hr].
    destruct (split_ix _ _ _ _ Hq) as (p & n & r & -> & Hp & Hn & Hr'). destruct r; [|destruct Hr']. replace ((p ++ [n]) ++ [k]) with (p ++ [n; 0]) by (rewrite <- app_assoc; replace k with 0 by lia; reflexivity).
    rewrite Ge by auto. rewrite seq_axis by lia. rewrite removelast_two, <- app_assoc. cbn [app]. apply get_some; [exact W|]. rewrite Sx. apply inb_app; [now apply inb_length|]. split; [exact Hp|]. cbn. repeat split; lia.
  - rewrite Eg. cbn [obind]. assert (Q : f_squeeze [(-1)%Z] g = Some (Tensor (lead ++ [m]) (data g))).
    { pose proof (squeeze_mid (lead ++ [m]) [] g) as K. rewrite app_nil_r, <- app_assoc in K. cbn [app] in K. specialize (K Sg). rewrite <- K. unfold f_squeeze. rewrite Sg.
      assert (N : norm_axes (length (lead ++ [m; 1])) [(-1)%Z] = norm_axes (length (lead ++ [m; 1])) [Z.of_nat (length (lead ++ [m]))]).
      { cbn [norm_axes]. rewrite seq_axis by (rewrite !app_length; cbn [length]; lia). unfold norm_axis. change (0 <=? -1)%Z with false. cbv iota. rewrite (proj2 (Z.leb_le _ _)) by (rewrite app_length; cbn [length]; lia).
        replace (Z.to_nat (-1 + Z.of_nat (length (lead ++ [m; 1])))) with (length (lead ++ [m])) by (rewrite !app_length; cbn [length]; lia). reflexivity. }
      now rewrite N. }
    rewrite Q. eexists. split; [reflexivity|]. split; [|split; [reflexivity|]].
    + unfold wf in *. cbn [shape data]. rewrite Wg, Sg. replace (lead ++ [m; 1]) with ((lead ++ [m]) ++ [1]) by (now rewrite <- app_assoc). rewrite (size_app (lead ++ [m]) [1]). cbn. lia.
    + intros p n Hp Hn. transitivity (get g (p ++ [n; 0])).
      * pose proof (get_ones (lead ++ [m]) [] (Tensor (lead ++ [m]) (data g)) (p ++ [n]) []) as K. rewrite !app_nil_r, <- !app_assoc in K. cbn [app data] in K. rewrite <- K; [|rewrite !app_length; cbn; f_equal; now apply inb_length|reflexivity].
        unfold get. cbn [shape data]. now rewrite Sg.
      * rewrite Gg by (apply inb_app; [now apply inb_length|]; split; [exact Hp|]; cbn; auto with arith). rewrite Ge by auto. rewrite seq_axis by lia. rewrite removelast_two, <- app_assoc. reflexivity.
Qed.

(** ** the whole *)
Lemma split_model {A} (x : tensor A) lead rows cols : shape x = lead ++ [rows; cols] -> (Z.of_nat rows <= 2 ^ 24)%Z -> (Z.of_nat cols <= 2 ^ 24)%Z ->
  matrix_diag_part x = obind (f_slice [0; 0]%Z [Z.of_nat (Nat.min rows cols); Z.of_nat (Nat.min rows cols)] (Some [2; 1]%Z) x) (after_slice (tvec [Z.of_nat (Nat.min rows cols)])).
Proof.
  intros Sx Hr Hc. unfold matrix_diag_part, after_slice. assert (Sh : shape_of x = tvec (map Z.of_nat lead ++ [Z.of_nat rows; Z.of_nat cols])) by (unfold shape_of; rewrite Sx; change zvec with (@tvec Z); now rewrite map_app).
  rewrite Sh. change (data (shape_of (tvec (map Z.of_nat lead ++ [Z.of_nat rows; Z.of_nat cols])))) with [Z.of_nat (length (map Z.of_nat lead ++ [Z.of_nat rows; Z.of_nat cols]))].
  rewrite last_two. cbn [obind]. assert (F : forall d, (Z.of_nat d <= 2 ^ 24)%Z -> DiagModel.to_float (Z.of_nat d) = Z.of_nat d).
  { intros d H. unfold DiagModel.to_float. rewrite Z.abs_eq by lia. now rewrite (proj2 (Z.leb_le _ _) H). }
  assert (U : f_unary DiagModel.to_float (tvec [Z.of_nat rows; Z.of_nat cols]) = tvec [Z.of_nat rows; Z.of_nat cols]) by (unfold f_unary, tvec; cbn [shape data length map]; now rewrite !F).
  rewrite U, !slice_vec. change (clamp (length [Z.of_nat rows; Z.of_nat cols]) 0) with 0. change (clamp (length [Z.of_nat rows; Z.of_nat cols]) 1) with 1. change (clamp (length [Z.of_nat rows; Z.of_nat cols]) 2) with 2.
  cbn [Nat.sub skipn firstn obind]. rewrite binary_vec by reflexivity. cbn [zip2 obind]. rewrite concat_neg. cbn [obind app data tvec]. now rewrite <- Nat2Z.inj_min.
Qed.
