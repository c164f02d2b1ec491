(** C71: top_k and invert_permutation become ONNX graphs with the same values. *)
From Coq Require Import ZArith Reals List Bool String Sorted Lia.
From Flocq Require Import Core BinarySingleNaN.
From Verif Require Import ElemSpec ElemModel ElemFloat RangeSpec TopSpec TopModel TopProofs.
Import ListNotations.
Local Open Scope list_scope.
Local Notation length := List.length.

(** the outputs tv, ti of the converted graph on the inputs x, k *)
Definition top_run (opset : nat) (g : top_graph) (x k tv ti : ten) : Prop :=
  exists xd yv yi, result opset (to_data g) [x] = Some xd /\
    match to_k g with
    | KAttr z => onnx_topk_attr opset xd z yv yi
    | KUnsqueeze p axes => exists c u, result opset p [k] = Some c /\ unsqueezed axes c = Some u /\ onnx_topk opset xd u yv yi
    end /\ result opset (to_values g) [yv] = Some tv /\ result opset (to_indices g) [yi] = Some ti.
(** For tensors whose elements float32 represents exactly (and without NaN): the graph runs, and every run gives the
    values and the indices of TensorFlow. *)
Theorem C71_top_k_partial :
  forall opset d x k kc g tv ti,
    d <> BOOL -> typed d x -> elements exact32 x ->
    (forall z, kc = Some z -> k = scalar (VI I32 z)) ->
    top_k opset d kc = Some g -> tf_top_k x k tv ti ->
    (exists tv' ti', top_run opset g x k tv' ti') /\
    forall tv' ti', top_run opset g x k tv' ti' -> agrees tv tv' /\ agrees ti ti'.
Proof.
  intros opset d x k kc g tv ti Hd Tx Ex Hk Hg (z & -> & Rz & Pz & Hn & Top).
  destruct (top_of_data opset d x Hd Tx Ex (Z.to_nat z) tv ti Hn Top) as (xd & Rd & Td & (yv & yi & Ey) & All).
  assert (Ty : exists d0, typed d0 xd /\ topk_type opset d0 = true) by (exists (FLT F32); auto).
  assert (Sz : forall a b : Z, scalar (VI I32 a) = scalar (VI I32 b) -> a = b) by (intros a b E; apply (f_equal (fun t => telem t [])) in E; cbn in E; congruence).
  unfold top_k in Hg. destruct (Nat.ltb_spec opset 10) as [O|O].
  - unfold top_k_1 in Hg. destruct kc as [z0|]; [|discriminate]. specialize (Hk z0 eq_refl). apply Sz in Hk. subst z0. injection Hg as <-.
    split.
    + destruct (All yv yi Ey) as (tv' & ti' & Rv & Ri & _). exists tv', ti', xd, yv, yi. split; [exact Rd|]. split; [|split; [exact Rv|exact Ri]]. cbn [to_k]. unfold onnx_topk_attr. auto.
    + intros tv' ti' (xd' & yv' & yi' & Rd' & (_ & _ & _ & Tp) & Rv' & Ri'). cbn [to_data to_values to_indices] in *.
      change (result opset (cast_in d) [x] = Some xd') in Rd'. rewrite Rd in Rd'. injection Rd' as <-.
      destruct (All yv' yi' Tp) as (tv1 & ti1 & Rv1 & Ri1 & A1 & A2). change (result opset (cast_out d) [yv'] = Some tv') in Rv'. rewrite Rv1 in Rv'. injection Rv' as <-.
      change (result opset ([Node "Cast" (To (INT I32)) [In_ 0]], Tmp 0) [yi'] = Some ti') in Ri'. rewrite Ri1 in Ri'. injection Ri' as <-. auto.
  - injection Hg as <-. destruct (one_node opset "Cast" (To (INT I64)) (scalar (VI I32 z))) as (c & Rc & Sc & Ec). cbn [tshape scalar] in Sc.
    specialize (Ec [] Logic.I). cbn [telem scalar onnx_op cast] in Ec.
    assert (Wz : wrap I64 z = z). { unfold in_range, wrap, lo, hi in *. cbn [signed bits] in *. rewrite Z.mod_small; lia. } rewrite Wz in Ec.
    assert (Uc : unsqueezed [0%Z] c = Some (Ten [1] (fun _ => telem c []))) by (unfold unsqueezed; now rewrite Sc).
    split.
    + destruct (All yv yi Ey) as (tv' & ti' & Rv & Ri & _). exists tv', ti', xd, yv, yi. split; [exact Rd|]. split; [|split; [exact Rv|exact Ri]]. cbn [to_k].
      exists c. eexists. split; [exact Rc|]. split; [exact Uc|]. split; [exact O|]. split; [reflexivity|]. exists z. split; [exact Ec|]. auto.
    + intros tv' ti' (xd' & yv' & yi' & Rd' & (c' & u & Rc' & Uc' & _ & _ & z' & Ez & _ & _ & Tp) & Rv' & Ri'). cbn [to_data to_values to_indices] in *.
      change (result opset ([Node "Cast" (To (INT I64)) [In_ 0]], Tmp 0) [scalar (VI I32 z)] = Some c') in Rc'. rewrite Rc in Rc'. injection Rc' as <-. rewrite Uc in Uc'. injection Uc' as <-. cbn [telem] in Ez. rewrite Ec in Ez. injection Ez as <-.
      change (result opset (cast_in d) [x] = Some xd') in Rd'. rewrite Rd in Rd'. injection Rd' as <-.
      destruct (All yv' yi' Tp) as (tv1 & ti1 & Rv1 & Ri1 & A1 & A2). change (result opset (cast_out d) [yv'] = Some tv') in Rv'. rewrite Rv1 in Rv'. injection Rv' as <-.
      change (result opset ([Node "Cast" (To (INT I32)) [In_ 0]], Tmp 0) [yi'] = Some ti') in Ri'. rewrite Ri1 in Ri'. injection Ri' as <-. auto.
Qed.
(** Accepted: always from opset 10 on, before for a constant k. *)
Theorem C71_accepted : forall opset d kc, 10 <= opset \/ kc <> None -> exists g, top_k opset d kc = Some g.
Proof.
  intros opset d kc H. unfold top_k. destruct (Nat.ltb_spec opset 10); [|eauto]. destruct H; [lia|]. destruct kc; [|congruence]. unfold top_k_1. eauto.
Qed.
(** The other consumers of the input tensor still read it: from opset 10 on, and for float32. *)
Theorem C71_other_consumers_partial : forall opset d kc g x,
  10 <= opset \/ d = FLT F32 -> top_k opset d kc = Some g -> result opset (to_others g) [x] = Some x.
Proof.
  intros opset d kc g x H Hg. unfold top_k in Hg. destruct (Nat.ltb_spec opset 10).
  - destruct H as [H|H]; [lia|]. subst d. unfold top_k_1 in Hg. destruct kc; [|discriminate]. injection Hg as <-. reflexivity.
  - injection Hg as <-. reflexivity.
Qed.
(** Before opset 10 they read the Cast that was made for TopK: int32 becomes float for all of them. *)
Theorem C71_other_consumers_refuted : exists opset d kc g x y,
  typed d x /\ top_k opset d kc = Some g /\ result opset (to_others g) [x] = Some y /\ ~ agrees x y.
Proof.
  exists 9, (INT I32), (Some 1%Z). eexists. exists (vector I32 [7%Z]). eexists. split; [|split; [reflexivity|split; [reflexivity|]]].
  - intros ix Hx. destruct ix as [|[|i] [|j l]]; cbn in Hx; try tauto; try lia. exists (VI I32 7). split; [reflexivity|]. split; [reflexivity|]. vm_compute. split; discriminate.
  - intros [_ H]. destruct (H [0] ltac:(cbn; lia) (VI I32 7) eq_refl) as (w & Ew & Sm). change (Some (VF F32 (of_Z F32 7)) = Some w) in Ew. injection Ew as <-. inversion Sm.
Qed.
(** Integers beyond 2^24 are compared as float32: the larger one of 16777216 and 16777217 is not found. *)
Theorem C71_large_integers_refuted : exists opset d x k g tv ti,
  typed d x /\ top_k opset d None = Some g /\ tf_top_k x k tv ti /\ forall tv' ti', top_run opset g x k tv' ti' -> ~ agrees ti ti'.
Proof.
  exists 13, (INT I32), (vector I32 [16777216; 16777217]%Z), (scalar (VI I32 1)). eexists. exists (vector I32 [16777217%Z]), (vector I32 [1%Z]). split; [|split; [reflexivity|split]].
  - intros ix Hx. destruct ix as [|[|[|i]] [|j l]]; cbn in Hx; try tauto; try lia; eexists; (split; [reflexivity|]); (split; [reflexivity|]); vm_compute; split; discriminate.
  - exists 1%Z. split; [reflexivity|]. split; [vm_compute; split; discriminate|]. split; [lia|]. split.
    { intros d n E. change ([2] = d ++ [n]) in E. change [2] with ([] ++ [2]) in E. apply app_one_inj in E. destruct E as [<- <-]. vm_compute. discriminate. }
    exists [], 2. split; [reflexivity|]. split; [cbn; lia|]. split; [reflexivity|]. split; [reflexivity|]. intros p Hp. destruct p; [|destruct Hp].
    exists [VI I32 16777216; VI I32 16777217], [1]. split; [reflexivity|]. split.
    + constructor; [reflexivity|repeat constructor|repeat constructor|]. intros i j [<-|[]] Hj Nj. cbn in Hj. destruct j as [|[|j]]; [|exfalso; apply Nj; now left|lia].
      exists (VI I32 16777217), (VI I32 16777216). repeat split. left. reflexivity.
    + intros [|r] i E; [|destruct r; discriminate]. injection E as <-. split; reflexivity.
  - intros tv' ti' (xd & yv & yi & Rd & Hk & _ & Ri) [_ Ag]. cbn [to_k to_data to_indices top_k_10] in *.
    destruct Hk as (c & u & Rc & Uc & _ & _ & z & Ez & _ & _ & (d & n & Sh & _ & _ & Si & Rows)). injection Rc as <-. injection Uc as <-. injection Ez as <-. injection Rd as <-.
    change [2] with ([] ++ [2]) in Sh. cbn [tshape] in Sh. change [2] with ([] ++ [2]) in Sh. apply app_one_inj in Sh. destruct Sh as [<- <-].
    destruct (Rows [] Logic.I) as (xs & is & Rx & Tp & Out).
    assert (T0 : top xs 1 [0]).
    { change (Some [VF F32 (of_Z F32 16777216); VF F32 (of_Z F32 16777217)] = Some xs) in Rx. injection Rx as <-. constructor; [reflexivity|repeat constructor|repeat constructor|]. intros i j [<-|[]] Hj Nj. cbn in Hj. destruct j as [|[|j]]; [exfalso; apply Nj; now left| |lia].
      eexists. eexists. split; [reflexivity|]. split; [reflexivity|]. right. split; [vm_compute; reflexivity|lia]. }
    assert (E := top_unique xs 1 is [0] Tp T0). subst is. destruct (Out 0 0 eq_refl) as [_ Ei]. cbn [app] in Ei.
    destruct (one_node 13 "Cast" (To (INT I32)) yi) as (t & Rt & St & Et). change (result 13 ([Node "Cast" (To (INT I32)) [In_ 0]], Tmp 0) [yi] = Some ti') in Ri. rewrite Rt in Ri. injection Ri as <-.
    destruct (Ag [0] ltac:(cbn; lia) (VI I32 1) eq_refl) as (w & Ew & Sm). rewrite Et in Ew by (rewrite Si; cbn; lia). rewrite Ei in Ew. vm_compute in Ew. injection Ew as <-. inversion Sm.
Qed.

(** invert_permutation *)
Definition inv_run (opset : nat) (g : inv_graph) (x y : ten) : Prop :=
  exists yv yi, onnx_topk opset (Ten (tshape x) (fun ix => match telem x ix with Some v => inv_data g v | None => None end)) (inv_k g x) yv yi /\
    result opset (inv_result g) [yi] = Some y.
(** every permutation of 0 .. n-1 (int32 or int64): the indices are those of the inverse, as int64 *)
Theorem C71_invert_permutation_partial :
  forall opset t xs g, t = I32 \/ t = I64 -> permutation xs -> Forall (in_range t) xs -> invert_permutation opset (INT t) = Some g ->
    exists ys, inverse xs ys /\ (exists y, inv_run opset g (vector t xs) y) /\ forall y, inv_run opset g (vector t xs) y -> agrees (vector I64 ys) y.
Proof.
  intros opset t xs g Ht P Rg H. exists (map Z.of_nat (inv xs)). split; [now apply inv_inverse|].
  unfold invert_permutation in H. destruct (Nat.ltb_spec opset 11); [discriminate|].
  destruct (in_dtypes [INT I32; INT I64] (INT t)); [|discriminate]. injection H as <-.
  set (xd := Ten (tshape (vector t xs)) (fun ix => match telem (vector t xs) ix with Some v => neg v | None => None end)).
  assert (Ng : forall z, In z xs -> neg (VI t z) = Some (VI t (- z)) /\ has_type (INT t) (VI t (- z))).
  { intros z Hz. destruct P as [_ F]. rewrite Forall_forall in F, Rg. specialize (F z Hz). specialize (Rg z Hz). cbn [neg].
    assert (R : in_range t (- z)) by (unfold in_range, lo, hi in *; destruct Ht as [-> | ->]; cbn [signed bits] in *; lia).
    replace (signed t) with true by (destruct Ht as [-> | ->]; reflexivity). split; [|split; [reflexivity|exact R]]. do 2 f_equal.
    unfold in_range, wrap, lo, hi in *. destruct Ht as [-> | ->]; cbn [signed bits] in *; rewrite Z.mod_small; lia. }
  assert (Rw : row xd [] (length xs) = Some (map (fun z => VI t (- z)) xs)).
  { apply row_intro; [now rewrite map_length|]. intros i Hi. cbn [app telem vector xd]. destruct (nth_error xs i) as [z|] eqn:E; [|apply nth_error_None in E; lia].
    rewrite nth_error_map, E. cbn [option_map]. apply Ng. now apply nth_error_In in E. }
  assert (Tx : typed (INT t) xd).
  { intros ix Hx. destruct ix as [|i [|j l]]; cbn [xd tshape vector inb] in Hx; try tauto. cbn [telem xd vector]. destruct (nth_error xs i) as [z|] eqn:E; [|apply nth_error_None in E; lia].
    cbn [option_map]. destruct (Ng z (nth_error_In _ _ E)) as [A B]. eauto. }
  assert (Ty : exists d0, typed d0 xd /\ topk_type opset d0 = true) by (exists (INT t); split; [auto|]; unfold topk_type; now apply Nat.leb_le).
  assert (Tp := inv_top t xs P). 
  assert (Li : length (inv xs) = length xs) by (unfold inv; now rewrite map_length, seq_length).
  assert (Im : forall y, exists t0, result opset (made (make "Identity" NoAttr [In_ 0])) [y] = Some t0 /\ tshape t0 = tshape y /\ forall ix, inb ix (tshape y) -> telem t0 ix = telem y ix).
  { intro y. destruct (one_node opset "Identity" NoAttr y) as (t0 & Rt & St & Et). exists t0. split; [exact Rt|]. split; [exact St|]. intros ix Hx. rewrite Et by auto. destruct (telem y ix); reflexivity. }
  split.
  - destruct (Im (vector I64 (map Z.of_nat (inv xs)))) as (t0 & Rt & _).
    exists t0, (Ten [length xs] (fun ix => match ix with [r] => nth_error (map (fun i => VI t (- Z.of_nat i)) (seq 0 (length xs))) r | _ => None end)), (vector I64 (map Z.of_nat (inv xs))).
    split; [|exact Rt].
    split; [lia|]. split; [reflexivity|]. exists (Z.of_nat (length xs)). split; [reflexivity|]. split; [lia|]. split; [exact Ty|]. rewrite Nat2Z.id.
    exists [], (length xs). split; [reflexivity|]. split; [lia|]. split; [reflexivity|]. split; [cbn; now rewrite map_length, Li|].
    intros p Hp. destruct p; [|destruct Hp]. eexists. exists (inv xs). split; [exact Rw|]. split; [exact Tp|].
    intros r i E. assert (Hr : r < length xs) by (rewrite <- Li; apply nth_error_Some; congruence).
    cbn [app telem vector]. rewrite !nth_error_map. split.
    + rewrite (nth_error_nth' (seq 0 (length xs)) 0) by now rewrite seq_length. rewrite seq_nth by auto. rewrite inv_nth in E by auto. injection E as <-. rewrite index_of_nth by now apply permutation_surj. reflexivity.
    + rewrite E. reflexivity.
  - intros y (yv & yi & (_ & _ & z & Ez & _ & _ & Top) & Ry). cbn [inv_data inv_k inv_result] in *. cbn in Ez. injection Ez as <-. rewrite Nat2Z.id in Top.
    destruct (Im yi) as (t0 & Rt & St & Et). rewrite Rt in Ry. injection Ry as <-.
    destruct Top as (d & n & Sh & _ & _ & Si & Rows). change (tshape _) with ([] ++ [length xs]) in Sh at 1. apply app_one_inj in Sh. destruct Sh as [<- <-].
    destruct (Rows [] Logic.I) as (ys & is & Rx & Tp' & Out). fold xd in Rx. rewrite Rw in Rx. injection Rx as <-. assert (E := top_unique _ _ _ _ Tp Tp'). subst is.
    split; [cbn; rewrite St, Si, map_length, Li; reflexivity|]. intros ix Hx v Ev. destruct ix as [|r [|j l]]; cbn [tshape vector inb] in Hx; try tauto. rewrite map_length, Li in Hx.
    cbn [telem vector] in Ev. rewrite nth_error_map in Ev. assert (En := inv_nth xs r ltac:(tauto)). rewrite En in Ev. cbn [option_map] in Ev. injection Ev as <-.
    destruct (Out r _ En) as [_ O]. exists (VI I64 (Z.of_nat (index_of (Z.of_nat r) xs))). split; [|constructor]. rewrite Et; [exact O|]. rewrite Si. cbn. tauto.
Qed.
(** The result of an int32 permutation is declared int32 but is int64. *)
Theorem C71_invert_int32_refuted :
  exists opset xs g ys, permutation xs /\ invert_permutation opset (INT I32) = Some g /\ inverse xs ys /\ inv_dtype g = INT I32 /\
    (exists y, inv_run opset g (vector I32 xs) y) /\ forall y, inv_run opset g (vector I32 xs) y -> ~ agrees (vector I32 ys) y.
Proof.
  assert (P : permutation [1; 0]%Z) by (split; [apply NoDup_cons; [cbn; intuition discriminate|apply NoDup_cons; [cbn; tauto|apply NoDup_nil]]|repeat (apply Forall_cons; [cbn; lia|]); apply Forall_nil]).
  assert (R : Forall (in_range I32) [1; 0]%Z) by (repeat (apply Forall_cons; [split; vm_compute; discriminate|]); apply Forall_nil).
  destruct (C71_invert_permutation_partial 11 I32 [1; 0]%Z _ (or_introl eq_refl) P R eq_refl) as (ys & Iv & Ex & All).
  exists 11, [1; 0]%Z. eexists. exists ys. split; [exact P|]. split; [reflexivity|]. split; [exact Iv|]. split; [reflexivity|]. split; [exact Ex|].
  intros y Ry [_ A]. destruct (All y Ry) as [_ B]. destruct Iv as [L N]. specialize (N 0 1%Z eq_refl). cbn in L. change (nth_error ys 1 = Some 0%Z) in N.
  assert (In1 : inb [1] (tshape (vector I32 ys))) by (cbn; lia).
  destruct (A [1] In1 (VI I32 0)) as (w & Ew & Sm); [cbn [telem vector]; now rewrite N|]. destruct (B [1] In1 (VI I64 0)) as (w' & Ew' & Sm'); [cbn [telem vector]; now rewrite N|].
  rewrite Ew in Ew'. injection Ew' as <-. inversion Sm; subst. inversion Sm'.
Qed.

(** ** Non-vacuity *)
Example top_two : exists g tv ti, top_k 11 (INT I32) None = Some g /\ typed (INT I32) (vector I32 [5; 9; 9]%Z) /\ elements exact32 (vector I32 [5; 9; 9]%Z) /\
  tf_top_k (vector I32 [5; 9; 9]%Z) (scalar (VI I32 2)) tv ti /\ telem ti [1] = Some (VI I32 2).
Proof.
  eexists. exists (vector I32 [9; 9]%Z), (vector I32 [1; 2]%Z). split; [reflexivity|]. split; [|split; [|split; [|reflexivity]]].
  - intros ix Hx. destruct ix as [|[|[|[|i]]] [|j l]]; cbn in Hx; try tauto; try lia; eexists; (split; [reflexivity|]); (split; [reflexivity|]); vm_compute; split; discriminate.
  - intros ix v Hx E. destruct ix as [|[|[|[|i]]] [|j l]]; cbn in Hx; try tauto; try lia; injection E as <-; vm_compute; discriminate.
  - exists 2%Z. split; [reflexivity|]. split; [vm_compute; split; discriminate|]. split; [lia|]. split.
    { intros d n E. change ([] ++ [3] = d ++ [n]) in E. apply app_one_inj in E. destruct E as [<- <-]. vm_compute. discriminate. }
    exists [], 3. split; [reflexivity|]. split; [cbn; lia|]. split; [reflexivity|]. split; [reflexivity|]. intros p Hp. destruct p; [|destruct Hp].
    exists [VI I32 5; VI I32 9; VI I32 9], [1; 2]. split; [reflexivity|]. split.
    + assert (B : forall i j v w, nth_error [VI I32 5; VI I32 9; VI I32 9] i = Some v -> nth_error [VI I32 5; VI I32 9; VI I32 9] j = Some w -> larger v w = true \/ (larger w v = false /\ i < j) -> before [VI I32 5; VI I32 9; VI I32 9] i j) by (intros; eexists; eexists; eauto).
      constructor; [reflexivity|repeat constructor| |].
      * constructor; [repeat constructor|]. constructor; [|constructor]. apply (B 1 2 _ _ eq_refl eq_refl). right. split; [reflexivity|lia].
      * intros i j Hi Hj Nj. cbn in Hj. assert (j = 0) by (destruct j as [|[|[|j]]]; auto; try lia; exfalso; apply Nj; cbn; auto). subst j. destruct Hi as [<-|[<-|[]]]; [apply (B 1 0 _ _ eq_refl eq_refl)|apply (B 2 0 _ _ eq_refl eq_refl)]; left; reflexivity.
    + intros [|[|r]] i E; [| |destruct r; discriminate]; injection E as <-; split; reflexivity.
Qed.
Example invert_three : permutation [2; 0; 1]%Z /\ inverse [2; 0; 1]%Z [1; 2; 0]%Z /\ exists g, invert_permutation 13 (INT I64) = Some g.
Proof.
  split; [split; [repeat (apply NoDup_cons; [cbn; intuition discriminate|]); apply NoDup_nil|repeat (apply Forall_cons; [cbn; lia|]); apply Forall_nil]|]. split; [|eexists; reflexivity]. split; [reflexivity|].
  intros [|[|[|i]]] z E; try (injection E as <-; reflexivity). destruct i; discriminate.
Qed.

Print Assumptions C71_top_k_partial. Print Assumptions C71_accepted. Print Assumptions C71_other_consumers_partial. Print Assumptions C71_other_consumers_refuted.
Print Assumptions C71_large_integers_refuted. Print Assumptions C71_invert_permutation_partial. Print Assumptions C71_invert_int32_refuted.
