From Coq Require Import ZArith String List Bool Lia Arith.
From Flocq Require Import BinarySingleNaN.
From Verif Require Import ElemSpec ElemModel ElemLift ElemFloat ElemProofs.
Import ListNotations.
Local Open Scope string_scope.
Local Open Scope list_scope.

Lemma not_ltb f (x y : fl f) : is_nan x = false -> is_nan y = false -> negb (Bltb x y) = Bleb y x.
Proof.
  intros A B. destruct (is_finite x) eqn:Fx, (is_finite y) eqn:Fy.
  - rewrite Bltb_correct, Bleb_correct by auto. unfold Raux.Rlt_bool, Raux.Rle_bool. rewrite Raux.Rcompare_sym. destruct Raux.Rcompare; reflexivity.
  - destruct x as [[]|[]| |[] ? ? ?], y as [[]|[]| |[] ? ? ?]; try discriminate; reflexivity.
  - destruct x as [[]|[]| |[] ? ? ?], y as [[]|[]| |[] ? ? ?]; try discriminate; reflexivity.
  - destruct x as [[]|[]| |[] ? ? ?], y as [[]|[]| |[] ? ? ?]; try discriminate; reflexivity.
Qed.
Lemma nan2 f x y : no_nan [VF f x; VF f y] -> is_nan x = false /\ is_nan y = false.
Proof. intros H. inversion H as [|? ? A H']; subst. inversion H'; subst. auto. Qed.
Ltac cases2 :=
  match goal with
  | L : List.length ?vs = 2, Q : all_of ?d ?vs |- _ =>
      let a := fresh "a" in let b := fresh "b" in let A := fresh "A" in let B := fresh "B" in let E := fresh "E" in
      destruct (typed2 _ vs L Q) as (a & b & -> & A & B);
      destruct (two_cases _ a b A B) as [(x & y & E & -> & ->)|[(t & x & y & E & -> & -> & Rx & Ry)|(f & x & y & E & -> & ->)]];
      try discriminate E; try (injection E as <-); clear A B Q L
  end.
Theorem greater_less_equal_12 opset (greater : bool) d : 12 <= opset -> d <> BOOL ->
  exists p, built (greater_less_equal opset greater d (In_ 0) (In_ 1)) = Some p /\
    computes opset p 2 (all_of d) (tf_op (if greater then "GreaterEqual" else "LessEqual")).
Proof.
  intros O N. unfold greater_less_equal. rewrite (ltb_f _ _ O). destruct greater; (eexists; split; [reflexivity|]; apply computes_lift; [reflexivity|]).
  all: intros vs v L Q H; destruct d as [|t0|f0]; try congruence; cases2; ev; fin.
Qed.
Theorem greater_less_equal_7 opset (greater : bool) d : 7 <= opset -> opset < 12 -> d <> BOOL ->
  exists p, built (greater_less_equal opset greater d (In_ 0) (In_ 1)) = Some p /\
    computes opset p 2 (fun vs => all_of d vs /\ small_ints vs /\ no_nan vs) (tf_op (if greater then "GreaterEqual" else "LessEqual")).
Proof.
  intros O O' N. unfold greater_less_equal, greater_less, add_cast_to_inputs. rewrite (ltb_t _ _ O').
  destruct greater, d as [|t|f]; try congruence; [destruct t|destruct f|destruct t|destruct f]; 
    (eexists; split; [reflexivity|]; apply computes_lift; [reflexivity|]).
  all: intros vs v L (Q & Sm & Nn) H; cases2; ev.
  all: first [apply nan2 in Nn; destruct Nn; rewrite not_ltb by assumption; fin|
              apply small2 in Sm; destruct Sm as [Sx Sy]; rewrite ltb_of_Z by assumption; rewrite <- Z.leb_antisym; fin].
Qed.

(** ** Select *)
Definition select_types (opset : nat) (d : dtype) : bool :=
  match d with BOOL | FLT _ => true | INT t => bit32 t || Nat.leb 14 opset end.
Lemma wrap_sel1 t x y : in_range t x -> wrap t (wrap t (1 * x) + wrap t (y * 0)) = x.
Proof.
  intros R. rewrite Z.mul_1_l, Z.mul_0_r, (wrap_id t x R), (wrap_id t 0); [|destruct t; split; discriminate]. rewrite Z.add_0_r. now apply wrap_id.
Qed.
Lemma wrap_sel0 t x y : in_range t y -> wrap t (wrap t (0 * x) + wrap t (y * 1)) = y.
Proof.
  intros R. rewrite Z.mul_1_r, Z.mul_0_l, (wrap_id t y R), (wrap_id t 0); [|destruct t; split; discriminate]. cbn. now apply wrap_id.
Qed.
Lemma select_7_ok opset d : 7 <= opset -> select_types opset d = true ->
  exists p, built (select_7 d (In_ 0) (In_ 1) (In_ 2)) = Some p /\
    computes opset p 3 (fun vs => select_args d vs /\ unselected_finite vs) (tf_op "Select").
Proof.
  intros O K. unfold select_7. destruct d as [|t|f].
  - eexists; split; [reflexivity|]. apply computes_lift; [reflexivity|]. intros vs v L ((c & a & b & -> & A & B) & U) H.
    destruct (two_cases _ a b A B) as [(x & y & E & -> & ->)|[(t & x & y & E & -> & -> & Rx & Ry)|(f & x & y & E & -> & ->)]]; try discriminate E.
    ev. destruct c, x, y; fin.
  - assert (ED : dtype_eqb (INT t) (INT t) = true) by apply ity_eqb_refl. cbn [dtype_eqb]. rewrite ity_eqb_refl.
    eexists; split; [reflexivity|]. apply computes_lift; [reflexivity|]. intros vs v L ((c & a & b & -> & A & B) & U) H.
    destruct (two_cases _ a b A B) as [(x & y & E & -> & ->)|[(t' & x & y & E & -> & -> & Rx & Ry)|(f & x & y & E & -> & ->)]]; try discriminate E.
    injection E as <-. cbn in K. ev. repeat (progress (rewrite ?K; cbn; ops)).
    destruct c; cbn [negb]; [rewrite wrap_sel1 by assumption|rewrite wrap_sel0 by assumption]; fin.
  - destruct f; (eexists; split; [reflexivity|]; apply computes_lift; [reflexivity|]; intros vs v L ((c & a & b & -> & A & B) & U) H;
      destruct (two_cases _ a b A B) as [(x & y & E & -> & ->)|[(t' & x & y & E & -> & -> & Rx & Ry)|(g & x & y & E & -> & ->)]]; try discriminate E;
      injection E as <-; ev; cbn in U; eexists; (split; [reflexivity|]); apply sf_same; destruct c; cbn [negb];
      [now apply (select_true _ x y)|now apply (select_false _ x y)]).
Qed.
Theorem select_ok opset attr d cn bs : 7 <= opset -> select_types opset d = true ->
  exists p, built (select opset attr d cn bs (In_ 0) (In_ 1) (In_ 2)) = Some p /\
    computes opset p 3 (fun vs => select_args d vs /\ unselected_finite vs) (tf_op "Select").
Proof.
  intros O K. unfold select. destruct (Nat.ltb opset 9 || _) eqn:E; [now apply select_7_ok|].
  apply orb_false_iff in E. destruct E as (E & _). apply Nat.ltb_ge in E.
  eexists; split; [reflexivity|]. apply computes_lift; [reflexivity|]. intros vs v L ((c & a & b & -> & A & B) & U) H.
  cbn in H. unfold seval. cbn. rewrite (leb_t _ _ E). cbn. rewrite H. fin.
Qed.
Theorem select_where opset attr d cn bs : 9 <= opset -> handles_nan attr d cn bs = true ->
  exists p, built (select opset attr d cn bs (In_ 0) (In_ 1) (In_ 2)) = Some p /\ computes opset p 3 (select_args d) (tf_op "Select").
Proof.
  intros O K. unfold select. rewrite K, (ltb_f _ _ O). eexists; split; [reflexivity|]. apply computes_lift; [reflexivity|].
  intros vs v L (c & a & b & -> & A & B) H. cbn in H. unfold seval. cbn. rewrite (leb_t _ _ O). cbn. rewrite H. fin.
Qed.
Lemma handles_nan_const attr d cn b1 b2 w : in_dtypes [FLT F32; FLT F64] d = true -> handles_nan attr d cn [b1; b2] = false ->
  In w (consts_of b1 ++ consts_of b2) -> match w with VF _ z => is_finite z = true | _ => True end.
Proof.
  unfold handles_nan. intros ->. cbn [fold_left]. set (h := match cn with CNaN => _ | _ => _ end). destruct h; [discriminate|]. intros H I.
  assert (N : existsb nan_or_inf (consts_of b1 ++ consts_of b2) = false).
  { rewrite existsb_app. destruct b1 as [l1|l1|], b2 as [l2|l2|]; cbn in H |- *; try reflexivity; try exact H;
      try (destruct (existsb nan_or_inf l1); [discriminate H|]; cbn; exact H || reflexivity);
      try (destruct (existsb (existsb inf_val) l1); [discriminate H|]; exact H || reflexivity); auto.
  }
  destruct w as [|? ?|f z]; auto. destruct (is_finite z) eqn:F; auto. rewrite <- N. apply existsb_exists. exists (VF f z). split; auto.
  cbn. now rewrite F.
Qed.
Theorem select_9 opset attr d cn b1 b2 : 9 <= opset -> in_dtypes [FLT F32; FLT F64] d = true ->
  exists p, built (select opset attr d cn [b1; b2] (In_ 0) (In_ 1) (In_ 2)) = Some p /\
    computes opset p 3 (fun vs => select_args d vs /\ unselected_const b1 b2 vs) (tf_op "Select").
Proof.
  intros O K. destruct (handles_nan attr d cn [b1; b2]) eqn:HN.
  - destruct (select_where opset attr d cn [b1; b2] O HN) as (p & E & C). exists p. split; auto. intros ins tf L F Q. apply (C ins tf L F).
    intros sh ix vs A B D. apply (Q sh ix vs A B D).
  - assert (Ty : select_types opset d = true) by (destruct d as [|[]|]; cbn in K; try discriminate K; reflexivity).
    destruct (select_ok opset attr d cn [b1; b2]) as (p & E & C); [lia|exact Ty|]. exists p. split; auto. intros ins tf L F Q. apply (C ins tf L F).
    intros sh ix vs A B D. destruct (Q sh ix vs A B D) as (SA & U). split; auto. destruct SA as (c & x & y & -> & X & Y). cbn in U |- *.
    destruct c.
    + destruct y as [|? ?|f z]; auto. destruct U as [U|U]; auto.
      apply (handles_nan_const attr d cn b1 b2 (VF f z) K HN). apply in_or_app. now right.
    + destruct x as [|? ?|f z]; auto. destruct U as [U|U]; auto.
      apply (handles_nan_const attr d cn b1 b2 (VF f z) K HN). apply in_or_app. now left.
Qed.

(** ** the condition of Select is a vector *)
Lemma reshaped_shape nz k c c' n : reshaped (nz :: repeat 1%Z k) c c' -> tshape c = [n] -> tshape c' = n :: repeat 1 k.
Proof.
  intros (F & Sz & _) E. rewrite E in Sz. inversion F as [|z d l l' H F' E1 E2]; subst. rewrite <- E2 in Sz. clear - F' Sz.
  assert (R : l' = repeat 1 k).
  { clear Sz. revert l' F'. induction k as [|k IH]; cbn; intros l' F; inversion F as [|? d' ? ? [H|H] F']; subst; auto; [|discriminate H].
    f_equal; [lia|auto]. }
  subst l'. cbn in Sz. assert (O : fold_right Nat.mul 1 (repeat 1 k) = 1) by (clear; induction k; cbn; lia). unfold Tensor.size in Sz. rewrite O in Sz. f_equal. lia.
Qed.
Lemma le_ones n k sh : List.length sh = k -> le_shape (n :: repeat 1 k) (n :: sh).
Proof.
  intros L. unfold le_shape. cbn [rev]. assert (R : rev (repeat 1 k) = repeat 1 k).
  { clear. induction k as [|k IH]; cbn; auto. rewrite IH. clear. induction k; cbn; congruence. }
  rewrite R. assert (L' : List.length (rev sh) = k) by now rewrite rev_length. generalize dependent (rev sh). clear.
  intros l L. revert l L. induction k as [|k IH]; intros [|x l]; cbn; try discriminate; auto.
Qed.
Lemma align_col n k ix : List.length ix = k -> forall i, i < n -> align (n :: repeat 1 k) (i :: ix) = i :: repeat 0 k.
Proof.
  intros L i Hi. unfold align. cbn [List.length]. rewrite repeat_length, L, Nat.sub_diag. cbn. f_equal; [destruct (Nat.eqb_spec n 1); lia|].
  revert ix L. induction k as [|k IH]; intros [|x ix]; cbn; try discriminate; auto. intros [= L]. f_equal. auto.
Qed.
Lemma ravel_col n k i : Tensor.ravel (n :: repeat 1 k) (i :: repeat 0 k) = i.
Proof.
  cbn. assert (O : fold_right Nat.mul 1 (repeat 1 k) = 1) by (clear; induction k; cbn; lia). unfold Tensor.size. rewrite O.
  assert (Z : Tensor.ravel (repeat 1 k) (repeat 0 k) = 0) by (clear; induction k; cbn; lia). lia.
Qed.
Lemma inb_col n k i : i < n -> inb (i :: repeat 0 k) (n :: repeat 1 k).
Proof. intros H. split; auto. induction k; cbn; auto. Qed.
Definition rank_known (shape1 shape2 : option (list Z)) (r : nat) : Prop :=
  match shape1, shape2 with Some s, _ => List.length s = r | None, Some s => List.length s = r | None, None => True end.
Theorem select_vector opset attr d cn bs nz s1 s2 n sh c x y o : 7 <= opset -> select_types opset d = true ->
  tshape c = [n] -> tshape x = n :: sh -> tshape y = n :: sh -> rank_known s1 s2 (S (List.length sh)) ->
  (forall i ix, inb (i :: ix) (n :: sh) -> exists b vx vy, telem c [i] = Some (VB b) /\ telem x (i :: ix) = Some vx /\ telem y (i :: ix) = Some vy /\
     has_type d vx /\ has_type d vy /\ unselected_finite [VB b; vx; vy]) ->
  cond_reshape true (Some [nz]) s1 s2 = Some o ->
  forall c', match o with Some target => reshaped target c c' | None => c' = c end ->
  exists p onnx, built (select opset attr d cn bs (In_ 0) (In_ 1) (In_ 2)) = Some p /\ result opset p [c'; x; y] = Some onnx /\
    tshape onnx = n :: sh /\
    forall i ix b vx vy, inb (i :: ix) (n :: sh) -> telem c [i] = Some (VB b) -> telem x (i :: ix) = Some vx -> telem y (i :: ix) = Some vy ->
      exists w, telem onnx (i :: ix) = Some w /\ same (if b then vx else vy) w.
Proof.
  intros O Ty Ec Ex Ey Rk El Ho c' Hc'. destruct (select_ok opset attr d cn bs O Ty) as (p & E & C). exists p.
  assert (Sh : tshape c' = n :: repeat 1 (List.length sh) /\ forall i, i < n -> telem c' (i :: repeat 0 (List.length sh)) = telem c [i]).
  { unfold cond_reshape in Ho. unfold rank_known in Rk. set (s := match s1 with None => s2 | s => s end) in Ho.
    assert (Rs : match s with Some l => List.length l = S (List.length sh) | None => True end) by (destruct s1; exact Rk).
    destruct s as [l|]; [|discriminate Ho]. destruct (Nat.eqb_spec (List.length l) 1) as [El1|Nl].
    - injection Ho as <-. subst c'. assert (Z : List.length sh = 0) by lia. rewrite Ec, Z. split; [reflexivity|]. intros i Hi. reflexivity.
    - injection Ho as <-. replace (List.length l - 1) with (List.length sh) in Hc' by lia. assert (Es := reshaped_shape _ _ _ _ _ Hc' Ec).
      split; auto. intros i Hi. destruct Hc' as (_ & _ & H). rewrite H; rewrite Es; [now rewrite ravel_col|now apply inb_col]. }
  destruct Sh as (Es & Ee).
  assert (Hb : bcast_all (map tshape [c'; x; y]) = Some (n :: sh)).
  { assert (F : Forall (fun s => le_shape s (n :: sh)) (map tshape [c'; x; y])).
    { cbn. rewrite Es, Ex, Ey. repeat constructor; try apply le_refl. now apply le_ones. }
    destruct (bcast_all_exists _ _ F) as (u & U). rewrite U. f_equal. destruct (bcast_all_some _ _ U) as (G & LU).
    apply le_antisym; [now apply LU|]. inversion G as [|? ? _ G']; subst. inversion G' as [|? ? G'' _]; subst. now rewrite Ex in G''. }
  assert (Pt : forall i ix, inb (i :: ix) (n :: sh) ->
    map (fun t => telem t (align (tshape t) (i :: ix))) [c'; x; y] = [telem c [i]; telem x (i :: ix); telem y (i :: ix)]).
  { intros i ix I. cbn. rewrite Es, Ex, Ey, !(align_self (i :: ix) (n :: sh) I). destruct I as (I1 & I2).
    rewrite (align_col n (List.length sh) ix) by (auto using inb_length). now rewrite Ee. }
  assert (Hl : lift (tf_op "Select") [c'; x; y] = Some (Ten (n :: sh) (fun ix => match all_vals (map (fun t => telem t (align (tshape t) ix)) [c'; x; y]) with
                                        | Some vs => tf_op "Select" vs | None => None end))) by (unfold lift; now rewrite Hb).
  destruct (C [c'; x; y] _ eq_refl Hl) as (onnx & R & A).
  { intros sh' ix vs B I V. rewrite Hb in B. injection B as <-. destruct ix as [|i ix]; [destruct I|]. rewrite (Pt i ix I) in V.
    destruct (El i ix I) as (b & vx & vy & V1 & V2 & V3 & T1 & T2 & U). rewrite V1, V2, V3 in V. cbn in V. injection V as <-.
    split; auto. exists b, vx, vy. auto. }
  exists onnx. split; auto. split; auto. destruct A as (A1 & A2). cbn [tshape telem] in *. split; [now rewrite <- A1|].
  intros i ix b vx vy I V1 V2 V3. destruct (A2 (i :: ix) I (if b then vx else vy)) as (w & W & Sm); [|eauto].
  rewrite (Pt i ix I), V1, V2, V3. cbn [all_vals option_map]. destruct (El i ix I) as (b' & vx' & vy' & W1 & W2 & W3 & T1 & T2 & _).
  rewrite V2 in W2. injection W2 as <-. rewrite V3 in W3. injection W3 as <-.
  destruct (two_cases _ vx vy T1 T2) as [(p0 & q0 & _ & -> & ->)|[(t & p0 & q0 & _ & -> & -> & _)|(f & p0 & q0 & _ & -> & ->)]]; cbn;
    rewrite ?ity_eqb_refl, ?as_fl_same; now destruct b.
Qed.
