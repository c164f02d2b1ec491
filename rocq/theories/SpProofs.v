(** Proofs for C76. *)
From Coq Require Import String List Arith ZArith Bool Lia Permutation.
From Verif Require Import OnnxSpec SegSpec SegProofs RagSpec SpSpec SpModel.
From Verif Require RagProofs.
Import ListNotations.
Local Open Scope list_scope.
Local Notation length := List.length.

Section Values.
Context {A : Type} (env : string -> option (spval A)).
Lemma cv_1 o e v : cvalue env e = Some v -> cvalue env (C o [e]) = cop_value o [v].
Proof. intro H. cbn [cvalue]. now rewrite H. Qed.
Lemma cv_2 o e1 e2 v1 v2 : cvalue env e1 = Some v1 -> cvalue env e2 = Some v2 -> cvalue env (C o [e1; e2]) = cop_value o [v1; v2].
Proof. intros H1 H2. cbn [cvalue]. now rewrite H1, H2. Qed.
Lemma cv_3 o e1 e2 e3 v1 v2 v3 : cvalue env e1 = Some v1 -> cvalue env e2 = Some v2 -> cvalue env e3 = Some v3 -> cvalue env (C o [e1; e2; e3]) = cop_value o [v1; v2; v3].
Proof. intros H1 H2 H3. cbn [cvalue]. now rewrite H1, H2, H3. Qed.
Lemma cv_zero : cvalue env zero64 = Some (S0 0%Z).
Proof. reflexivity. Qed.
Lemma cv_one : cvalue env one64 = Some (S0 1%Z).
Proof. reflexivity. Qed.
End Values.
Lemma all_id {B C} (f : B -> option C) (g : B -> C) l : (forall b, In b l -> f b = Some (g b)) -> all_of f l = Some (map g l).
Proof. apply SegProofs.all_of_map. Qed.
Notation all_map := RagProofs.all_of_map.
(** ** strides *)
Fixpoint strides (l : list Z) : list Z := match l with [] => [] | _ :: l' => prod l' :: strides l' end.
Lemma strides_length l : length (strides l) = length l.
Proof. induction l; cbn; congruence. Qed.
Lemma strides_map l : map (fun k => prod (skipn (S k) l)) (seq 0 (length l)) = strides l.
Proof. induction l as [|x l IH]; [reflexivity|]. cbn [length seq map strides]. f_equal. rewrite <- IH, <- seq_shift, map_map. reflexivity. Qed.
Lemma tri_row l k : forall a, prod (zip (fun b y => pick b 1 y) (map (fun j => Nat.leb j k) (seq a (length l))) l) = prod (skipn (S k - a) l).
Proof.
  induction l as [|y l IH]; intro a; [now rewrite skipn_nil|]. unfold zip in *. cbn [length seq map combine fst snd]. cbn [prod fold_right]. fold (prod l). specialize (IH (S a)). unfold prod in IH at 1. rewrite IH. destruct (Nat.leb_spec a k).
  - cbn [pick]. replace (S k - a) with (S (S k - S a)) by lia. cbn [skipn]. lia.
  - cbn [pick]. replace (S k - a) with 0 by lia. replace (S k - S a) with 0 by lia. reflexivity.
Qed.
Lemma zip_seq_add a n : zip Z.add (map (fun j => if Nat.ltb j a then 1 else 0)%Z (seq 0 n)) (map (fun j => if Nat.eqb a j then 1 else 0)%Z (seq 0 n)) = map (fun j => if Nat.ltb j (S a) then 1 else 0)%Z (seq 0 n).
Proof.
  unfold zip. rewrite RagProofs.combine_map, map_map. apply map_ext. intro j. cbn [fst snd]. destruct (Nat.ltb_spec j a), (Nat.eqb_spec a j), (Nat.ltb_spec j (S a)); try lia; reflexivity.
Qed.
Lemma cumulate_eye n m : forall a, cumulate (map (fun j => if Nat.ltb j a then 1 else 0)%Z (seq 0 n)) (map (fun i => map (fun j => if Nat.eqb i j then 1%Z else 0%Z) (seq 0 n)) (seq a m)) = map (fun i => map (fun j => if Nat.ltb j (S i) then 1 else 0)%Z (seq 0 n)) (seq a m).
Proof. induction m as [|m IH]; intro a; [reflexivity|]. cbn [seq map cumulate]. rewrite zip_seq_add. cbv zeta. f_equal. apply IH. Qed.
Lemma repeat_seq {X} (x : X) n : repeat x n = map (fun _ => x) (seq 0 n).
Proof. generalize 0. induction n as [|n IH]; intro a; [reflexivity|]. cbn. f_equal. apply IH. Qed.
Definition known (shape : option (list Z)) (n : nat) : Prop := shape = None \/ shape = Some [(-1)%Z] \/ shape = Some [Z.of_nat n].
Lemma cum_prod_ok {A} (env : string -> option (spval A)) shape v l e : cvalue env v = Some (V1 l) -> known shape (length l) -> cum_prod shape v = Some e -> cvalue env e = Some (V1 (strides l)).
Proof.
  intros Hv Hk He. set (n := length l) in *.
  assert (T : forall m, cvalue env m = Some (BM n (tri n)) -> cvalue env (C CReduceProdRows [C CWhere [m; one64; v]]) = Some (V1 (strides l))).
  { intros m Hm. rewrite (cv_1 env CReduceProdRows _ (M2 n (map (fun r => zip (fun b y => pick b 1 y) r l) (tri n)))).
    - cbn [cop_value]. do 2 f_equal. unfold tri. rewrite !map_map, <- strides_map. apply map_ext. intro k. unfold n. apply (tri_row l k 0).
    - rewrite (cv_3 env _ _ _ _ _ _ _ Hm (cv_one env) Hv). cbn [cop_value]. fold n. now rewrite Nat.eqb_refl. }
  assert (D : cvalue env (C CCastBool [C CCumSum0 [C CEyeLike [C (CConstantOfShape 0) [C CConcatTwice [C CShape [v]]]]; zero64]]) = Some (BM n (tri n))).
  { rewrite (cv_1 env CCastBool _ (M2 n (map (fun i => map (fun j => if Nat.ltb j (S i) then 1 else 0)%Z (seq 0 n)) (seq 0 n)))).
    - cbn [cop_value]. do 2 f_equal. unfold tri. rewrite map_map. apply map_ext. intro i. rewrite map_map. apply map_ext. intro j. unfold Nat.ltb. cbn [Nat.leb]. destruct (Nat.leb j i); reflexivity.
    - rewrite (cv_2 env CCumSum0 _ _ (M2 n (eye n n)) (S0 0%Z)); [|rewrite (cv_1 env CEyeLike _ (M2 n (repeat (repeat 0%Z n) n)))|reflexivity].
      + cbn [cop_value]. do 2 f_equal. unfold eye. rewrite <- (cumulate_eye n n 0). f_equal. rewrite repeat_seq. apply map_ext. intro j. reflexivity.
      + cbn [cop_value]. now rewrite repeat_length.
      + rewrite (cv_1 env (CConstantOfShape 0) _ (V1 [Z.of_nat n; Z.of_nat n])).
        * cbn [cop_value]. replace (Z.leb 0 (Z.of_nat n)) with true by (symmetry; apply Z.leb_le; lia). cbn [andb]. now rewrite Nat2Z.id.
        * rewrite (cv_1 env CConcatTwice _ (V1 [Z.of_nat n])); [reflexivity|]. rewrite (cv_1 env CShape _ _ Hv). reflexivity. }
  unfold cum_prod in He. destruct Hk as [-> | [-> | ->]].
  - injection He as <-. apply T, D.
  - injection He as <-. apply T, D.
  - replace (Z.eqb (Z.of_nat n) (-1)) with false in He by (symmetry; apply Z.eqb_neq; lia). injection He as <-. apply T. rewrite Nat2Z.id. reflexivity.
Qed.
Lemma dot_strides dims : forall ix, length ix = length dims -> dot ix (strides dims) = row_major dims ix.
Proof. induction dims as [|d dims IH]; intros [|i ix] L; try discriminate; [reflexivity|]. unfold dot, zip. cbn [strides combine map fst snd fold_right row_major]. f_equal. apply IH. cbn in L. congruence. Qed.
(** ** digits *)
Lemma prod_cons d l : prod (d :: l) = (d * prod l)%Z.
Proof. reflexivity. Qed.
Lemma prod_nonneg l : Forall (fun d => (0 <= d)%Z) l -> (0 <= prod l)%Z.
Proof. induction 1 as [|d l H F IH]; [cbn; lia|]. rewrite prod_cons. nia. Qed.
Lemma bounds_prod dims ix : in_bounds dims ix -> Forall (fun d => (0 < d)%Z) dims /\ (0 <= row_major dims ix < prod dims)%Z.
Proof.
  unfold in_bounds. induction 1 as [|d i dims ix H F IH]; [split; [constructor|cbn; lia]|]. destruct IH as [P Q]. split; [constructor; [lia|exact P]|]. cbn [row_major]. rewrite prod_cons. nia.
Qed.
(** the index tuple is determined by its position *)
Lemma digits dims ix : in_bounds dims ix -> forall f q, (f = q * prod dims + row_major dims ix)%Z ->
  all_of (fun p => match mod_exact f (fst p) with Some m => div_exact m (snd p) | None => None end) (combine (removelast (prod dims :: strides dims)) (strides dims)) = Some ix.
Proof.
  unfold in_bounds. induction 1 as [|d i dims ix H F IH]; intros f q E; [reflexivity|]. destruct (bounds_prod dims ix F) as [P Q].
  cbn [strides]. change (removelast (prod (d :: dims) :: prod dims :: strides dims)) with (prod (d :: dims) :: removelast (prod dims :: strides dims)). cbn [combine].
  cbn [row_major] in E. rewrite prod_cons in *. apply RagProofs.all_of_cons.
  - cbn [fst snd]. unfold mod_exact, div_exact. replace (Z.eqb (d * prod dims) 0) with false by (symmetry; apply Z.eqb_neq; nia). replace (Z.eqb (prod dims) 0) with false by (symmetry; apply Z.eqb_neq; lia). f_equal.
    replace (f mod (d * prod dims))%Z with (i * prod dims + row_major dims ix)%Z by (apply (Z.mod_unique _ _ q); nia). rewrite Z.quot_div_nonneg by nia. symmetry. apply (Z.div_unique _ _ i (row_major dims ix)); lia.
  - apply (IH f (q * d + i)%Z). nia.
Qed.
Lemma prod_app a b : prod (a ++ b) = (prod a * prod b)%Z.
Proof. induction a as [|x a IH]; [cbn [app]; change (prod []) with 1%Z; now rewrite Z.mul_1_l|]. cbn [app]. rewrite !prod_cons, IH. lia. Qed.
Lemma same_known ns od : Forall2 (fun z d => z = d \/ z = (-1)%Z) ns od -> ~ In (-1)%Z ns -> ns = od.
Proof. induction 1 as [|z d ns od H F IH]; intro N; [reflexivity|]. destruct H as [-> | ->]; [|exfalso; apply N; now left]. f_equal. apply IH. intro H. apply N. now right. Qed.
Lemma where_ok ns od m : Forall2 (fun z d => z = d \/ z = (-1)%Z) ns od -> Forall (fun d => (0 <= d)%Z) od -> (forall k d, nth_error ns k = Some (-1)%Z -> nth_error od k = Some d -> d = m) ->
  zip (fun b y => pick b m y) (map (fun x => Z.ltb x 0) ns) ns = od.
Proof.
  induction 1 as [|z d ns od H F IH]; intros N Hm; [reflexivity|]. inversion N; subst. unfold zip in *. cbn [map combine fst snd]. f_equal.
  - destruct H as [-> | ->]; [replace (Z.ltb d 0) with false by (symmetry; apply Z.ltb_ge; lia); reflexivity|]. cbn [Z.ltb Z.compare pick]. symmetry. now apply (Hm 0).
  - apply IH; auto. intros k d' H1' H2'. now apply (Hm (S k)).
Qed.
Lemma missing_ok ns od dims : Forall2 (fun z d => z = d \/ z = (-1)%Z) ns od -> (forall i j, nth_error ns i = Some (-1)%Z -> nth_error ns j = Some (-1)%Z -> i = j) -> prod od = prod dims -> prod ns <> 0%Z ->
  forall k d, nth_error ns k = Some (-1)%Z -> nth_error od k = Some d -> d = (- Z.quot (prod dims) (prod ns))%Z.
Proof.
  intros F One Ep Nz k d Hk Hd. destruct (nth_error_split _ _ Hk) as (a & b & En & La). destruct (nth_error_split _ _ Hd) as (a' & b' & Eo & La'). subst ns od.
  assert (Sp : Forall2 (fun z d => z = d \/ z = (-1)%Z) a a' /\ Forall2 (fun z d => z = d \/ z = (-1)%Z) b b').
  { clear -F La La'. revert a' k La La' F. induction a as [|x a IH]; intros [|y a'] k La La' F; cbn in *; try lia; inversion F; subst; [split; auto|]. destruct (IH a' (length a) eq_refl ltac:(lia) H4). split; [constructor; auto|auto]. }
  destruct Sp as [Fa Fb].
  assert (Ea : a = a'). { apply same_known; [exact Fa|]. intro H. apply In_nth_error in H. destruct H as [i Hi]. assert (i < length a) by (apply nth_error_Some; congruence). assert (i = k); [|lia]. apply One; [now rewrite nth_error_app1|exact Hk]. }
  assert (Eb : b = b'). { apply same_known; [exact Fb|]. intro H. apply In_nth_error in H. destruct H as [i Hi]. assert (length a + S i = k); [|lia]. apply One; [|exact Hk]. rewrite nth_error_app2 by lia. replace (length a + S i - length a) with (S i) by lia. exact Hi. }
  subst a' b'. rewrite prod_app, prod_cons in Ep, Nz |- *. rewrite <- Ep. set (K := (prod a * prod b)%Z). replace (prod a * (d * prod b))%Z with (- d * (prod a * (-1 * prod b)))%Z by ring. rewrite Z.quot_mul by exact Nz. ring.
Qed.
Section Reshape.
Context {A : Type} (env : string -> option (spval A)).
Lemma reshape_ok dims ns od ixs out ss sn e_ix e_shape :
  env "indices"%string = Some (M2 (length dims) ixs) -> env "shape"%string = Some (V1 dims) -> env "new_shape"%string = Some (V1 ns) ->
  tf_reshape dims ns od ixs out -> prod ns <> 0%Z -> known ss (length dims) -> known sn (length od) -> sparse_reshape ss sn = Some (e_ix, e_shape) ->
  cvalue env e_ix = Some (M2 (length od) out) /\ cvalue env e_shape = Some (V1 od).
Proof.
  intros Hi Hs Hn [(Nd & No) Same One Kn Ep Mv] Nz Ks Kn' He. unfold sparse_reshape in He. cbv zeta in He.
  set (pc := C CReduceProd [CIn "shape"%string]) in *. set (pn := C CReduceProd [CIn "new_shape"%string]) in *. set (os := C CWhere _) in *.
  destruct (cum_prod ss (CIn "shape"%string)) as [curr|] eqn:Ec; [|discriminate]. destruct (cum_prod sn os) as [new|] eqn:En; [|discriminate]. injection He as <- <-.
  assert (X1 : cvalue env pc = Some (V1 [prod dims])) by (unfold pc; rewrite (cv_1 env _ _ _ (Hs : cvalue env (CIn "shape"%string) = _)); reflexivity).
  assert (X2 : cvalue env pn = Some (V1 [prod ns])) by (unfold pn; rewrite (cv_1 env _ _ _ (Hn : cvalue env (CIn "new_shape"%string) = _)); reflexivity).
  assert (X3 : cvalue env (C CNeg [C CDiv [pc; pn]]) = Some (V1 [(- Z.quot (prod dims) (prod ns))%Z])).
  { rewrite (cv_1 env _ _ (V1 [Z.quot (prod dims) (prod ns)])); [reflexivity|]. rewrite (cv_2 env _ _ _ _ _ X1 X2). cbn [cop_value]. unfold broadcast, div_exact. cbn. replace (Z.eqb (prod ns) 0) with false by (symmetry; now apply Z.eqb_neq). reflexivity. }
  assert (X4 : cvalue env os = Some (V1 od)).
  { unfold os. rewrite (cv_3 env CWhere _ _ _ (B1 (map (fun x => Z.ltb x 0) ns)) (V1 [(- Z.quot (prod dims) (prod ns))%Z]) (V1 ns)); [|rewrite (cv_2 env _ _ _ _ _ (Hn : cvalue env (CIn "new_shape"%string) = _) (cv_zero env)); reflexivity|exact X3|exact Hn].
    cbn [cop_value]. rewrite map_length, Nat.eqb_refl. do 2 f_equal. apply where_ok; auto. now apply missing_ok. }
  split; [|exact X4].
  assert (X5 := cum_prod_ok env ss _ dims curr (Hs : cvalue env (CIn "shape"%string) = _) Ks Ec). assert (X6 := cum_prod_ok env sn os od new X4 Kn' En).
  assert (X7 : cvalue env (C (CPadVec 0 (-1)) [C CConcat [pc; new]]) = Some (V1 (removelast (prod od :: strides od)))). { rewrite (cv_1 env _ _ (V1 (prod od :: strides od))); [reflexivity|]. rewrite (cv_2 env _ _ _ _ _ X1 X6), Ep. reflexivity. }
  assert (Li : Forall (fun ix => length ix = length dims) ixs). { clear -Mv. induction Mv as [|ix ix' ixs out (H & _) F IH]; constructor; auto. symmetry. clear -H. induction H; cbn; congruence. }
  assert (X8 : cvalue env (C CMatMul [CIn "indices"%string; curr]) = Some (V1 (map (row_major dims) ixs))).
  { rewrite (cv_2 env _ _ _ _ _ (Hi : cvalue env (CIn "indices"%string) = _) X5). cbn [cop_value]. rewrite strides_length, Nat.eqb_refl. do 2 f_equal. apply map_ext_in. intros ix Hx. apply dot_strides. rewrite Forall_forall in Li. auto. }
  set (inc := removelast (prod od :: strides od)) in *.
  assert (Linc : length inc = length od). { unfold inc. assert (G : forall (l : list Z) x, length (removelast (x :: l)) = length l) by (induction l as [|y l IH]; intro x; [reflexivity|]; change (removelast (x :: y :: l)) with (x :: removelast (y :: l)); cbn [List.length]; now rewrite IH). rewrite G. apply strides_length. }
  (* every row *)
  assert (Rows : exists ms, all_of (column_with mod_exact inc) (map (fun z => [z]) (map (row_major dims) ixs)) = Some ms /\ all_of (row_with div_exact (strides od)) ms = Some out).
  { clear Hi X8 Li. induction Mv as [|ix ix' ixs out (B1' & B2 & E) F IH]; [exists []; split; reflexivity|]. destruct IH as (ms & M1 & M2').
    assert (D := digits od ix' B2 (row_major dims ix) 0%Z ltac:(lia)). fold inc in D.
    assert (S2 : forall (f : Z) l s r, length l = length s -> all_of (fun p => match mod_exact f (fst p) with Some m => div_exact m (snd p) | None => None end) (combine l s) = Some r -> exists m, all_of (mod_exact f) l = Some m /\ length m = length s /\ all_of (fun p => div_exact (fst p) (snd p)) (combine m s) = Some r).
    { clear. intros f. induction l as [|x l IH]; intros [|y s] r L H; try discriminate; [injection H as <-; exists []; auto|]. cbn in H. destruct (mod_exact f x) as [a|] eqn:Ea; [|discriminate]. destruct (div_exact a y) as [q|] eqn:Eq; [|discriminate]. destruct (all_of _ (combine l s)) as [r'|] eqn:Er; [|discriminate]. injection H as <-. destruct (IH s r' ltac:(cbn in L; lia) Er) as (m & H1 & H2 & H3). exists (a :: m). cbn. rewrite Ea, H1, Eq, H3. auto. }
    destruct (S2 _ _ _ _ ltac:(rewrite Linc, strides_length; reflexivity) D) as (m & S3 & S4 & S5). exists (m :: ms). split.
    - cbn [map]. apply RagProofs.all_of_cons; [exact S3|exact M1].
    - apply RagProofs.all_of_cons; [|exact M2']. unfold row_with. rewrite S4, Nat.eqb_refl. exact S5. }
  destruct Rows as (ms & R1 & R2).
  rewrite (cv_2 env CDiv _ _ (M2 (length od) ms) (V1 (strides od))); [|rewrite (cv_2 env CMod _ _ (M2 1 (map (fun z => [z]) (map (row_major dims) ixs))) (V1 inc)); [|rewrite (cv_1 env _ _ _ X8); reflexivity|exact X7]|exact X6].
  - cbn [cop_value]. rewrite strides_length, Nat.eqb_refl, R2. reflexivity.
  - cbn [cop_value]. rewrite Nat.eqb_refl, R1, Linc. reflexivity.
Qed.
End Reshape.
(** ** SparseFillEmptyRows *)
Lemma slice_one (l : list Z) x : nth_error l 0 = Some x -> slice l 0 1 = [x].
Proof. destruct l as [|y l]; [discriminate|]. cbn. intro H. injection H as ->. unfold slice, slice_bound. cbn [Z.ltb Z.compare]. replace (Z.to_nat (Z.max 0 (Z.min (Z.of_nat (length (x :: l))) 0))) with 0 by (cbn [length]; lia). replace (Z.to_nat (Z.max 0 (Z.min (Z.of_nat (length (x :: l))) 1) - Z.max 0 (Z.min (Z.of_nat (length (x :: l))) 0))) with 1 by (cbn [length]; lia). reflexivity. Qed.
Section Fill.
Context {A : Type} (env : string -> option (spval A)) (n r : nat) (dims : list Z) (default : A) (entries : list (list Z * A)).
Hypotheses (Hi : env "indices"%string = Some (M2 r (map fst entries))) (Hv : env "values"%string = Some (D1 (map snd entries))) (Hd : env "default"%string = Some (A0 default)) (Hs : env "dense_shape"%string = Some (V1 (Z.of_nat n :: dims))).
Hypotheses (Rp : 1 <= r) (He : Forall (fun e => length (fst e) = r /\ exists k, k < n /\ row_is k e) entries).
Definition row_no (e : list Z * A) : nat := Z.to_nat (nth 0 (fst e) 0%Z).
Definition empty_row (k : nat) : bool := negb (existsb (fun e => Nat.eqb (row_no e) k) entries).
Lemma row_no_ok e : In e entries -> row_is (row_no e) e /\ row_no e < n.
Proof. intro H. rewrite Forall_forall in He. destruct (He e H) as (_ & k & Hk & E). unfold row_no, row_is in *. rewrite (nth_error_nth _ _ 0%Z E), Nat2Z.id. auto. Qed.
Lemma fill_ok e_ix e_val e_ind consumers : fill_empty_rows consumers = Some (e_ix, e_val, e_ind) ->
  let rows := filter empty_row (seq 0 n) in let all := entries ++ filled r default rows in
  cvalue env e_ix = Some (M2 r (map fst all)) /\ cvalue env e_val = Some (D1 (map snd all)) /\ cvalue env e_ind = Some (B1 (map empty_row (seq 0 n))).
Proof.
  intros H rows all. unfold fill_empty_rows in H. destruct (Nat.eqb consumers 0); [|discriminate]. cbv zeta in H.
  set (uniq := C CUnique _) in H. set (len := C (CSlice 0 1) [CIn "dense_shape"%string]) in H. set (ind := C CScatterBools _) in H. set (range := C CRange _) in H. set (ni := C CCompress [range; ind]) in H. injection H as <- <- <-.
  assert (X1 : cvalue env len = Some (V1 [Z.of_nat n])) by (unfold len; rewrite (cv_1 env _ _ _ (Hs : cvalue env (CIn "dense_shape"%string) = _)); cbn [cop_value]; now rewrite (slice_one _ (Z.of_nat n))).
  set (firsts := map (fun e : list Z * A => Z.of_nat (row_no e)) entries).
  assert (X2 : cvalue env uniq = Some (V1 (distinct firsts))).
  { unfold uniq. rewrite (cv_1 env CUnique _ (M2 1 (map (fun z => [z]) firsts))).
    - cbn [cop_value]. do 3 f_equal. clear. induction firsts as [|z l IH]; [reflexivity|]. cbn. f_equal. exact IH.
    - rewrite (cv_1 env _ _ _ (Hi : cvalue env (CIn "indices"%string) = _)). cbn [cop_value]. f_equal. f_equal; [destruct r as [|r']; [lia|]; unfold slice, slice_bound; cbn [Z.ltb Z.compare]; cbn [repeat length]; rewrite repeat_length; replace (Z.to_nat (Z.max 0 (Z.min (Z.of_nat (S r')) 0))) with 0 by lia; replace (Z.to_nat (Z.max 0 (Z.min (Z.of_nat (S r')) 1) - Z.max 0 (Z.min (Z.of_nat (S r')) 0))) with 1 by lia; reflexivity|].
      unfold firsts. rewrite !map_map. apply map_ext_in. intros e Hin. apply slice_one. apply row_no_ok in Hin. apply Hin. }
  set (D := distinct firsts) in *. assert (InD : forall z, In z D <-> exists e, In e entries /\ z = Z.of_nat (row_no e)) by (intro z; unfold D; rewrite distinct_in; unfold firsts; rewrite in_map_iff; split; intros (e & H1 & H2); exists e; auto).
  assert (X3 : cvalue env ind = Some (B1 (map empty_row (seq 0 n)))).
  { unfold ind. rewrite (cv_3 env CScatterBools _ _ _ (B1 (repeat true n)) (V1 D) (B1 (repeat false (length D)))).
    - cbn [cop_value]. rewrite !repeat_length. rewrite (all_id _ Z.to_nat) by (intros z Hz; apply InD in Hz; destruct Hz as (e & H1 & ->); apply row_no_ok in H1; apply norm_ok; lia).
      rewrite Nat.eqb_refl. rewrite no_dups_ok; [|intros a b; apply Nat.eqb_eq|].
      2:{ assert (G : forall l, NoDup l -> (forall z, In z l -> (0 <= z)%Z) -> NoDup (map Z.to_nat l)). { induction 1 as [|z l N Nl IH]; intro P; [constructor|]. cbn. constructor; [|apply IH; intros; apply P; now right]. intro Hz. apply in_map_iff in Hz. destruct Hz as (y & E & Hy). apply N. assert (0 <= z)%Z by (apply P; now left). assert (0 <= y)%Z by (apply P; now right). replace z with y by lia. exact Hy. }
          apply G; [apply distinct_nodup|]. intros z Hz. apply InD in Hz. destruct Hz as (e & _ & ->). lia. }
      cbn [andb]. do 2 f_equal. apply map_ext_in. intros k Hk. apply in_seq in Hk. rewrite nth_repeat_lt by lia. unfold empty_row. destruct (existsb (fun e => Nat.eqb (row_no e) k) entries) eqn:Ex.
      + apply existsb_exists in Ex. destruct Ex as (e & H1 & H2). apply Nat.eqb_eq in H2. assert (Hz : In (Z.of_nat k) D) by (apply InD; exists e; split; [exact H1|congruence]). cbn [negb].
        assert (G : forall l, In (Z.of_nat k) l -> (forall z, In z l -> (0 <= z)%Z) -> look Nat.eqb k (combine (map Z.to_nat l) (repeat false (length l))) = Some false). { clear. induction l as [|z l IH]; intros H P; [destruct H|]. cbn. destruct (Nat.eqb_spec k (Z.to_nat z)); [reflexivity|]. apply IH; [|intros; apply P; now right]. destruct H as [-> |H]; [lia|exact H]. }
        rewrite G; [reflexivity|exact Hz|]. intros z Hz'. apply InD in Hz'. destruct Hz' as (e' & _ & ->). lia.
      + cbn [negb]. rewrite (look_in Nat.eqb Nat.eqb_eq); [reflexivity|]. rewrite combine_fst by (rewrite map_length, repeat_length; reflexivity). intro Hz. apply in_map_iff in Hz. destruct Hz as (z & E & Hz). apply InD in Hz. destruct Hz as (e & H1 & ->). rewrite Nat2Z.id in E. assert (existsb (fun e => Nat.eqb (row_no e) k) entries = true); [|congruence]. apply existsb_exists. exists e. split; [exact H1|now apply Nat.eqb_eq].
    - rewrite (cv_1 env _ _ _ X1). cbn [cop_value]. replace (Z.leb 0 (Z.of_nat n)) with true by (symmetry; apply Z.leb_le; lia). now rewrite Nat2Z.id.
    - exact X2.
    - rewrite (cv_1 env _ _ (V1 [Z.of_nat (length D)])); [|rewrite (cv_1 env _ _ _ X2); reflexivity]. cbn [cop_value]. replace (Z.leb 0 (Z.of_nat (length D))) with true by (symmetry; apply Z.leb_le; lia). now rewrite Nat2Z.id. }
  assert (X4 : cvalue env range = Some (V1 (map Z.of_nat (seq 0 n)))).
  { unfold range. rewrite (cv_3 env CRange _ _ _ (S0 0%Z) (S0 (Z.of_nat n)) (S0 1%Z)); [|reflexivity|rewrite (cv_1 env _ _ _ X1); reflexivity|reflexivity]. cbn [cop_value]. replace (Z.to_nat (Z.of_nat n - 0)) with n by lia. do 2 f_equal. }
  assert (X5 : cvalue env ni = Some (V1 (map Z.of_nat rows))). { unfold ni. rewrite (cv_2 env _ _ _ _ _ X4 X3). cbn [cop_value]. rewrite !map_length, Nat.leb_refl. now rewrite RagProofs.compress_map. }
  assert (Lr : length (filled r default rows) = length rows) by apply map_length.
  split; [|split; [|exact X3]].
  - rewrite (cv_2 env CConcat _ _ (M2 r (map fst entries)) (M2 r (map fst (filled r default rows)))); [|exact Hi|].
    + cbn [cop_value]. rewrite Nat.eqb_refl. unfold all. now rewrite map_app.
    + rewrite (cv_2 env CPad _ _ (M2 1 (map (fun z => [z]) (map Z.of_nat rows))) (V1 [0; 0; 0; Z.of_nat r - 1]%Z)).
      * cbn [cop_value]. replace (Z.leb 0 (Z.of_nat r - 1)) with true by (symmetry; apply Z.leb_le; lia). f_equal. f_equal; [lia|]. unfold filled. rewrite !map_map. apply map_ext. intro k. cbn [fst app]. do 2 f_equal. lia.
      * rewrite (cv_1 env _ _ _ X5). reflexivity.
      * rewrite (cv_2 env CConcat _ _ (V1 [0; 0; 0]%Z) (V1 [(Z.of_nat r - 1)%Z])); [reflexivity|reflexivity|]. rewrite (cv_2 env CSub _ _ (V1 [Z.of_nat r]) (S0 1%Z)); [reflexivity| |reflexivity]. rewrite (cv_1 env _ _ (V1 [Z.of_nat (length (map fst entries)); Z.of_nat r])); [reflexivity|]. rewrite (cv_1 env _ _ _ (Hi : cvalue env (CIn "indices"%string) = _)). reflexivity.
  - rewrite (cv_2 env CConcat _ _ (D1 (map snd entries)) (D1 (map snd (filled r default rows)))); [|exact Hv|].
    + cbn [cop_value]. unfold all. now rewrite map_app.
    + rewrite (cv_2 env CExpand _ _ (A0 default) (V1 [Z.of_nat (length rows)])); [|exact Hd|rewrite (cv_1 env _ _ _ X5); cbn [cop_value]; now rewrite map_length]. cbn [cop_value]. replace (Z.leb 0 (Z.of_nat (length rows))) with true by (symmetry; apply Z.leb_le; lia). rewrite Nat2Z.id. do 2 f_equal. unfold filled. rewrite map_map. cbn [snd]. clear. induction rows; cbn; congruence.
Qed.
End Fill.
(** ** SparseToDense and RaggedTensorToTensor *)
Lemma ix_eqb_eq a b : ix_eqb a b = true <-> a = b.
Proof. revert b. induction a as [|x a IH]; intros [|y b]; cbn; try (split; [discriminate|discriminate]); [tauto|]. rewrite andb_true_iff, IH, Z.eqb_eq. split; [intros [-> ->]; reflexivity|now injection 1]. Qed.
Lemma bounded_ok dims ix : bounded dims ix = true <-> in_bounds dims ix.
Proof.
  unfold bounded, in_bounds. revert ix. induction dims as [|d dims IH]; intros [|i ix]; cbn [length combine forallb]; try (split; [discriminate|inversion 1]); [split; [constructor|reflexivity]|].
  specialize (IH ix). rewrite andb_true_iff in *. cbn [fst snd]. split.
  - intros [L H]. apply andb_true_iff in H. destruct H as [H1 H2]. apply andb_true_iff in H1. destruct H1 as [H1 H1']. apply Z.leb_le in H1. apply Z.ltb_lt in H1'. constructor; [lia|]. apply IH. auto.
  - inversion 1; subst. apply IH in H5. destruct H5 as [L F]. split; [exact L|]. rewrite F. replace (Z.leb 0 i) with true by (symmetry; apply Z.leb_le; lia). replace (Z.ltb i d) with true by (symmetry; apply Z.ltb_lt; lia). reflexivity.
Qed.
Section Scatter.
Context {A : Type} (env : string -> option (spval A)) (default : A).
Lemma scatter_ok e_sh dims e_ix e_v entries : cvalue env (CIn "default"%string) = Some (A0 default) -> cvalue env e_sh = Some (V1 dims) -> cvalue env e_ix = Some (M2 (length dims) (map fst entries)) -> cvalue env e_v = Some (D1 (map snd entries)) ->
  Forall (fun d => (0 <= d)%Z) dims -> NoDup (map fst entries) -> Forall (fun e : list Z * A => in_bounds dims (fst e)) entries ->
  exists f, cvalue env (C CScatterND [C CExpandDense [CIn "default"%string; e_sh]; e_ix; e_v]) = Some (Dense dims f) /\ tf_to_dense default entries dims f.
Proof.
  intros Hd Hs Hi Hv Nn Nd B. eexists. split.
  - rewrite (cv_3 env CScatterND _ _ _ (Dense dims (fun _ => default)) _ _) with (2 := Hi) (3 := Hv); [|rewrite (cv_2 env _ _ _ _ _ Hd Hs); cbn [cop_value]; replace (forallb (Z.leb 0) dims) with true by (symmetry; apply forallb_forall; rewrite Forall_forall in Nn; intros d H; apply Z.leb_le, Nn, H); reflexivity].
    cbn [cop_value]. rewrite !map_length, !Nat.eqb_refl. replace (forallb (bounded dims) (map fst entries)) with true by (symmetry; apply forallb_forall; intros ix H; apply in_map_iff in H; destruct H as (e & <- & H); apply bounded_ok; rewrite Forall_forall in B; auto). rewrite no_dups_ok; [|intros a b; apply ix_eqb_eq|exact Nd]. reflexivity.
  - split; [exact Nd|]. split; [exact B|]. intros ix Hb. assert (Ec : combine (map fst entries) (map snd entries) = entries) by (rewrite RagProofs.combine_map; rewrite <- (map_id entries) at 2; apply map_ext; intros [? ?]; reflexivity). rewrite Ec. split.
    + intros a Ha. now rewrite (look_found ix_eqb ix_eqb_eq ix a entries Nd Ha).
    + intro N. now rewrite (look_in ix_eqb ix_eqb_eq ix entries N).
Qed.
Lemma min_list_lt l m : min_list l = Some m -> (0 < m)%Z <-> Forall (fun z => (0 < z)%Z) l.
Proof.
  destruct l as [|x l]; [discriminate|]. cbn [min_list]. intro H. injection H as <-. revert x. induction l as [|y l IH]; intro x; cbn [fold_right].
  - split; [intro H; constructor; [exact H|constructor]|now inversion 1].
  - specialize (IH x). rewrite Z.min_glb_lt_iff. rewrite IH. split.
    + intros [H1 H2]. inversion H2; subst. constructor; auto.
    + intro H. inversion H as [|? ? H1 H2]; subst. inversion H2; subst. split; auto.
Qed.
Definition inside (od ix : list Z) : bool := match min_list (zip Z.sub od ix) with Some m => Z.ltb 0 m | None => false end.
Lemma inside_ok od ix : od <> [] -> length ix = length od -> Forall (fun z => (0 <= z)%Z) ix -> inside od ix = true <-> in_bounds od ix.
Proof.
  intros Ne L F. unfold inside. destruct (min_list (zip Z.sub od ix)) as [m|] eqn:E; [|destruct od as [|d od]; [contradiction|]; destruct ix; discriminate].
  rewrite Z.ltb_lt, (min_list_lt _ _ E). unfold in_bounds. clear E Ne m. revert ix L F. induction od as [|d od IH]; intros [|i ix] L F; try discriminate; [split; constructor|].
  inversion F; subst. unfold zip in *. cbn [combine map fst snd]. split.
  - intro H. inversion H; subst. constructor; [lia|]. apply IH; auto.
  - intro H. inversion H; subst. constructor; [lia|]. apply IH; auto.
Qed.
Lemma row_sub od ix : length ix = length od -> row_with (fun x y => Some (y - x)%Z) od ix = Some (zip Z.sub od ix).
Proof.
  intro L. unfold row_with. rewrite L, Nat.eqb_refl. rewrite (all_id _ (fun p => (snd p - fst p)%Z)) by reflexivity. f_equal. revert ix L. induction od as [|d od IH]; intros [|i ix] L; try discriminate; [reflexivity|]. unfold zip in *. cbn. f_equal. apply IH. cbn in L. congruence.
Qed.
Section ToTensor.
Variables (entries : list (list Z * A)) (dense od : list Z).
Hypotheses (Hd : env "default"%string = Some (A0 default)) (Hi : env "sparse_indices"%string = Some (M2 (length dense) (map fst entries))) (Hv : env "values"%string = Some (D1 (map snd entries))) (Hs : env "dense_shape"%string = Some (V1 dense)).
Hypotheses (Ne : dense <> []) (Lo : length od = length dense) (Po : Forall (fun d => (0 <= d)%Z) od) (Nd : NoDup (map fst entries)) (Hb : Forall (fun e : list Z * A => in_bounds dense (fst e)) entries).
Lemma lengths_in e : In e entries -> length (fst e) = length od /\ Forall (fun z => (0 <= z)%Z) (fst e).
Proof. intro H. rewrite Forall_forall in Hb. specialize (Hb e H). rewrite Lo. unfold in_bounds in Hb. generalize dependent (fst e). clear. induction dense as [|d l IH]; intros ix Hb; inversion Hb as [|? i ? ix' Hi' F]; subst; [split; [reflexivity|apply Forall_nil]|]. destruct (IH ix' F) as [L P]. split; [cbn; congruence|]. apply Forall_cons; [lia|exact P]. Qed.
Lemma clip_ok e_sh : cvalue env e_sh = Some (V1 od) ->
  let keep := C CGreater [C CReduceMinRows [C CSub [C CUnsqueeze0 [e_sh]; CIn "sparse_indices"%string]]; zero64] in
  exists f, cvalue env (C CScatterND [C CExpandDense [CIn "default"%string; e_sh]; C CCompress [CIn "sparse_indices"%string; keep]; C CCompress [CIn "values"%string; keep]]) = Some (Dense od f) /\ tf_to_tensor default entries od f.
Proof.
  intros Hsh keep.
  assert (X1 : cvalue env (C CUnsqueeze0 [e_sh]) = Some (M2 (length od) [od])) by (rewrite (cv_1 env _ _ _ Hsh); reflexivity).
  assert (X2 : cvalue env (C CSub [C CUnsqueeze0 [e_sh]; CIn "sparse_indices"%string]) = Some (M2 (length od) (map (fun e => zip Z.sub od (fst e)) entries))).
  { rewrite (cv_2 env _ _ _ _ _ X1 (Hi : cvalue env (CIn "sparse_indices"%string) = _)). cbn [cop_value]. rewrite Lo, Nat.eqb_refl. rewrite all_map with (g := fun e => zip Z.sub od (fst e)); [reflexivity|]. intros e H. apply row_sub. now apply lengths_in. }
  assert (X3 : exists ms, all_of min_list (map (fun e => zip Z.sub od (fst e)) entries) = Some ms /\ map (fun x => Z.ltb 0 x) ms = map (fun e => inside od (fst e)) entries).
  { assert (G : forall l, (forall e, In e l -> In e entries) -> exists ms, all_of min_list (map (fun e => zip Z.sub od (fst e)) l) = Some ms /\ map (fun x => Z.ltb 0 x) ms = map (fun e => inside od (fst e)) l); [|apply G; auto].
    induction l as [|e l IH]; intro S; [exists []; auto|]. destruct IH as (ms & E1 & E2); [intros; apply S; now right|]. destruct (lengths_in e (S e (or_introl eq_refl))) as [L _].
    destruct (min_list (zip Z.sub od (fst e))) as [m|] eqn:Em; [|exfalso; clear -Em L Ne Lo; destruct od, dense, (fst e); try discriminate; contradiction]. exists (m :: ms). split; [cbn [map]; apply RagProofs.all_of_cons; auto|]. cbn [map]. rewrite E2. f_equal. unfold inside. now rewrite Em. }
  destruct X3 as (ms & E1 & E2).
  assert (X4 : cvalue env keep = Some (B1 (map (fun e => inside od (fst e)) entries))).
  { unfold keep. rewrite (cv_2 env CGreater _ _ (V1 ms) (S0 0%Z)); [cbn [cop_value]; now rewrite E2| |reflexivity]. rewrite (cv_1 env _ _ _ X2). cbn [cop_value]. now rewrite E1. }
  set (kept := filter (fun e => inside od (fst e)) entries).
  assert (In_kept : forall e, In e kept <-> In e entries /\ in_bounds od (fst e)). { intro e. unfold kept. rewrite filter_In. split; intros [H1 H2]; (split; [exact H1|]); destruct (lengths_in e H1) as [L P]; apply (inside_ok od (fst e)); auto; destruct od, dense; try discriminate; contradiction. }
  destruct (scatter_ok e_sh od (C CCompress [CIn "sparse_indices"%string; keep]) (C CCompress [CIn "values"%string; keep]) kept Hd Hsh) as (f & F1 & F2 & F3 & F4).
  - rewrite (cv_2 env _ _ _ _ _ (Hi : cvalue env (CIn "sparse_indices"%string) = _) X4). cbn [cop_value]. rewrite !map_length, Nat.leb_refl, RagProofs.compress_map, Lo. reflexivity.
  - rewrite (cv_2 env _ _ _ _ _ (Hv : cvalue env (CIn "values"%string) = _) X4). cbn [cop_value]. rewrite !map_length, Nat.leb_refl, RagProofs.compress_map. reflexivity.
  - exact Po.
  - unfold kept. clear -Nd. induction entries as [|e l IH]; [constructor|]. cbn in Nd. inversion Nd; subst. cbn [filter]. destruct (inside od (fst e)); [|auto]. cbn. constructor; [|auto]. intro H. apply H1. apply in_map_iff in H. destruct H as (e' & E & H). apply filter_In in H. rewrite <- E. now apply in_map.
  - apply Forall_forall. intros e H. now apply In_kept.
  - exists f. split; [exact F1|]. intros ix B. destruct (F4 ix B) as [G1 G2]. split.
    + intros a Ha. apply G1. apply In_kept. auto.
    + intro N. apply G2. intro H. apply N. apply in_map_iff in H. destruct H as (e & <- & H). apply in_map. now apply In_kept.
Qed.
End ToTensor.
Lemma to_tensor_ok entries dense od shape rank :
  env "default"%string = Some (A0 default) -> env "sparse_indices"%string = Some (M2 (length dense) (map fst entries)) -> env "values"%string = Some (D1 (map snd entries)) -> env "dense_shape"%string = Some (V1 dense) ->
  env "shape"%string = Some (match shape with None => S0 (-1)%Z | Some sh => V1 sh end) -> (rank = None \/ rank = Some (match shape with None => 0 | Some _ => 1 end)) ->
  match shape with None => od = dense | Some sh => wanted_dims dense sh od end ->
  dense <> [] -> Forall (fun d => (0 <= d)%Z) dense -> NoDup (map fst entries) -> Forall (fun e : list Z * A => in_bounds dense (fst e)) entries ->
  exists f, cvalue env (to_tensor rank) = Some (Dense od f) /\ tf_to_tensor default entries od f.
Proof.
  intros Hd Hi Hv Hs Hsh Hr Hw Ne Pd Nd Hb.
  assert (Po : length od = length dense /\ Forall (fun d => (0 <= d)%Z) od).
  { destruct shape as [sh|]; [|subst od; auto]. destruct Hw as (L1 & L2 & W). split; [congruence|]. apply Forall_forall. intros d H. apply In_nth_error in H. destruct H as [k H]. assert (Hk : k < length od) by (apply nth_error_Some; congruence).
    destruct (nth_error dense k) as [x|] eqn:E1; [|apply nth_error_None in E1; lia]. destruct (nth_error sh k) as [z|] eqn:E2; [|apply nth_error_None in E2; lia]. destruct (W k x z d E1 E2 H) as [[_ ->]|[? ->]]; [|lia]. apply nth_error_In in E1. rewrite Forall_forall in Pd. auto. }
  destruct Po as [Lo Po].
  destruct shape as [sh|].
  - assert (X : cvalue env (C CWhere [C CLess [CIn "shape"%string; zero64]; CIn "dense_shape"%string; CIn "shape"%string]) = Some (V1 od)).
    { rewrite (cv_3 env CWhere _ _ _ (B1 (map (fun x => Z.ltb x 0) sh)) (V1 dense) (V1 sh)); [|rewrite (cv_2 env _ _ _ _ _ (Hsh : cvalue env (CIn "shape"%string) = _) (cv_zero env)); reflexivity|exact Hs|exact Hsh].
      destruct Hw as (L1 & L2 & W).
      assert (Z0 : forall d0 s0 o0, length d0 = length s0 -> length o0 = length s0 -> (forall k d z o, nth_error d0 k = Some d -> nth_error s0 k = Some z -> nth_error o0 k = Some o -> (z = -1 /\ o = d)%Z \/ (0 <= z /\ o = z)%Z) -> zip (fun b p => pick b (fst p) (snd p)) (map (fun x => Z.ltb x 0) s0) (combine d0 s0) = o0).
      { clear. induction d0 as [|d d0 IH]; intros [|z s0] [|o o0] L1 L2 W; try discriminate; [reflexivity|]. unfold zip in *. cbn [map combine fst snd]. f_equal; [|apply IH; [cbn in L1; congruence|cbn in L2; congruence|]; intros k; apply (W (S k))]. destruct (W 0 d z o eq_refl eq_refl eq_refl) as [[-> ->]|[H ->]]; [reflexivity|]. replace (Z.ltb z 0) with false by (symmetry; apply Z.ltb_ge; lia). reflexivity. }
      specialize (Z0 dense sh od L1 L2 W). destruct dense as [|x [|y rest]]; [contradiction| |].
      - destruct sh as [|z [|]]; try discriminate. cbn [cop_value]. cbn [map length Nat.eqb]. do 2 f_equal. rewrite <- Z0. reflexivity.
      - cbn [cop_value]. rewrite map_length, L1, !Nat.eqb_refl. cbn [andb]. do 2 f_equal. exact Z0. }
    destruct (clip_ok entries dense od Hd Hi Hv Hs Ne Lo Po Nd Hb _ X) as (f & F1 & F2). exists f. split; [|exact F2]. destruct Hr as [-> | ->]; exact F1.
  - subst od. destruct Hr as [-> | ->].
    + assert (X : cvalue env (C CWhere [C CLess [CIn "shape"%string; zero64]; CIn "dense_shape"%string; CIn "shape"%string]) = Some (V1 dense)).
      { rewrite (cv_3 env CWhere _ _ _ (B0 true) (V1 dense) (S0 (-1)%Z)); [|rewrite (cv_2 env _ _ _ _ _ (Hsh : cvalue env (CIn "shape"%string) = _) (cv_zero env)); reflexivity|exact Hs|exact Hsh]. cbn [cop_value pick]. now rewrite map_id. }
      destruct (clip_ok entries dense dense Hd Hi Hv Hs Ne Lo Po Nd Hb _ X) as (f & F1 & F2). exists f. split; [|exact F2]. exact F1.
    + destruct (scatter_ok (CIn "dense_shape"%string) dense (CIn "sparse_indices"%string) (CIn "values"%string) entries Hd Hs Hi Hv Po Nd Hb) as (f & F1 & _ & _ & F4). exists f. split; [exact F1|exact F4].
Qed.
End Scatter.
