(** Converting While: which entries are deleted from the lists of names. *)
From Coq Require Import String List Bool ZArith Arith Lia.
From Verif Require Import FGraph InlineModel InlineSpec WhileSpec WhileModel.
Import ListNotations.
Local Open Scope string_scope.
Local Open Scope list_scope.

Definition keep {A} (p : kind -> bool) (ks : list kind) (l : list A) : list A := map snd (filter (fun x => negb (p (fst x))) (combine ks l)).
Definition sel {A} (p : kind -> bool) (ks : list kind) (l : list A) : list A := map snd (filter (fun x => p (fst x)) (combine ks l)).
Lemma keep_cons {A} p k ks (x : A) l : keep p (k :: ks) (x :: l) = if p k then keep p ks l else x :: keep p ks l.
Proof. unfold keep. cbn [combine filter fst]. destruct (p k); reflexivity. Qed.
Lemma sel_cons {A} p k ks (x : A) l : sel p (k :: ks) (x :: l) = if p k then x :: sel p ks l else sel p ks l.
Proof. unfold sel. cbn [combine filter fst]. destruct (p k); reflexivity. Qed.
Lemma of_kind_cons {A} q k ks (x : A) l : of_kind q (k :: ks) (x :: l) = if kind_eqb k q then x :: of_kind q ks l else of_kind q ks l.
Proof. unfold of_kind. cbn [combine filter fst]. destruct (kind_eqb k q); reflexivity. Qed.
Lemma not_lst_cons {A} k ks (x : A) l : not_lst (k :: ks) (x :: l) = if kind_eqb k Lst then not_lst ks l else x :: not_lst ks l.
Proof. unfold not_lst. cbn [combine filter fst]. destruct (kind_eqb k Lst); reflexivity. Qed.
Lemma keep_nil {A} p (l : list A) : keep p [] l = []. Proof. reflexivity. Qed.
Lemma sel_lst {A} ks (l : list A) : sel is_lst ks l = of_kind Lst ks l.
Proof. unfold sel, of_kind. f_equal. Qed.
Lemma keep_lst {A} ks (l : list A) : keep is_lst ks l = not_lst ks l.
Proof. unfold keep, not_lst. f_equal. Qed.
Lemma loop_vars_eq ks : forall l, loop_vars ks l = of_kind Var ks l.
Proof. induction ks as [|k ks IH]; intros [|x l]; try reflexivity; [destruct k; reflexivity|]. rewrite of_kind_cons. destruct k; cbn [loop_vars kind_eqb]; rewrite ?IH; reflexivity. Qed.

Lemma delete_mid {A} (pre : list A) x l : delete (length pre) (pre ++ x :: l) = Some (pre ++ l).
Proof. induction pre as [|y pre IH]; [reflexivity|]. cbn [length app delete]. rewrite IH. reflexivity. Qed.
Lemma nth_mid {A} (pre : list A) x l : nth_error (pre ++ x :: l) (length pre) = Some x.
Proof. induction pre as [|y pre IH]; [reflexivity|]. exact IH. Qed.
Lemma delete_all_app {A} a b (l : list A) : delete_all (a ++ b) l = obind (delete_all a l) (delete_all b).
Proof. revert l. induction a as [|i a IH]; intro l; [reflexivity|]. cbn [app delete_all]. destruct (delete i l); [apply IH|reflexivity]. Qed.
Lemma delete_all_ok {A} p : forall ks (pre l tl : list A), length l = length ks -> delete_all (rev (indices p (length pre) ks)) (pre ++ l ++ tl) = Some (pre ++ keep p ks l ++ tl).
Proof.
  induction ks as [|k ks IH]; intros pre l tl L; destruct l as [|x l]; try discriminate; [reflexivity|]. cbn [indices]. rewrite keep_cons.
  assert (Q : delete_all (rev (indices p (S (length pre)) ks)) (pre ++ (x :: l) ++ tl) = Some (pre ++ x :: keep p ks l ++ tl)).
  { specialize (IH (pre ++ [x]) l tl). rewrite app_length in IH. cbn [length] in IH. rewrite Nat.add_1_r, <- !app_assoc in IH. apply IH. cbn in L. lia. }
  destruct (p k); [|exact Q]. cbn [rev]. rewrite delete_all_app, Q. cbn [obind delete_all]. rewrite delete_mid. reflexivity.
Qed.
Lemma delete_lists_app a b w : delete_lists (a ++ b) w = obind (delete_lists a w) (delete_lists b).
Proof. revert w. induction a as [|i a IH]; intro w; [reflexivity|]. cbn [app delete_lists]. destruct (delete_list w i); [apply IH|reflexivity]. Qed.
Lemma delete_lists_ok : forall ks (p1 p2 p3 p4 p5 l1 l2 l3 l4 l5 t1 t2 t3 t4 t5 sc : list string) i,
  length p1 = i -> length p2 = i -> length p3 = i -> length p4 = i -> length p5 = i ->
  length l1 = length ks -> length l2 = length ks -> length l3 = length ks -> length l4 = length ks -> length l5 = length ks ->
  delete_lists (rev (indices is_lst i ks)) (WLists (p1 ++ l1 ++ t1) (p2 ++ l2 ++ t2) (p3 ++ l3 ++ t3) (p4 ++ l4 ++ t4) (p5 ++ l5 ++ t5) sc) =
  Some (WLists (p1 ++ keep is_lst ks l1 ++ t1) (p2 ++ keep is_lst ks l2 ++ t2) (p3 ++ keep is_lst ks l3 ++ t3) (p4 ++ keep is_lst ks l4 ++ t4)
         (p5 ++ keep is_lst ks l5 ++ t5 ++ rev (sel is_lst ks l5)) (sc ++ rev (sel is_lst ks l4))).
Proof.
  induction ks as [|k ks IH]; intros p1 p2 p3 p4 p5 l1 l2 l3 l4 l5 t1 t2 t3 t4 t5 sc i P1 P2 P3 P4 P5 L1 L2 L3 L4 L5;
    destruct l1 as [|x1 l1], l2 as [|x2 l2], l3 as [|x3 l3], l4 as [|x4 l4], l5 as [|x5 l5]; try discriminate.
  - cbn. rewrite !app_nil_r. reflexivity.
  - cbn [indices]. rewrite !keep_cons, !sel_cons.
    assert (Q : delete_lists (rev (indices is_lst (S i) ks)) (WLists (p1 ++ (x1 :: l1) ++ t1) (p2 ++ (x2 :: l2) ++ t2) (p3 ++ (x3 :: l3) ++ t3) (p4 ++ (x4 :: l4) ++ t4) (p5 ++ (x5 :: l5) ++ t5) sc) =
      Some (WLists (p1 ++ x1 :: keep is_lst ks l1 ++ t1) (p2 ++ x2 :: keep is_lst ks l2 ++ t2) (p3 ++ x3 :: keep is_lst ks l3 ++ t3) (p4 ++ x4 :: keep is_lst ks l4 ++ t4)
         (p5 ++ x5 :: keep is_lst ks l5 ++ t5 ++ rev (sel is_lst ks l5)) (sc ++ rev (sel is_lst ks l4)))).
    { specialize (IH (p1 ++ [x1]) (p2 ++ [x2]) (p3 ++ [x3]) (p4 ++ [x4]) (p5 ++ [x5]) l1 l2 l3 l4 l5 t1 t2 t3 t4 t5 sc (S i)). rewrite !app_length in IH. cbn [length] in IH.
      rewrite <- !app_assoc in IH. cbn [length] in *. apply IH; lia. }
    destruct (is_lst k); [|exact Q]. cbn [rev]. rewrite delete_lists_app, Q. cbn [obind delete_lists]. unfold delete_list. cbn [l_body_ins l_cond_ins l_tf l_body_outs l_names l_scans].
    rewrite <- P1 at 1. rewrite delete_mid. cbn [obind]. rewrite <- P2 at 1. rewrite delete_mid. cbn [obind]. rewrite <- P3 at 1. rewrite delete_mid. cbn [obind].
    rewrite <- P4 at 1. rewrite nth_mid. cbn [obind]. rewrite <- P4 at 1. rewrite delete_mid. cbn [obind]. rewrite <- P5 at 1. rewrite nth_mid. cbn [obind].
    rewrite <- P5, <- app_assoc. cbn [app]. rewrite delete_mid. cbn [obind]. rewrite !app_assoc. reflexivity.
Qed.

Lemma keep_app {A} p a b (l l' : list A) : length l = length a -> keep p (a ++ b) (l ++ l') = keep p a l ++ keep p b l'.
Proof. revert l. induction a as [|k a IH]; intros [|x l] L; try discriminate; [reflexivity|]. cbn [app]. rewrite !keep_cons, IH by (cbn in L; lia). destruct (p k); reflexivity. Qed.
Lemma sel_app {A} p a b (l l' : list A) : length l = length a -> sel p (a ++ b) (l ++ l') = sel p a l ++ sel p b l'.
Proof. revert l. induction a as [|k a IH]; intros [|x l] L; try discriminate; [reflexivity|]. cbn [app]. rewrite !sel_cons, IH by (cbn in L; lia). destruct (p k); reflexivity. Qed.
Lemma keep_none {A} p a (l : list A) : length l = length a -> (forall k, In k a -> p k = false) -> keep p a l = l.
Proof. revert l. induction a as [|k a IH]; intros [|x l] L H; try discriminate; [reflexivity|]. rewrite keep_cons, (H k (or_introl eq_refl)), IH; auto. intros; apply H; cbn; auto. Qed.
Lemma sel_none {A} p a (l : list A) : (forall k, In k a -> p k = false) -> sel p a l = [].
Proof. revert l. induction a as [|k a IH]; intros [|x l] H; try reflexivity. rewrite sel_cons, (H k (or_introl eq_refl)), IH; auto. intros; apply H; cbn; auto. Qed.
Lemma indices_app p a b i : indices p i (a ++ b) = indices p i a ++ indices p (i + length a) b.
Proof. revert i. induction a as [|k a IH]; intro i; cbn [app indices length]; [now rewrite Nat.add_0_r|]. rewrite IH, Nat.add_succ_r. destruct (p k); reflexivity. Qed.
Lemma indices_none p b i : (forall k, In k b -> p k = false) -> indices p i b = [].
Proof. revert i. induction b as [|k b IH]; intros i H; cbn [indices]; [reflexivity|]. rewrite (H k (or_introl eq_refl)). apply IH. intros; apply H; cbn; auto. Qed.
Lemma keep_both {A} a b (l l' : list A) : length l = length a -> length l' = length b -> (forall k, In k a -> k <> Read) -> (forall k, In k b -> k <> Lst) ->
  keep is_lst a l ++ keep is_read b l' = of_kind Var (a ++ b) (l ++ l').
Proof.
  intros L L' HA HB. revert l L. induction a as [|k a IH]; intros [|x l] L; try discriminate.
  - cbn [app]. clear L. revert l' L' HB. induction b as [|k b IH]; intros [|x l'] L' HB; try discriminate; [reflexivity|]. rewrite of_kind_cons, keep_nil. cbn [app]. rewrite keep_cons.
    specialize (IH l' ltac:(cbn in L'; lia) (fun j Ij => HB j (or_intror Ij))). rewrite keep_nil in IH. cbn [app] in IH. rewrite IH. specialize (HB k (or_introl eq_refl)). destruct k; cbn; congruence.
  - cbn [app]. rewrite keep_cons, of_kind_cons. specialize (IH (fun j Ij => HA j (or_intror Ij)) l ltac:(cbn in L; lia)). specialize (HA k (or_introl eq_refl)).
    destruct k; cbn [is_lst kind_eqb]; try congruence. cbn [app]. congruence.
Qed.
Lemma deletions ks (b0 b1 c0 c1 i0 i1 o0 o1 n0 n1 : string) bi ci ins bo nm : lists_first ks ->
  length bi = length ks -> length ci = length ks -> length ins = length ks -> length bo = length ks -> length nm = length ks ->
  obind (delete_all (rev (read_indices ks)) (n0 :: n1 :: nm)) (fun names => obind (delete_all (rev (read_indices ks)) (o0 :: o1 :: bo)) (fun bouts =>
    delete_lists (rev (lst_indices ks)) (WLists (b0 :: b1 :: bi) (c0 :: c1 :: ci) (i0 :: i1 :: ins) bouts names []))) =
  Some (WLists (b0 :: b1 :: not_lst ks bi) (c0 :: c1 :: not_lst ks ci) (i0 :: i1 :: not_lst ks ins) (o0 :: o1 :: of_kind Var ks bo)
         (n0 :: n1 :: of_kind Var ks nm ++ rev (of_kind Lst ks nm)) (rev (of_kind Lst ks bo))).
Proof.
  intros (a & b & -> & HA & HB) L1 L2 L3 L4 L5. rewrite app_length in *.
  pose proof (delete_all_ok is_read (a ++ b) [n0; n1] nm []) as D1. pose proof (delete_all_ok is_read (a ++ b) [o0; o1] bo []) as D2. rewrite !app_nil_r in D1, D2. unfold read_indices.
  cbn [length] in D1, D2. cbn [app] in D1, D2. rewrite D1, D2 by (rewrite app_length; auto). cbn [obind]. clear D1 D2.
  assert (HAr : forall k, In k a -> is_read k = false) by (intros k Ik; specialize (HA k Ik); destruct k; cbn; congruence).
  assert (HBl : forall k, In k b -> is_lst k = false) by (intros k Ik; specialize (HB k Ik); destruct k; cbn; congruence).
  assert (Sp : forall l : list string, length l = length a + length b -> exists x y, l = x ++ y /\ length x = length a /\ length y = length b).
  { intros l L. exists (firstn (length a) l), (skipn (length a) l). rewrite firstn_skipn, firstn_length, skipn_length. split; [auto|lia]. }
  destruct (Sp bi L1) as (x1 & y1 & -> & X1 & Y1), (Sp ci L2) as (x2 & y2 & -> & X2 & Y2), (Sp ins L3) as (x3 & y3 & -> & X3 & Y3), (Sp bo L4) as (x4 & y4 & -> & X4 & Y4), (Sp nm L5) as (x5 & y5 & -> & X5 & Y5).
  unfold lst_indices. rewrite indices_app, (indices_none is_lst b) by auto. rewrite app_nil_r.
  rewrite !(keep_app is_read) by auto. rewrite !(keep_none is_read a) by auto.
  pose proof (delete_lists_ok a [b0; b1] [c0; c1] [i0; i1] [o0; o1] [n0; n1] x1 x2 x3 x4 x5 y1 y2 y3 (keep is_read b y4) (keep is_read b y5) [] 2 eq_refl eq_refl eq_refl eq_refl eq_refl X1 X2 X3 X4 X5) as D.
  cbn [app] in D. rewrite D. clear D. rewrite <- !keep_lst, !(keep_app is_lst) by auto. rewrite !(keep_none is_lst b) by auto. rewrite <- !sel_lst, !(sel_app is_lst) by auto. rewrite !(sel_none is_lst b) by auto.
  rewrite !app_nil_r. rewrite <- !keep_both by auto. rewrite <- app_assoc. reflexivity.
Qed.
Lemma kinds_eq op_of reads : forall ks ins params, length ins = length ks -> length params = length ks ->
  (forall k x p i, nth_error ks i = Some k -> nth_error ins i = Some x -> nth_error params i = Some p -> role op_of reads x p k) ->
  map (fun '(a, b) => kind_of op_of reads a b) (combine ins params) = ks.
Proof.
  induction ks as [|k ks IH]; intros [|x ins] [|p params] L1 L2 R; try discriminate; [reflexivity|]. cbn [combine map]. f_equal.
  - specialize (R k x p 0 eq_refl eq_refl eq_refl). unfold kind_of, role in *. assert (M : forall t l, mem t l = true <-> In t l).
    { intros t l. unfold mem. rewrite existsb_exists. split; [intros (y & Iy & E); apply String.eqb_eq in E; subst; auto|intro; exists t; split; auto; apply String.eqb_refl]. }
    destruct (mem (op_of x) _) eqn:E1; [apply M in E1; destruct k; tauto|]. assert (N1 : ~ In (op_of x) ["TensorListReserve"; "TensorListResize"]) by (rewrite <- M; congruence).
    destruct (mem p reads) eqn:E2; [apply M in E2; destruct k; tauto|]. assert (N2 : ~ In p reads) by (rewrite <- M; congruence). destruct k; tauto.
  - apply IH; [cbn in *; lia|cbn in *; lia|]. intros k' x' p' i. apply (R k' x' p' (S i)).
Qed.
