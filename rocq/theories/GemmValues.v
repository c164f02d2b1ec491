(** C59: the values. *)
From Coq Require Import String List Arith Bool ZArith Reals Lra Lia.
From Verif Require Import FGraph Tensor OnnxSpec PushSpec TensorProofs PushProofs3 RewSpec RewValues RewModel GemmSpec.
Import ListNotations.
Local Open Scope list_scope. Local Open Scope nat_scope.

Lemma into_inb c x ix : into c x -> inb ix x -> inb (bcast_ix (length x) c ix) c.
Proof. intros I H. apply (bcast_inb (length x) c ix x); auto; [exact (proj1 I)|]. apply into_pad. exact I. Qed.
Lemma into_one c : c <> [] -> into [1] c.
Proof. intros N. destruct c as [|d c]; [contradiction|]. split; [cbn; lia|]. intros [|k] K; cbn in *; [auto|lia]. Qed.
Lemma get_elt t ix : wf t -> inb ix (shape t) -> get t ix = Some (elt t ix).
Proof. intros W I. destruct (get_wf t ix W I) as (v & E). unfold elt. rewrite E. reflexivity. Qed.

(** x times a constant *)
Definition scaled (o : option (tensor R)) (a : R) (x y : tensor R) : Prop :=
  match o with
  | None => y = x /\ a = 1%R
  | Some c => (shape c = [] \/ shape c = [1]) /\ data c = [a] /\ (elementwise_rel Rmult c x y \/ elementwise_rel Rmult x c y)
  end.
Lemma scaled_in o a x y : scaled o a x y -> o = None \/ shape x <> [] \/ (exists c, o = Some c /\ shape c = []) -> wf x ->
  wf y /\ shape y = shape x /\ forall ix, inb ix (shape x) -> get y ix = Some (a * elt x ix)%R.
Proof.
  destruct o as [c|]; cbn [scaled].
  2: { intros [-> ->] _ W. split; auto. split; auto. intros ix I. rewrite (get_elt _ _ W I). f_equal. lra. }
  intros (Sc & D & H) K W.
  assert (I : into (shape c) (shape x)).
  { destruct Sc as [Sc|Sc]; rewrite Sc; [apply into_nil|]. apply into_one. destruct K as [K|[K|(c' & K & K')]]; [discriminate|exact K|]. injection K as <-. congruence. }
  assert (G : forall f, elementwise_rel f c x y -> (forall u v, f u v = (u * v)%R) -> wf y /\ shape y = shape x /\ forall ix, inb ix (shape x) -> get y ix = Some (a * elt x ix)%R).
  { intros f E Ef. apply ew_into in E; auto. destruct E as (_ & _ & W3 & Sy & E). split; auto. split; auto. intros ix Ix. destruct (E ix Ix) as (u & v & E1 & E2 & E3).
    rewrite E3, Ef. unfold elt. rewrite E2. f_equal. f_equal. assert (Q := into_inb _ _ _ I Ix). unfold get in E1. rewrite D in E1.
    assert (R0 := ravel_lt _ _ Q). assert (Z : ravel (shape c) (bcast_ix (length (shape x)) (shape c) ix) = 0) by (assert (size (shape c) = 1) by (destruct Sc as [-> | ->]; reflexivity); lia).
    rewrite Z in E1. cbn in E1. congruence. }
  destruct H as [H|H]; [apply (G _ H); auto|]. apply ew_flip in H. apply (G _ H). intros u v. cbn. ring.
Qed.
Lemma bcast_one_nil m n i j : i < m -> j < n -> bcast_ix 2 [1] [i; j] = [0] /\ bcast_ix 2 [] [i; j] = [].
Proof. intros _ _. split; reflexivity. Qed.
Lemma scaled_c o b x y m n : scaled o b x y -> wf x -> into (shape x) [m; n] ->
  wf y /\ into (shape y) [m; n] /\ forall i j, i < m -> j < n -> get y (bcast_ix 2 (shape y) [i; j]) = Some (b * elt x (bcast_ix 2 (shape x) [i; j]))%R.
Proof.
  intros H W I.
  assert (Cs : (o = None \/ shape x <> [] \/ (exists c, o = Some c /\ shape c = [])) \/ (exists c, o = Some c /\ shape c = [1] /\ shape x = [])).
  { destruct o as [c|]; auto. destruct (shape x) eqn:E; [|left; right; left; discriminate]. destruct H as ([Q|Q] & _); [left; right; right; eauto|right; eauto]. }
  destruct Cs as [Cs|(c & -> & Sc & Sx)].
  - destruct (scaled_in o b x y H Cs W) as (Wy & Sy & G). rewrite Sy. split; auto. split; auto. intros i j Hi Hj. apply G.
    apply (into_inb (shape x) [m; n] [i; j] I). cbn. auto.
  - cbn [scaled] in H. destruct H as (_ & D & H). rewrite Sx in *.
    assert (G : forall f, elementwise_rel f x c y -> (forall u v, f u v = (u * v)%R) -> wf y /\ into (shape y) [m; n] /\ forall i j, i < m -> j < n -> get y (bcast_ix 2 (shape y) [i; j]) = Some (b * elt x [])%R).
    { intros f E Ef. apply ew_into in E; [|rewrite Sx; apply into_nil]. destruct E as (_ & _ & W3 & Sy & E). rewrite Sc in *. rewrite Sy. split; auto. split; [apply into_one; discriminate|].
      intros i j _ _. change (bcast_ix 2 [1] [i; j]) with [0]. destruct (E [0]) as (u & v & E1 & E2 & E3); [cbn; auto|]. rewrite E3, Ef. rewrite Sx in E1. change (bcast_ix (length [1]) [] [0]) with (@nil nat) in E1.
      unfold elt. rewrite E1. unfold get in E2. rewrite D, Sc in E2. cbn in E2. injection E2 as <-. f_equal. lra. }
    change (bcast_ix 2 [] [?i; ?j]) with (@nil nat).
    destruct H as [H|H]; [apply ew_flip in H; apply (G _ H); intros; cbn; ring|apply (G _ H); auto].
Qed.
Theorem gemm_value ta tb oa ob al be a b c p l r y : matmul_rel ta tb a b p -> scaled oa al p l -> scaled ob be c r -> wf c -> into (shape c) (shape p) ->
  elementwise_rel Rplus l r y \/ elementwise_rel Rplus r l y -> gemm_rel ta tb al be a b c y.
Proof.
  intros (m & k & n & Ma & Mb & Wp & Sp & Gp) Sl Sr Wc I H. rewrite Sp in I. exists m, k, n.
  destruct (scaled_in oa al p l Sl) as (Wl & El & Gl); [right; left; rewrite Sp; discriminate|exact Wp|]. destruct (scaled_c ob be c r m n Sr Wc I) as (Wr & Ir & Gr).
  assert (G : forall f, elementwise_rel f r l y -> (forall u v, f u v = (v + u)%R) -> wf y /\ shape y = [m; n] /\
     forall i j, i < m -> j < n -> get y [i; j] = Some (al * product ta tb a b k i j + be * elt c (bcast_ix 2 (shape c) [i; j]))%R).
  { intros f E Ef. apply ew_into in E; [|rewrite El, Sp; exact Ir]. destruct E as (_ & _ & Wy & Sy & E). rewrite El, Sp in *. split; auto. split; auto. intros i j Hi Hj.
    destruct (E [i; j]) as (u & v & E1 & E2 & E3); [cbn; auto|]. rewrite E3, Ef. change (length [m; n]) with 2 in E1. rewrite Gr in E1 by auto. injection E1 as <-.
    rewrite Gl in E2 by (cbn; auto). injection E2 as <-. unfold elt at 1. rewrite Gp by auto. reflexivity. }
  assert (Q : wf y /\ shape y = [m; n] /\ forall i j, i < m -> j < n -> get y [i; j] = Some (al * product ta tb a b k i j + be * elt c (bcast_ix 2 (shape c) [i; j]))%R).
  { destruct H as [H|H]; [apply ew_flip in H; apply (G _ H); intros; reflexivity|apply (G _ H); intros; ring]. }
  destruct Q as (Q1 & Q2 & Q3). split; [exact Ma|]. split; [exact Mb|]. split; [exact Wc|]. split; [exact I|]. auto.
Qed.

(** ** shapes *)
Lemma compatible_into c ab cs abs : compatible (rev c) (rev ab) = Some true -> existsb (Z.eqb (-1)) (c ++ ab) = false -> conforms c cs -> conforms ab abs -> into cs abs.
Proof.
  intros H N C1 C2.
  assert (Ec : c = map Z.of_nat cs). { assert (Nc : forall d, In d c -> d <> (-1)%Z) by (intros d Hd ->; assert (existsb (Z.eqb (-1)) (c ++ ab) = true) by (apply existsb_exists; exists (-1)%Z; split; [apply in_or_app; auto|reflexivity]); congruence).
    clear - C1 Nc. induction C1 as [|d k c cs H _ IH]; cbn; [reflexivity|]. f_equal; [destruct H; auto; exfalso; apply (Nc d); auto; left; reflexivity|apply IH; intros; apply Nc; right; auto]. }
  assert (Ea : ab = map Z.of_nat abs). { assert (Nc : forall d, In d ab -> d <> (-1)%Z) by (intros d Hd ->; assert (existsb (Z.eqb (-1)) (c ++ ab) = true) by (apply existsb_exists; exists (-1)%Z; split; [apply in_or_app; auto|reflexivity]); congruence).
    clear - C2 Nc. induction C2 as [|d k c cs H _ IH]; cbn; [reflexivity|]. f_equal; [destruct H; auto; exfalso; apply (Nc d); auto; left; reflexivity|apply IH; intros; apply Nc; right; auto]. }
  subst c ab. rewrite <- !map_rev in H.
  assert (K : forall u v, compatible (map Z.of_nat u) (map Z.of_nat v) = Some true -> length u <= length v /\ forall k, k < length u -> nth k u 0 = 1 \/ nth k u 0 = nth k v 0).
  { clear. induction u as [|d u IH]; intros v H; cbn in H; [split; cbn; lia|]. destruct v as [|e v]; cbn in H; [discriminate|].
    destruct (compatible (map Z.of_nat u) (map Z.of_nat v)) as [[|]|] eqn:E; cbn in H; try discriminate; [|rewrite andb_false_r in H; discriminate]. destruct (IH v E) as [L K]. split; [cbn; lia|].
    intros [|k] Hk; cbn; [|apply K; cbn in Hk; lia]. rewrite andb_true_r in H. injection H as H. apply orb_prop in H. destruct H as [H|H]; apply Z.eqb_eq in H; lia. }
  apply K in H. rewrite !rev_length in H. destruct H as [L K']. split; auto. intros k Hk. specialize (K' (length cs - S k) ltac:(lia)).
  rewrite rev_nth in K' by lia. rewrite rev_nth in K' by lia. replace (length cs - S (length cs - S k)) with k in K' by lia. replace (length abs - S (length cs - S k)) with (length abs - length cs + k) in K' by lia. exact K'.
Qed.
Lemma compatible_some c ab : length c <= length ab -> compatible c ab <> None.
Proof.
  revert ab. induction c as [|x c IH]; intros [|y ab] L; cbn in *; try discriminate; [lia|]. specialize (IH ab ltac:(lia)). destruct (compatible c ab); [discriminate|contradiction].
Qed.
Lemma conforms_length sh s : conforms sh s -> length sh = length s.
Proof. induction 1; cbn; auto. Qed.
