(** C58: the fused operators on tensors of reals. *)
From Coq Require Import List Arith Bool Reals Lra Lia.
From Verif Require Import Tensor OnnxSpec PushSpec TensorProofs PushProofs3 RewSpec.
Import ListNotations.
Local Open Scope list_scope. Local Open Scope nat_scope.

Section E.
Context {A : Type}.
Implicit Types (x y c : tensor A).
(** the shape c broadcasts into the shape x *)
Definition into (c x : list nat) : Prop :=
  length c <= length x /\ forall k, k < length c -> nth k c 0 = 1 \/ nth k c 0 = nth (length x - length c + k) x 0.
Lemma pad_nth m (l : list nat) k : k < m + length l -> nth k (repeat 1 m ++ l) 0 = if k <? m then 1 else nth (k - m) l 0.
Proof.
  intros H. destruct (Nat.ltb_spec k m) as [K|K].
  - rewrite app_nth1 by (rewrite repeat_length; exact K). clear - K. revert k K. induction m as [|m IH]; intros [|k] K; cbn; try lia; auto. apply IH. lia.
  - rewrite app_nth2 by (rewrite repeat_length; exact K). rewrite repeat_length. reflexivity.
Qed.
Lemma into_pad (c x : list nat) : into c x -> forall k, k < length x -> nth k (repeat 1 (length x - length c) ++ c) 0 = 1 \/ nth k (repeat 1 (length x - length c) ++ c) 0 = nth k x 0.
Proof.
  intros [L H] k K. rewrite pad_nth by lia. destruct (Nat.ltb_spec k (length x - length c)) as [Q|Q]; auto.
  destruct (H (k - (length x - length c))) as [E|E]; [lia|auto|]. right. rewrite E. f_equal. lia.
Qed.
Lemma bcast_self sh ix : inb ix sh -> bcast_ix (length sh) sh ix = ix.
Proof.
  unfold bcast_ix. rewrite Nat.sub_diag. cbn [skipn]. revert ix. induction sh as [|d sh IH]; intros [|i ix]; cbn [inb combine map]; try tauto.
  intros [H K]. f_equal; auto. destruct (Nat.eqb_spec d 1); lia.
Qed.
Lemma ew_into f c x y : elementwise_rel f c x y -> into (shape c) (shape x) ->
  wf c /\ wf x /\ wf y /\ shape y = shape x /\
  forall ix, inb ix (shape x) -> exists a b, get c (bcast_ix (length (shape x)) (shape c) ix) = Some a /\ get x ix = Some b /\ get y ix = Some (f a b).
Proof.
  intros (W1 & W2 & W3 & L & D & E) I. split; auto. split; auto. split; auto. assert (I' := I). destruct I' as [Lc _]. rewrite (Nat.max_r _ _ Lc) in *.
  assert (Sy : shape y = shape x).
  { apply (list_nth_ext); [exact L|]. intros k K. rewrite L in K. destruct (D k K) as [_ Q]. rewrite Q.
    rewrite Nat.sub_diag. cbn [repeat app]. destruct (into_pad _ _ I k K) as [P|P]; rewrite P; [reflexivity|]. destruct (nth k (shape x) 0 =? 1); reflexivity. }
  split; auto. intros ix H. destruct (E ix) as (a & b & E1 & E2 & E3); [rewrite Sy; exact H|]. rewrite (bcast_self _ _ H) in E2. eauto.
Qed.
Lemma ew_flip f c x y : elementwise_rel f c x y -> elementwise_rel (fun a b => f b a) x c y.
Proof.
  intros (W1 & W2 & W3 & L & D & E). unfold elementwise_rel. rewrite (Nat.max_comm (length (shape x))). split; auto. split; auto. split; auto. split; auto. split.
  - intros k K. specialize (D k K). cbv zeta in D |- *. destruct D as [Q1 Q2]. split; [destruct Q1 as [Q|[Q|Q]]; auto|]. rewrite Q2.
    set (d1 := nth k (repeat 1 _ ++ shape c) 0) in *. set (d2 := nth k (repeat 1 _ ++ shape x) 0) in *.
    destruct (Nat.eqb_spec d1 1), (Nat.eqb_spec d2 1); lia.
  - intros ix H. destruct (E ix H) as (a & b & E1 & E2 & E3). exists b, a. auto.
Qed.
Lemma into_refl sh : into sh sh.
Proof. split; auto. intros k K. right. f_equal. lia. Qed.
Lemma into_nil sh : into [] sh.
Proof. split; [cbn; lia|]. intros k K. cbn in K. lia. Qed.
(** with one number *)
Lemma ew_scalar f c a x y : shape c = [] -> data c = [a] -> elementwise_rel f c x y ->
  wf x /\ wf y /\ shape y = shape x /\ forall ix, inb ix (shape x) -> get y ix = option_map (f a) (get x ix).
Proof.
  intros S D H. apply ew_into in H; [|rewrite S; apply into_nil]. destruct H as (_ & W2 & W3 & Sy & E). split; auto. split; auto. split; auto.
  intros ix I. destruct (E ix I) as (a' & b & E1 & E2 & E3). rewrite E2, E3. cbn. rewrite S in E1. unfold get, bcast_ix in E1. rewrite S, D in E1. cbn in E1. congruence.
Qed.
Lemma ew_same f c x y : shape c = shape x -> elementwise_rel f c x y ->
  wf c /\ wf x /\ wf y /\ shape y = shape x /\ forall ix, inb ix (shape x) -> exists a b, get c ix = Some a /\ get x ix = Some b /\ get y ix = Some (f a b).
Proof.
  intros S H. apply ew_into in H; [|rewrite S; apply into_refl]. destruct H as (W1 & W2 & W3 & Sy & E). split; auto. split; auto. split; auto. split; auto.
  intros ix I. destruct (E ix I) as (a & b & E1 & E2 & E3). rewrite S, (bcast_self _ _ I) in E1. eauto.
Qed.
End E.

Lemma leaky_max a v : (a < 1)%R -> Rmax (a * v) v = leaky_relu a v.
Proof. intros H. unfold leaky_relu. destruct (Rlt_dec v 0) as [K|K]; [apply Rmax_left; nra|apply Rmax_right; nra]. Qed.
(** max(alpha * x, x), each in any order *)
Theorem leaky_value c a x m y : shape c = [] -> data c = [a] -> (a < 1)%R ->
  elementwise_rel Rmult c x m \/ elementwise_rel Rmult x c m -> elementwise_rel Rmax m x y \/ elementwise_rel Rmax x m y ->
  map_rel (leaky_relu a) x y.
Proof.
  intros S D L H1 H2.
  assert (M : wf x /\ wf m /\ shape m = shape x /\ forall ix, inb ix (shape x) -> get m ix = option_map (Rmult a) (get x ix)).
  { destruct H1 as [H1|H1]; [exact (ew_scalar _ c a x m S D H1)|]. destruct (ew_scalar _ c a x m S D (ew_flip _ _ _ _ H1)) as (W1 & W2 & Sh & E).
    split; auto. split; auto. split; auto. intros ix I. rewrite (E ix I). destruct (get x ix); cbn; auto. f_equal. ring. }
  destruct M as (Wx & Wm & Sm & Em).
  assert (Y : wf y /\ shape y = shape x /\ forall ix, inb ix (shape x) -> exists a b, get m ix = Some a /\ get x ix = Some b /\ get y ix = Some (Rmax a b)).
  { destruct H2 as [H2|H2].
    - destruct (ew_same _ m x y Sm H2) as (_ & _ & W & Sy & E). auto.
    - destruct (ew_same _ m x y Sm (ew_flip _ _ _ _ H2)) as (_ & _ & W & Sy & E). split; auto. split; auto. intros ix I.
      destruct (E ix I) as (u & v & E1 & E2 & E3). exists u, v. rewrite Rmax_comm. auto. }
  destruct Y as (Wy & Sy & Ey). split; auto. split; auto. split; auto. intros ix I. destruct (Ey ix I) as (u & v & E1 & E2 & E3).
  assert (K := Em ix I). rewrite E1, E2 in K. cbn in K. injection K as ->. rewrite E3, E2. cbn. f_equal. apply leaky_max. exact L.
Qed.
(** cast(x > theta) * x, the product in any order *)
Theorem threshold_value c a x b y : shape c = [] -> data c = [a] ->
  elementwise_rel greater x c b -> elementwise_rel Rmult b x y \/ elementwise_rel Rmult x b y ->
  map_rel (thresholded_relu a) x y.
Proof.
  intros S D H1 H2. destruct (ew_scalar _ c a x b S D (ew_flip _ _ _ _ H1)) as (Wx & Wb & Sb & Eb).
  assert (Y : wf y /\ shape y = shape x /\ forall ix, inb ix (shape x) -> exists a b', get b ix = Some a /\ get x ix = Some b' /\ get y ix = Some (Rmult a b')).
  { destruct H2 as [H2|H2].
    - destruct (ew_same _ b x y Sb H2) as (_ & _ & W & Sy & E). auto.
    - destruct (ew_same _ b x y Sb (ew_flip _ _ _ _ H2)) as (_ & _ & W & Sy & E). split; auto. split; auto. intros ix I.
      destruct (E ix I) as (u & v & E1 & E2 & E3). exists u, v. rewrite Rmult_comm. auto. }
  destruct Y as (Wy & Sy & Ey). split; auto. split; auto. split; auto. intros ix I. destruct (Ey ix I) as (u & v & E1 & E2 & E3).
  assert (K := Eb ix I). rewrite E1, E2 in K. cbn in K. injection K as ->. rewrite E3, E2. cbn. f_equal. unfold thresholded_relu, greater.
  destruct (Rlt_dec a v); ring.
Qed.
Lemma greater_bool x c b : elementwise_rel greater x c b -> forall ix v, get b ix = Some v -> v = 0%R \/ v = 1%R.
Proof.
  intros (W1 & W2 & W3 & L & D & E) ix v H. unfold get in H.
  assert (K : ravel (shape b) ix < size (shape b)) by (rewrite <- W3; apply nth_error_Some; rewrite H; discriminate).
  destruct (E (unravel (shape b) (ravel (shape b) ix)) (unravel_inb _ _ K)) as (u & w & _ & _ & E3). unfold get in E3. rewrite ravel_unravel in E3 by exact K.
  rewrite E3 in H. injection H as <-. unfold greater. destruct (Rlt_dec w u); auto.
Qed.
