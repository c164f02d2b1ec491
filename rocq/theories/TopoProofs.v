From Coq Require Import String List Bool Arith Permutation Lia.
From Verif Require Import Util TopoModel TopoSpec.
Import ListNotations.

Lemma mem_in x l : mem x l = true <-> In x l.
Proof.
  unfold mem. rewrite existsb_exists. split.
  - intros (y & H & E). apply String.eqb_eq in E. now subst.
  - intro H. exists x. split; auto. apply String.eqb_refl.
Qed.
Lemma mem_false x l : mem x l = false <-> ~ In x l.
Proof. rewrite <- mem_in. destruct (mem x l); split; congruence. Qed.
Lemma memn_in x l : memn x l = true <-> In x l.
Proof.
  unfold memn. rewrite existsb_exists. split.
  - intros (y & H & E). apply Nat.eqb_eq in E. now subst.
  - intro H. exists x. split; auto. apply Nat.eqb_refl.
Qed.
Lemma memn_false x l : memn x l = false <-> ~ In x l.
Proof. rewrite <- memn_in. destruct (memn x l); split; congruence. Qed.
Lemma remove_str_in x y l : In y (remove_str x l) <-> In y l /\ y <> x.
Proof.
  unfold remove_str. rewrite filter_In. split; intros [A B]; split; auto.
  - intros ->. rewrite String.eqb_refl in B. discriminate.
  - destruct (String.eqb_spec x y); auto; congruence.
Qed.

Lemma tc_snoc {A} (R : A -> A -> Prop) x y z : tc R x y -> R y z -> tc R x z.
Proof.
  induction 1 as [x y H|x y w H H' IH]; intro H2.
  - eapply tc_trans; [eauto|]. now apply tc_step.
  - eapply tc_trans; eauto.
Qed.
Lemma tc_app {A} (R : A -> A -> Prop) x y z : tc R x y -> tc R y z -> tc R x z.
Proof. induction 1; intro H2; eapply tc_trans; eauto. Qed.

(** an order in which all successors come before excludes cycles *)
Definition ordered_by {A} (R : A -> A -> Prop) (l : list A) : Prop :=
  forall l1 x l2, l = l1 ++ x :: l2 -> forall y, R x y -> In y l1.

Lemma in_split_first {A} (x : A) l : In x l -> exists l1 l2, l = l1 ++ x :: l2.
Proof. apply in_split. Qed.

Lemma ordered_acyclic {A} (R : A -> A -> Prop) l :
  NoDup l -> ordered_by R l -> (forall x y, R x y -> In x l) -> ~ cyclic R.
Proof.
  intros Hn Ho Hin.
  assert (K : forall x y, tc R x y -> forall l1 l2, l = l1 ++ x :: l2 -> In y l1).
  { intros x y H. induction H as [x y H|x y z H H' IH]; intros l1 l2 E.
    - eapply Ho; eauto.
    - assert (In y l1) by (eapply Ho; eauto).
      apply in_split in H0. destruct H0 as (m1 & m2 & ->).
      rewrite <- app_assoc in E. simpl in E. specialize (IH _ _ E).
      apply in_or_app. auto. }
  intros (x & H).
  assert (In x l) by (inversion H; subst; eauto).
  apply in_split in H0. destruct H0 as (l1 & l2 & E).
  specialize (K _ _ H _ _ E). subst l.
  apply NoDup_remove_2 in Hn. apply Hn. apply in_or_app. auto.
Qed.

Lemma ordered_before {A} (R : A -> A -> Prop) l x y :
  ordered_by R l -> In x l -> R x y -> before l y x.
Proof.
  intros Ho Hin H. apply in_split in Hin. destruct Hin as (l1 & l2 & E).
  assert (K := Ho _ _ _ E _ H). apply in_split in K. destruct K as (m1 & m2 & ->).
  exists m1, m2, l2. subst. now rewrite <- app_assoc.
Qed.

(** * utils.topological_sort *)

Section USort.
Context (d : deps_t).
Let R := depends d.

(** x's frame: everything above the topmost x on the stack *)
Definition frame (stack : list string) (x : string) (pre post : list string) : Prop :=
  stack = pre ++ x :: post /\ ~ In x pre.

Record uinv (stack visiting visited ordered : list string) : Prop := {
  ui_eq : forall x, In x visited <-> In x ordered;
  ui_nd : NoDup ordered;
  ui_ndv : NoDup visiting;
  ui_disj : forall x, In x visiting -> ~ In x ordered;
  ui_key : forall x, In x ordered \/ In x visiting -> dlookup x d <> None;
  ui_all : forall x, In x (map fst d) -> In x ordered \/ In x stack;
  ui_frame : forall v, In v visiting -> exists pre post, frame stack v pre post /\
      (forall y, R v y -> In y ordered \/ In y pre) /\
      (forall e, In e pre -> tc R v e);
  ui_ord : forall l1 x l2, ordered = l1 ++ x :: l2 -> forall y, R x y -> In y l2 }.

Lemma push_deps_spec visiting visited ys stack stack' :
  push_deps visiting visited ys stack = Some stack' ->
  exists new, stack' = new ++ stack /\
    (forall y, In y new -> In y ys /\ ~ In y visiting) /\
    (forall y, In y ys -> In y visited \/ In y new).
Proof.
  revert stack. induction ys as [|y ys IH]; intros stack H; simpl in H.
  - inversion H; subst. exists []. split; [reflexivity|]. split; intros y Hy; destruct Hy.
  - destruct (mem y visiting) eqn:E1; [discriminate|].
    apply mem_false in E1. destruct (mem y visited) eqn:E2.
    + apply mem_in in E2. destruct (IH _ H) as (new & -> & A & B). exists new. split; auto. split.
      * intros z Hz. destruct (A z Hz). simpl. auto.
      * intros z [<-|Hz]; auto.
    + destruct (IH _ H) as (new & -> & A & B). exists (new ++ [y]). split; [now rewrite <- app_assoc|].
      split.
      * intros z Hz. apply in_app_or in Hz. destruct Hz as [Hz|[<-|[]]].
        -- destruct (A z Hz). simpl. auto.
        -- simpl. auto.
      * intros z [<-|Hz].
        -- right. apply in_or_app. simpl. auto.
        -- destruct (B z Hz); auto. right. apply in_or_app. auto.
Qed.
Lemma push_deps_cycle visiting visited ys stack :
  push_deps visiting visited ys stack = None -> exists y, In y ys /\ In y visiting.
Proof.
  revert stack. induction ys as [|y ys IH]; intros stack H; simpl in H; [discriminate|].
  destruct (mem y visiting) eqn:E1.
  - apply mem_in in E1. exists y. simpl. auto.
  - destruct (mem y visited); destruct (IH _ H) as (z & A & B); exists z; simpl; auto.
Qed.
Lemma push_deps_length visiting visited ys stack stack' :
  push_deps visiting visited ys stack = Some stack' -> length stack' <= length ys + length stack.
Proof.
  revert stack. induction ys as [|y ys IH]; intros stack H; simpl in H.
  - inversion H; subst. simpl. lia.
  - destruct (mem y visiting); [discriminate|]. destruct (mem y visited).
    + apply IH in H. simpl. lia.
    + apply IH in H. simpl in *. lia.
Qed.

(** step preservation *)
Lemma uinv_skip x stack visiting visited ordered :
  In x visited -> uinv (x :: stack) visiting visited ordered -> uinv stack visiting visited ordered.
Proof.
  intros Hx [I1 I2 I3 I4 I5 I6 I7 I8]. assert (Ho : In x ordered) by now apply I1.
  constructor; auto.
  - intros y Hy. destruct (I6 y Hy) as [H|[<-|H]]; auto.
  - intros v Hv. destruct (I7 v Hv) as (pre & post & (F1 & F2) & A & B).
    destruct pre as [|p pre]; simpl in F1; inversion F1; subst.
    + exfalso. eapply I4; eauto.
    + exists pre, post. split; [split; auto; simpl in F2; tauto|]. split.
      * intros y Hy. destruct (A y Hy) as [H|[<-|H]]; auto.
      * intros e He. apply B. simpl. auto.
Qed.

Lemma uinv_finish x stack visiting visited ordered :
  In x visiting -> uinv (x :: stack) visiting visited ordered ->
  uinv stack (remove_str x visiting) (x :: visited) (x :: ordered).
Proof.
  intros Hx [I1 I2 I3 I4 I5 I6 I7 I8].
  assert (Hd : forall y, R x y -> In y ordered).
  { intros y Hy. destruct (I7 x Hx) as (pre & post & (F1 & F2) & A & B).
    destruct pre as [|p pre]; simpl in F1; inversion F1; subst.
    - destruct (A y Hy) as [H|[]]; auto.
    - exfalso. apply F2. simpl. auto. }
  constructor.
  - intro y. simpl. rewrite I1. tauto.
  - constructor; [now apply I4|assumption].
  - now apply NoDup_filter.
  - intros y Hy. apply remove_str_in in Hy. destruct Hy as [Hy Hne]. intros [->|Ho]; auto.
    eapply I4; eauto.
  - intros y [[->|H]|H]; auto. apply remove_str_in in H. apply I5. tauto.
  - intros y Hy. destruct (I6 y Hy) as [H|[<-|H]]; simpl; auto.
  - intros v Hv. apply remove_str_in in Hv. destruct Hv as [Hv Hne].
    destruct (I7 v Hv) as (pre & post & (F1 & F2) & A & B).
    destruct pre as [|p pre]; simpl in F1; inversion F1; subst; [congruence|].
    exists pre, post. split; [split; auto; simpl in F2; tauto|]. split.
    + intros y Hy. destruct (A y Hy) as [H|[<-|H]]; simpl; auto.
    + intros e He. apply B. simpl. auto.
  - intros [|a l1] y l2 E z Hz; simpl in E; inversion E; subst.
    + auto.
    + eapply I8; eauto.
Qed.

Lemma uinv_open x ys stack visiting visited ordered stack' :
  ~ In x visited -> ~ In x visiting -> dlookup x d = Some ys ->
  push_deps (x :: visiting) visited ys (x :: stack) = Some stack' ->
  uinv (x :: stack) visiting visited ordered ->
  uinv stack' (x :: visiting) visited ordered.
Proof.
  intros Hx1 Hx2 Hl Hp [I1 I2 I3 I4 I5 I6 I7 I8].
  destruct (push_deps_spec _ _ _ _ _ Hp) as (new & -> & A & B).
  constructor; auto.
  - constructor; auto.
  - intros y [<-|Hy]; [rewrite <- I1; auto|now apply I4].
  - intros y [H|[<-|H]]; auto. congruence.
  - intros y Hy. destruct (I6 y Hy) as [H|H]; auto. right. apply in_or_app. auto.
  - intros v [<-|Hv].
    + exists new, stack. split; [split; auto|].
      { intro H. apply A in H. simpl in H. tauto. }
      split.
      * intros y (ys' & E & Hy). rewrite Hl in E. inversion E; subst ys'.
        destruct (B y Hy); auto. left. now apply I1.
      * intros e He. apply tc_step. exists ys. split; auto. apply A. auto.
    + destruct (I7 v Hv) as (pre & post & (F1 & F2) & C & D).
      exists (new ++ pre), post. split.
      { split.
        - rewrite F1. now rewrite <- app_assoc.
        - intro H. apply in_app_or in H. destruct H as [H|H]; [|auto].
          apply A in H. simpl in H. tauto. }
      assert (Hxp : In x pre).
      { destruct pre as [|p pre]; simpl in F1; inversion F1; subst; simpl; tauto. }
      split.
      * intros y Hy. destruct (C y Hy) as [H|H]; auto. right. apply in_or_app. auto.
      * intros e He. apply in_app_or in He. destruct He as [He|He]; auto.
        eapply tc_snoc; [apply (D x Hxp)|]. exists ys. split; auto. apply A. auto.
Qed.

Lemma uinv_cycle x ys stack visiting visited ordered :
  ~ In x visiting -> dlookup x d = Some ys ->
  push_deps (x :: visiting) visited ys (x :: stack) = None ->
  uinv (x :: stack) visiting visited ordered -> cyclic R.
Proof.
  intros Hx Hl Hp [I1 I2 I3 I4 I5 I6 I7 I8].
  destruct (push_deps_cycle _ _ _ _ Hp) as (y & Hy & Hv).
  assert (Rxy : R x y) by (exists ys; auto).
  destruct Hv as [<-|Hv].
  - exists x. now apply tc_step.
  - destruct (I7 y Hv) as (pre & post & (F1 & F2) & C & D).
    assert (Hxp : In x pre).
    { destruct pre as [|p pre]; simpl in F1; inversion F1; subst; simpl; tauto. }
    exists y. eapply tc_snoc; [apply (D x Hxp)|]. exact Rxy.
Qed.

(** fuel: weight of the keys not yet opened plus the stack *)
Fixpoint wl (opened : list string) (l : deps_t) : nat :=
  match l with
  | [] => 0
  | (k, v) :: l' => (if mem k opened then 0 else 2 + length v) + wl opened l'
  end.
Definition weight (opened : list string) : nat := wl opened d.

Lemma wl_mono x opened l : wl (x :: opened) l <= wl opened l.
Proof.
  induction l as [|[k v] l IH]; [auto|]. cbn [wl]. change (mem k (x :: opened)) with (String.eqb k x || mem k opened).
  destruct (String.eqb k x), (mem k opened); cbn [orb]; lia.
Qed.
Lemma weight_open opened x ys :
  ~ In x opened -> dlookup x d = Some ys ->
  weight (x :: opened) + 2 + length ys <= weight opened.
Proof.
  unfold weight. intros Hx. apply mem_false in Hx. generalize d as l. induction l as [|[k v] l IH]; [discriminate|].
  cbn [wl dlookup]. change (mem k (x :: opened)) with (String.eqb k x || mem k opened).
  intro H. destruct (String.eqb_spec x k) as [<-|N].
  - inversion H; subst. rewrite String.eqb_refl, Hx. cbn [orb]. assert (K := wl_mono x opened l). lia.
  - specialize (IH H). destruct (String.eqb_spec k x) as [->|]; [congruence|]. cbn [orb].
    destruct (mem k opened); lia.
Qed.

Lemma weight_same o1 o2 : (forall x, In x o1 <-> In x o2) -> weight o1 = weight o2.
Proof.
  intro H. unfold weight. generalize d as l. induction l as [|[k v] l IH]; [auto|]. cbn [wl].
  replace (mem k o1) with (mem k o2); auto.
  destruct (mem k o2) eqn:E; symmetry.
  - apply mem_in, H, mem_in. exact E.
  - apply mem_false. apply mem_false in E. now rewrite H.
Qed.

Lemma usort_loop_correct fuel stack visiting visited ordered :
  uinv stack visiting visited ordered ->
  weight (visiting ++ visited) + length stack <= fuel ->
  match usort_loop fuel d stack visiting visited ordered with
  | TOk l => exists vg vd, uinv [] vg vd (rev l)
  | TErr ECycle => cyclic R
  | TErr EKey => exists x y, R x y /\ dlookup y d = None
                 \/ In y stack /\ dlookup y d = None
  | TErr _ => False
  end.
Proof.
  revert stack visiting visited ordered.
  induction fuel as [|fuel IH]; intros stack visiting visited ordered Hi Hf.
  - destruct stack as [|x stack]; [|simpl in Hf; lia]. simpl. rewrite rev_involutive. eauto.
  - destruct stack as [|x stack]; cbn [usort_loop].
    { rewrite rev_involutive. eauto. }
    destruct (mem x visited) eqn:E1.
    { apply mem_in in E1.
      assert (K := IH stack visiting visited ordered (uinv_skip _ _ _ _ _ E1 Hi)).
      simpl in Hf. specialize (K ltac:(lia)).
      destruct (usort_loop fuel d stack visiting visited ordered) as [l|[| | |]]; auto.
      destruct K as (a & b & [K|[K K']]); exists a, b; [left|right]; simpl; auto. }
    apply mem_false in E1. destruct (mem x visiting) eqn:E2.
    { apply mem_in in E2.
      assert (K := IH _ _ _ _ (uinv_finish _ _ _ _ _ E2 Hi)).
      rewrite (weight_same (remove_str x visiting ++ x :: visited) (visiting ++ visited)) in K.
      - simpl in Hf. specialize (K ltac:(lia)).
        destruct (usort_loop fuel d stack (remove_str x visiting) (x :: visited) (x :: ordered)) as [l|[| | |]]; auto.
        destruct K as (a & b & [K|[K K']]); exists a, b; [left|right]; simpl; auto.
      - intro y. rewrite !in_app_iff. simpl. rewrite remove_str_in.
        destruct (string_dec y x) as [->|]; intuition congruence. }
    apply mem_false in E2. destruct (dlookup x d) as [ys|] eqn:El.
    + destruct (push_deps (x :: visiting) visited ys (x :: stack)) as [stack'|] eqn:Ep.
      * assert (K := IH _ _ _ _ (uinv_open _ _ _ _ _ _ _ E1 E2 El Ep Hi)).
        assert (W := weight_open (visiting ++ visited) x ys).
        rewrite in_app_iff in W. specialize (W ltac:(tauto) El).
        apply push_deps_length in Ep as Hlen. simpl in Hlen, Hf.
        change ((x :: visiting) ++ visited) with (x :: visiting ++ visited) in K.
        specialize (K ltac:(lia)).
        destruct (usort_loop fuel d stack' (x :: visiting) visited ordered) as [l|[| | |]]; auto.
        destruct K as (a & b & [K|[K K']]).
        -- exists a, b. auto.
        -- destruct (push_deps_spec _ _ _ _ _ Ep) as (new & -> & A & B).
           apply in_app_or in K. destruct K as [K|[<-|K]].
           ++ exists x, b. left. split; auto. exists ys. split; auto. apply A; auto.
           ++ congruence.
           ++ exists a, b. right. simpl. auto.
      * eapply uinv_cycle; eauto.
    + exists x, x. right. simpl. auto.
Qed.

Lemma uinv_init : uinv (rev (map fst d)) [] [] [].
Proof.
  constructor.
  - intro x. simpl. tauto.
  - constructor.
  - constructor.
  - intros x [].
  - intros x [[]|[]].
  - intros x Hx. right. now apply -> in_rev.
  - intros v [].
  - intros [|a l1] x l2 E; discriminate.
Qed.

Lemma weight_le opened : weight opened <= fold_right (fun kv acc => 2 + length (snd kv) + acc) 0 d.
Proof.
  unfold weight. generalize d as l. induction l as [|[k v] l IH]; [auto|]. cbn [wl fold_right snd].
  destruct (mem k opened); lia.
Qed.

Lemma dlookup_key x : dlookup x d <> None <-> In x (map fst d).
Proof.
  induction d as [|[k v] l IH]; simpl; [tauto|].
  destruct (String.eqb_spec x k); [subst; split; auto; discriminate|].
  rewrite IH. split; auto. intros [H|H]; auto; congruence.
Qed.

Lemma topological_sort_cases :
  match topological_sort d with
  | TOk l => NoDup l /\ (forall x, In x l <-> In x (map fst d)) /\ ordered_by R l
  | TErr ECycle => cyclic R
  | TErr EKey => exists x y, R x y /\ ~ In y (map fst d)
  | TErr _ => False
  end.
Proof.
  unfold topological_sort.
  assert (K := usort_loop_correct (usort_fuel d) _ _ _ _ uinv_init).
  assert (W := weight_le []). unfold usort_fuel in *.
  rewrite rev_length, map_length in K. simpl app in K. specialize (K ltac:(lia)).
  destruct (usort_loop _ d _ _ _ _) as [l|[| | |]]; auto.
  - destruct K as (vg & vd & [I1 I2 I3 I4 I5 I6 I7 I8]). split; [|split].
    + rewrite <- (rev_involutive l). now apply NoDup_rev.
    + intro x. rewrite (in_rev l). split.
      * intro H. apply dlookup_key. apply I5. auto.
      * intro H. destruct (I6 x H) as [H'|[]]; auto.
    + intros l1 x l2 E y Hy. subst l. rewrite rev_app_distr in *. simpl in *.
      rewrite <- app_assoc in *. simpl in *.
      apply in_rev. eapply I8; eauto.
  - destruct K as (x & y & [[H1 H2]|[H1 H2]]).
    + exists x, y. split; auto. rewrite <- dlookup_key. congruence.
    + exfalso. apply in_rev in H1. apply dlookup_key in H1. congruence.
Qed.

Lemma usort_ok_spec l : NoDup (map fst d) -> topological_sort d = TOk l ->
  Permutation l (map fst d) /\ (forall x y, R x y -> before l y x) /\ ~ cyclic R.
Proof.
  intros Hk E. assert (K := topological_sort_cases). rewrite E in K. destruct K as (N & I & O).
  assert (HR : forall x y, R x y -> In x l).
  { intros x y (ys & H & _). apply I, dlookup_key. congruence. }
  repeat split.
  - apply NoDup_Permutation; auto.
  - intros x y H. eapply ordered_before; eauto.
  - eapply ordered_acyclic; eauto.
Qed.

Lemma usort_total : closed d ->
  (topological_sort d = TErr ECycle <-> cyclic R) /\
  (~ cyclic R -> exists l, topological_sort d = TOk l).
Proof.
  intro C. assert (K := topological_sort_cases).
  destruct (topological_sort d) as [l|[| | |]] eqn:E; try contradiction.
  - destruct K as (N & I & O). split; [|eauto]. split; [discriminate|].
    intro Hc. exfalso. revert Hc. eapply ordered_acyclic; eauto.
    intros x y (ys & H & _). apply I, dlookup_key. congruence.
  - split; [tauto|]. intro. contradiction.
  - destruct K as (x & y & H1 & H2). exfalso. apply H2. eapply C; eauto.
Qed.

Lemma usort_unclosed l : topological_sort d = TOk l -> closed d.
Proof.
  intros E x y H. assert (K := topological_sort_cases). rewrite E in K. destruct K as (N & I & O).
  apply I. assert (Hx : In x l).
  { apply I, dlookup_key. destruct H as (ys & H & _). congruence. }
  apply in_split in Hx. destruct Hx as (l1 & l2 & E2). specialize (O _ _ _ E2 _ H). subst.
  apply in_or_app. auto.
Qed.
End USort.

(** * resolve_functions *)
Section Levels.

Lemma levels_sub fuel data x : In x (levels fuel data) -> In x (map fst data).
Proof.
  revert data. induction fuel as [|fuel IH]; intros data H; [destruct H|].
  cbn [levels] in H. remember (map fst (filter _ data)) as ord eqn:Eo.
  destruct ord as [|o ord]; [destruct H|]. apply in_app_or in H. destruct H as [H|H].
  - rewrite Eo in H. apply in_map_iff in H. destruct H as (kv & E & H). apply filter_In in H.
    apply in_map_iff. exists kv. tauto.
  - apply IH in H. rewrite map_map in H. cbn [fst] in H. apply in_map_iff in H.
    destruct H as (kv & E & H). apply filter_In in H. apply in_map_iff. exists kv. tauto.
Qed.

(** the deps of an emitted item that were in [data] are all emitted before *)
Lemma levels_ordered fuel data l1 x l2 ys :
  NoDup (map fst data) ->
  levels fuel data = l1 ++ x :: l2 -> In (x, ys) data -> forall y, In y ys -> In y l1.
Proof.
  revert data l1 x l2 ys. induction fuel as [|fuel IH]; intros data l1 x l2 ys Hn H Hin y Hy.
  - destruct l1; discriminate.
  - cbn [levels] in H. remember (map fst (filter _ data)) as ord eqn:Eo.
    destruct ord as [|o ord]; [destruct l1; discriminate|].
    set (O := o :: ord) in *.
    set (data' := map _ (filter _ data)) in H.
    assert (Hemp : In x O -> False).
    { rewrite Eo. intro K. apply in_map_iff in K. destruct K as ([k v] & E & K). simpl in E. subst k.
      apply filter_In in K. destruct K as [K1 K2]. simpl in K2.
      assert (v = ys).
      { clear - Hn K1 Hin. induction data as [|[a b] data IH]; [destruct K1|].
        simpl in Hn. inversion Hn; subst. destruct K1 as [K1|K1], Hin as [Hin|Hin].
        - congruence.
        - inversion K1; subst. exfalso. apply H1. apply in_map_iff. exists (x, ys). auto.
        - inversion Hin; subst. exfalso. apply H1. apply in_map_iff. exists (x, v). auto.
        - auto. }
      subst v. destruct ys; [destruct Hy|discriminate]. }
    assert (Hsplit : exists m, l1 = O ++ m /\ levels fuel data' = m ++ x :: l2).
    { clearbody data'. generalize dependent (levels fuel data'). intros rest H. clear - H Hemp. revert l1 H. induction O as [|a O IH]; intros l1 H.
      - exists l1. auto.
      - destruct l1 as [|b l1]; simpl in H; inversion H; subst.
        + exfalso. apply Hemp. simpl. auto.
        + destruct (IH (fun K => Hemp (or_intror K)) l1 H2) as (m & -> & E). exists m. auto. }
    destruct Hsplit as (m & -> & E).
    destruct (mem y O) eqn:Em.
    + apply in_or_app. left. now apply mem_in.
    + apply in_or_app. right. eapply (IH data' m x l2 (filter (fun y => negb (mem y O)) ys)); eauto.
      * unfold data'. rewrite map_map. cbn [fst].
        generalize O. intro O'. clear - Hn. induction data as [|[a b] data IH]; simpl; [constructor|].
        simpl in Hn. inversion Hn; subst. destruct (negb (mem a O')); [|auto]. simpl. constructor; [|auto].
        intro K. apply H1. apply in_map_iff in K. destruct K as (kv & E & K). apply filter_In in K.
        apply in_map_iff. exists kv. tauto.
      * unfold data'. apply in_map_iff. exists (x, ys). split; auto. apply filter_In. split; auto.
        cbn [fst]. destruct (mem x O) eqn:Ex; auto. exfalso. apply Hemp. now apply mem_in.
      * apply filter_In. split; auto. now rewrite Em.
Qed.

Lemma dlookup_In (data : deps_t) x ys :
  NoDup (map fst data) -> (dlookup x data = Some ys <-> In (x, ys) data).
Proof.
  induction data as [|[k v] data IH]; intro Hn; [split; [discriminate|intros []]|].
  cbn [map fst] in Hn. inversion Hn; subst. cbn [dlookup].
  destruct (String.eqb_spec x k) as [->|N].
  - split.
    + intro H. inversion H; subst. left. auto.
    + intros [H|H]; [congruence|]. exfalso. apply H1. apply in_map_iff. exists (k, ys). auto.
  - rewrite IH by auto. split; [simpl; auto|]. intros [H|H]; auto. congruence.
Qed.

Inductive resI (data : deps_t) : string -> Prop :=
| resI_intro x ys : In (x, ys) data -> (forall y, In y ys -> resI data y) -> resI data x.

Definition level0 (data : deps_t) : list string :=
  map fst (filter (fun kv : string * list string => match snd kv with [] => true | _ => false end) data).
Definition strip (O : list string) (data : deps_t) : deps_t :=
  map (fun kv => (fst kv, filter (fun y => negb (mem y O)) (snd kv)))
      (filter (fun kv => negb (mem (fst kv) O)) data).

Lemma level0_in data x : In x (level0 data) <-> In (x, []) data.
Proof.
  unfold level0. rewrite in_map_iff. split.
  - intros ([k v] & E & H). apply filter_In in H. cbn [snd fst] in *. subst k.
    destruct v; [tauto|destruct H; discriminate].
  - intro H. exists (x, []). split; auto. apply filter_In. auto.
Qed.
Lemma strip_in O data x ys' : In (x, ys') (strip O data) <->
  exists ys, In (x, ys) data /\ ~ In x O /\ ys' = filter (fun y => negb (mem y O)) ys.
Proof.
  unfold strip. rewrite in_map_iff. split.
  - intros ([k v] & E & H). apply filter_In in H. cbn [snd fst] in *. inversion E; subst.
    exists v. destruct H as [H1 H2]. repeat split; auto. apply mem_false.
    destruct (mem x O); auto; discriminate.
  - intros (ys & H & N & ->). exists (x, ys). split; auto. apply filter_In. split; auto. cbn [fst].
    apply mem_false in N. now rewrite N.
Qed.
Lemma strip_nodup O data : NoDup (map fst data) -> NoDup (map fst (strip O data)).
Proof.
  unfold strip. rewrite map_map. cbn [fst]. intro Hn.
  induction data as [|[a b] data IH]; simpl; [constructor|].
  simpl in Hn. inversion Hn; subst. destruct (negb (mem a O)); auto. simpl. constructor; auto.
  intro K. apply H1. apply in_map_iff in K. destruct K as (kv & E & K). apply filter_In in K.
  apply in_map_iff. exists kv. tauto.
Qed.
Lemma level0_nil data x : level0 data = [] -> resI data x -> False.
Proof.
  intros E H. induction H as [x ys Hin H IH]. destruct ys as [|y ys].
  - apply level0_in in Hin. rewrite E in Hin. destruct Hin.
  - apply (IH y). simpl. auto.
Qed.
Lemma resI_strip data x : resI data x -> ~ In x (level0 data) -> resI (strip (level0 data) data) x.
Proof.
  intro H. induction H as [x ys Hin H IH]. intro N.
  apply resI_intro with (ys := filter (fun y => negb (mem y (level0 data))) ys).
  - apply strip_in. eauto.
  - intros y Hy. apply filter_In in Hy. destruct Hy as [Hy1 Hy2]. apply IH; auto.
    apply mem_false. destruct (mem y (level0 data)); auto; discriminate.
Qed.
Lemma resI_unstrip data x : resI (strip (level0 data) data) x -> resI data x.
Proof.
  intro H. induction H as [x ys' Hin H IH]. apply strip_in in Hin. destruct Hin as (ys & Hin & N & ->).
  apply resI_intro with (ys := ys); auto. intros y Hy.
  destruct (mem y (level0 data)) eqn:E.
  - apply mem_in, level0_in in E. eapply resI_intro; eauto. intros z [].
  - apply IH. apply filter_In. split; auto. now rewrite E.
Qed.
Lemma strip_length data : level0 data <> [] -> length (strip (level0 data) data) < length data.
Proof.
  intro H. destruct (level0 data) as [|o O] eqn:E; [congruence|].
  assert (Ho : In o (level0 data)) by (rewrite E; left; auto).
  apply level0_in in Ho. unfold strip. rewrite map_length. clear H E.
  induction data as [|[k v] data IH]; [destruct Ho|]. cbn [filter fst length].
  assert (G : forall l : deps_t, length (filter (fun kv => negb (mem (fst kv) (o :: O))) l) <= length l).
  { intro l. induction l as [|a l IHl]; cbn [filter length]; auto. destruct (negb _); cbn [length]; lia. }
  destruct Ho as [Ho|Ho].
  - inversion Ho; subst. assert (M : mem o (o :: O) = true) by (apply mem_in; left; auto).
    rewrite M. cbn [negb]. specialize (G data). lia.
  - specialize (IH Ho). destruct (negb _); cbn [length]; lia.
Qed.
Lemma levels_resI fuel data x : length data < fuel -> (In x (levels fuel data) <-> resI data x).
Proof.
  revert data. induction fuel as [|fuel IH]; intros data Hf; [lia|].
  assert (U : levels (S fuel) data =
    match level0 data with [] => [] | _ => level0 data ++ levels fuel (strip (level0 data) data) end)
    by reflexivity.
  rewrite U. destruct (level0 data) as [|o O] eqn:E.
  - split; [intros []|]. intro H. exfalso. eapply level0_nil; eauto.
  - rewrite <- E. assert (L := strip_length data ltac:(congruence)).
    rewrite in_app_iff, IH by lia. split.
    + intros [H|H].
      * apply level0_in in H. eapply resI_intro; eauto. intros z [].
      * now apply resI_unstrip.
    + intro H. destruct (in_dec string_dec x (level0 data)); auto. right. now apply resI_strip.
Qed.
Lemma levels_nodup fuel data : NoDup (map fst data) -> NoDup (levels fuel data).
Proof.
  revert data. induction fuel as [|fuel IH]; intros data Hn; [constructor|].
  assert (U : levels (S fuel) data =
    match level0 data with [] => [] | _ => level0 data ++ levels fuel (strip (level0 data) data) end)
    by reflexivity.
  rewrite U. destruct (level0 data) as [|o O] eqn:E; [constructor|]. rewrite <- E.
  assert (N0 : NoDup (level0 data)).
  { clear - Hn. unfold level0. induction data as [|[a b] data IH]; [constructor|].
    simpl in Hn. inversion Hn; subst. cbn [filter snd]. destruct b; auto. simpl. constructor; auto.
    intro K. apply H1. apply in_map_iff in K. destruct K as (kv & E & K). apply filter_In in K.
    apply in_map_iff. exists kv. tauto. }
  assert (N1 := IH _ (strip_nodup (level0 data) _ Hn)).
  assert (D : forall z, In z (level0 data) -> ~ In z (levels fuel (strip (level0 data) data))).
  { intros z Hz K. apply levels_sub in K. apply in_map_iff in K. destruct K as ([k v] & Ek & K).
    cbn [fst] in Ek. subst. apply strip_in in K. destruct K as (ys & _ & K & _). auto. }
  revert N0 D. generalize (level0 data) at 1 2 4. intro L. induction L as [|a L IHL]; intros N0 D; [exact N1|].
  simpl. inversion N0; subst. constructor.
  - intro K. apply in_app_or in K. destruct K as [K|K]; auto. apply (D a); simpl; auto.
  - apply IHL; auto. intros z Hz. apply D. simpl. auto.
Qed.

Lemma resI_resolvable data x : NoDup (map fst data) -> (resI data x <-> resolvable data x).
Proof.
  intro Hn. split.
  - intro H. induction H as [x ys Hin H IH]. apply (res_intro _ x ys); auto. now apply dlookup_In.
  - intro H. induction H as [x ys Hin H IH]. apply (resI_intro _ x ys); auto. now apply dlookup_In.
Qed.

Lemma resolve_functions_in data x : NoDup (map fst data) ->
  (In x (resolve_functions_order data) <-> resolvable data x).
Proof. intro Hn. rewrite <- resI_resolvable by auto. apply levels_resI. lia. Qed.

Lemma resolve_functions_before data x y : NoDup (map fst data) ->
  In x (resolve_functions_order data) -> depends data x y -> before (resolve_functions_order data) y x.
Proof.
  intros Hn Hx (ys & Hl & Hy). apply in_split in Hx. destruct Hx as (l1 & l2 & E).
  assert (K : In y l1).
  { eapply levels_ordered; eauto. now apply dlookup_In. }
  apply in_split in K. destruct K as (m1 & m2 & ->). exists m1, m2, l2. rewrite E. now rewrite <- app_assoc.
Qed.

Lemma resolvable_spec data x :
  (resolvable data x -> forall y, (y = x \/ tc (depends data) x y) -> In y (map fst data) /\ ~ tc (depends data) y y).
Proof.
  assert (K1 : forall x, resolvable data x -> ~ tc (depends data) x x).
  { clear x. intros x H. induction H as [x ys Hl H IH]. intro C. inversion C; subst.
    - destruct H0 as (ys' & E & Hin). rewrite Hl in E. inversion E; subst. apply (IH _ Hin). exact C.
    - destruct H0 as (ys' & E & Hin). rewrite Hl in E. inversion E; subst. apply (IH _ Hin).
      eapply tc_snoc; [exact H1|]. exists ys'. auto. }
  assert (K2 : forall x y, tc (depends data) x y -> resolvable data x -> resolvable data y).
  { clear x. intros x y H. induction H as [x y H|x y z H H' IH]; intro Hr.
    - destruct H as (ys' & E & Hin). inversion Hr; subst. rewrite H in E. inversion E; subst. auto.
    - apply IH. destruct H as (ys' & E & Hin). inversion Hr; subst. rewrite H in E. inversion E; subst. auto. }
  intros Hr y Hy. assert (Ry : resolvable data y) by (destruct Hy as [->|Hy]; eauto).
  split; auto. inversion Ry; subst. apply dlookup_key. congruence.
Qed.

Lemma NoDup_app_intro {A} (l1 l2 : list A) : NoDup l1 -> NoDup l2 ->
  (forall x, In x l1 -> ~ In x l2) -> NoDup (l1 ++ l2).
Proof.
  induction l1 as [|a l1 IH]; intros H1 H2 D; auto. simpl. inversion H1; subst. constructor.
  - intro K. apply in_app_or in K. destruct K; auto. apply (D a); simpl; auto.
  - apply IH; auto. intros x Hx. apply D. simpl. auto.
Qed.

(** closed and acyclic: nothing is dropped *)
Lemma closed_acyclic_resolvable data : closed data -> ~ cyclic (depends data) ->
  forall x, In x (map fst data) -> resolvable data x.
Proof.
  intros C A x Hx.
  destruct (usort_total data C) as [_ T]. destruct (T A) as (l & El).
  assert (K := topological_sort_cases data). rewrite El in K. destruct K as (N & I & O).
  assert (G : forall n l1 y l2, length l1 < n -> l = l1 ++ y :: l2 -> resolvable data y).
  { induction n as [|n IH]; intros l1 y l2 Hn E; [lia|].
    assert (Hy : In y (map fst data)) by (apply I; rewrite E; apply in_or_app; right; left; auto).
    apply dlookup_key in Hy. destruct (dlookup y data) as [ys|] eqn:Ey; [|congruence].
    apply (res_intro _ y ys); auto. intros z Hz.
    assert (Hzl : In z l1) by (eapply O; eauto; exists ys; auto).
    apply in_split in Hzl. destruct Hzl as (m1 & m2 & ->).
    eapply (IH m1 z (m2 ++ y :: l2)).
    - rewrite app_length in Hn. simpl in Hn. lia.
    - rewrite E. now rewrite <- app_assoc. }
  apply I in Hx. apply in_split in Hx. destruct Hx as (l1 & l2 & E). eapply G; eauto.
Qed.
Lemma resolve_functions_complete data : NoDup (map fst data) -> closed data -> ~ cyclic (depends data) ->
  Permutation (resolve_functions_order data) (map fst data).
Proof.
  intros Hn C A. apply NoDup_Permutation; auto.
  - now apply levels_nodup.
  - intro x. rewrite resolve_functions_in by auto. split.
    + intro H. inversion H; subst. apply dlookup_key. congruence.
    + now apply closed_acyclic_resolvable.
Qed.
End Levels.

(** * Graph.topological_sort: the depth first search *)
Section DFS.
Context (ch : nat -> list nat) (n : nat).
Context (Hch : forall i c, In c (ch i) -> c < n).
Let E (i c : nat) : Prop := In c (ch i).

Fixpoint chain (l : list nat) : Prop :=
  match l with
  | a :: ((b :: _) as l') => E b a /\ chain l'
  | _ => True
  end.

Record dinv (stack nv fin : list nat) : Prop := {
  di_nv : NoDup nv;
  di_fin : NoDup fin;
  di_split : forall x, In x nv <-> x < n /\ ~ In x fin;
  di_lt : forall x, In x fin -> x < n;
  di_st : NoDup stack;
  di_sub : forall x, In x stack -> In x nv;
  di_chain : chain stack;
  di_ord : forall l1 f l2, fin = l1 ++ f :: l2 -> forall c, E f c -> In c l2 }.

Lemma chain_tc top l c : chain (top :: l) -> In c l -> tc E c top.
Proof.
  revert top. induction l as [|b l IH]; intros top H Hc; [destruct Hc|].
  destruct H as [H1 H2]. destruct Hc as [<-|Hc].
  - now apply tc_step.
  - eapply tc_snoc; [|exact H1]. apply IH; auto.
Qed.

Lemma chain_tail a l : chain (a :: l) -> chain l.
Proof. destruct l; simpl; tauto. Qed.

Lemma filter_ne_length top (l : list nat) : NoDup l -> In top l ->
  S (length (filter (fun y => negb (Nat.eqb top y)) l)) = length l.
Proof.
  induction l as [|a l IH]; intros Hn Hi; [destruct Hi|]. inversion Hn; subst. simpl.
  destruct (Nat.eqb_spec top a) as [->|N]; simpl.
  - f_equal. clear IH Hi Hn. induction l as [|b l IH]; auto. simpl.
    destruct (Nat.eqb_spec a b); simpl; [subst; exfalso; apply H1; left; auto|].
    f_equal. apply IH. + intro K. apply H1. right. auto. + inversion H2; auto.
  - f_equal. apply IH; auto. destruct Hi; auto. congruence.
Qed.
Lemma filter_ne_in top (l : list nat) x :
  In x (filter (fun y => negb (Nat.eqb top y)) l) <-> In x l /\ x <> top.
Proof.
  rewrite filter_In. split; intros [A B]; split; auto.
  - intros ->. rewrite Nat.eqb_refl in B. discriminate.
  - destruct (Nat.eqb_spec top x); [congruence|reflexivity].
Qed.

Lemma dfs_loop_correct fuel stack nv fin :
  dinv stack nv fin -> 2 * length nv < fuel + length stack ->
  match dfs_loop fuel ch stack nv fin with
  | TOk l => dinv [] [] l
  | TErr ECycle => cyclic E
  | TErr _ => False
  end.
Proof.
  revert stack nv fin. induction fuel as [|fuel IH]; intros stack nv fin I Hf.
  - exfalso. destruct I as [I1 I2 I3 I4 I5 I6 I7 I8].
    assert (length stack <= length nv) by (apply NoDup_incl_length; auto). lia.
  - cbn [dfs_loop]. destruct stack as [|top stack].
    + destruct nv as [|m nv]; [exact I|]. apply IH; [|simpl in *; lia].
      destruct I as [I1 I2 I3 I4 I5 I6 I7 I8]. constructor; auto.
      * constructor; [intros []|constructor].
      * intros x [<-|[]]. left. auto.
    + destruct (find _ (ch top)) as [c|] eqn:Ef.
      * apply find_some in Ef. destruct Ef as [Hc Hcv]. apply memn_in in Hcv.
        destruct (memn c (top :: stack)) eqn:Em.
        -- apply memn_in in Em. destruct I as [I1 I2 I3 I4 I5 I6 I7 I8]. exists c.
           destruct Em as [<-|Em]; [now apply tc_step|].
           eapply tc_snoc; [eapply chain_tc; eauto|]. exact Hc.
        -- apply memn_false in Em. apply IH; [|simpl in *; lia].
           destruct I as [I1 I2 I3 I4 I5 I6 I7 I8]. constructor; auto.
           ++ constructor; auto.
           ++ intros x [<-|Hx]; auto.
           ++ split; [exact Hc|exact I7].
      * assert (Hn : forall c, E top c -> ~ In c nv).
        { intros c Hc K. assert (G := find_none _ _ Ef c Hc). apply memn_false in G. auto. }
        destruct I as [I1 I2 I3 I4 I5 I6 I7 I8].
        assert (Ht : In top nv) by (apply I6; left; auto).
        assert (L := filter_ne_length top nv I1 Ht).
        apply IH; [|simpl in *; lia]. inversion I5; subst. constructor.
        -- now apply NoDup_filter.
        -- constructor; auto. apply I3 in Ht. tauto.
        -- intro x. rewrite filter_ne_in, I3. simpl. intuition.
        -- intros x [<-|Hx]; auto. apply I3 in Ht. tauto.
        -- auto.
        -- intros x Hx. apply filter_ne_in. split; [apply I6; right; auto|]. congruence.
        -- eapply chain_tail; eauto.
        -- intros [|a l1] f l2 Ef2 c Hc; simpl in Ef2; inversion Ef2; subst.
           ++ destruct (in_dec Nat.eq_dec c l2) as [|Nc]; auto. exfalso. apply (Hn c Hc).
              apply I3. split; auto. eapply Hch; eauto.
           ++ eapply I8; eauto.
Qed.

Lemma dfs_correct :
  match dfs_loop (S (2 * n)) ch [] (seq 0 n) [] with
  | TOk l => NoDup l /\ (forall x, In x l <-> x < n) /\
             (forall l1 f l2, l = l1 ++ f :: l2 -> forall c, In c (ch f) -> In c l2)
  | TErr ECycle => cyclic E
  | TErr _ => False
  end.
Proof.
  assert (K := dfs_loop_correct (S (2 * n)) [] (seq 0 n) []).
  assert (I : dinv [] (seq 0 n) []).
  { constructor; try (constructor; fail).
    - apply seq_NoDup.
    - intro x. rewrite in_seq. simpl. intuition lia.
    - intros x [].
    - intros x [].
    - intros [|a l1] f l2 Ef; discriminate. }
  specialize (K I). rewrite seq_length in K. simpl length in K. specialize (K ltac:(lia)).
  destruct (dfs_loop _ _ _ _ _) as [l|e]; auto.
  destruct K as [I1 I2 I3 I4 I5 I6 I7 I8]. split; [auto|]. split; [|exact I8].
  intro x. split; auto. intro Hx. destruct (in_dec Nat.eq_dec x l); auto. exfalso.
  apply (I3 x). auto.
Qed.
End DFS.

(** * Graph.topological_sort: lifting to nodes *)
Lemma insert_op_perm o l : Permutation (insert_op o l) (o :: l).
Proof.
  induction l as [|p l IH]; simpl; auto. destruct (String.leb _ _); auto.
  rewrite IH. apply perm_swap.
Qed.
Lemma sort_ops_perm l : Permutation (sort_ops l) l.
Proof. induction l as [|o l IH]; simpl; auto. rewrite insert_op_perm. auto. Qed.

Lemma index_of_name_spec name ops : NoDup (map t_name ops) -> forall i acc k,
  index_of_name name ops i acc = Some k ->
  (exists o, i <= k /\ nth_error ops (k - i) = Some o /\ t_name o = name) \/
  (acc = Some k /\ ~ In name (map t_name ops)).
Proof.
  induction ops as [|o ops IH]; intros Hn i acc k H; cbn [index_of_name] in H.
  - right. auto.
  - cbn [map] in Hn. inversion Hn; subst. destruct (IH H3 _ _ _ H) as [(o' & L & E & En)|(Ea & N)].
    + left. exists o'. split; [lia|]. split; auto. replace (k - i) with (S (k - S i)) by lia. exact E.
    + destruct (String.eqb_spec name (t_name o)) as [->|Ne].
      * left. inversion Ea; subst. exists o. split; auto. rewrite Nat.sub_diag. auto.
      * right. split; auto. simpl. intros [K|K]; auto.
Qed.
Lemma index_of_name_some name ops i acc : (In name (map t_name ops) \/ acc <> None) ->
  exists k, index_of_name name ops i acc = Some k.
Proof.
  revert i acc. induction ops as [|o ops IH]; intros i acc H; cbn [index_of_name].
  - destruct acc as [k|]; [eauto|]. destruct H as [[]|H]; congruence.
  - apply IH. destruct (String.eqb_spec name (t_name o)) as [->|Ne]; [right; discriminate|].
    destruct H as [[H|H]|H]; auto; try congruence.
Qed.
Lemma index_of_name_at ops k o : NoDup (map t_name ops) -> nth_error ops k = Some o ->
  index_of_name (t_name o) ops 0 None = Some k.
Proof.
  intros Hn E. destruct (index_of_name_some (t_name o) ops 0 None) as (k' & Ek).
  { left. apply in_map. eapply nth_error_In; eauto. }
  rewrite Ek. destruct (index_of_name_spec _ _ Hn _ _ _ Ek) as [(o' & _ & E' & En)|[K _]]; [|discriminate].
  rewrite Nat.sub_0_r in E'. f_equal.
  assert (A : nth_error (map t_name ops) k' = nth_error (map t_name ops) k).
  { erewrite !map_nth_error by eassumption. now rewrite En. }
  apply (NoDup_nth_error (map t_name ops)); auto.
  apply nth_error_Some. rewrite (map_nth_error _ _ _ E'). discriminate.
Qed.

Section Lift.
Context (prod : string -> option string) (hp : bool).

Lemma edges_of_spec ops i inps es : edges_of prod hp ops i inps = inr es ->
  forall k m, In (k, m) es <-> m = i /\ exists t j, In t inps /\ t <> ""%string /\ prod t = Some j /\
                                index_of_name j ops 0 None = Some k.
Proof.
  revert es. induction inps as [|t inps IH]; intros es H k m; cbn [edges_of] in H.
  - inversion H; subst. split; [intros []|]. intros (_ & t & j & [] & _).
  - destruct (String.eqb_spec t "") as [->|Nt].
    + rewrite (IH _ H). split; intros (A & t & j & B & C); (split; [exact A|]); exists t, j.
      * simpl. auto.
      * destruct B as [<-|B]; auto. destruct C. congruence.
    + destruct (prod t) as [j|] eqn:Ep; [|discriminate].
      destruct (index_of_name j ops 0 None) as [k'|] eqn:Ei.
      * destruct (edges_of prod hp ops i inps) as [e|es'] eqn:Ee; [discriminate|].
        inversion H; subst. cbn [In]. rewrite (IH _ eq_refl). split.
        -- intros [K|(A & t' & j' & B & C)].
           ++ inversion K; subst. split; auto. exists t, j. simpl. auto.
           ++ split; auto. exists t', j'. simpl. auto.
        -- intros (-> & t' & j' & [<-|B] & C & D & F).
           ++ left. congruence.
           ++ right. split; auto. exists t', j'. auto.
      * destruct hp; [|discriminate]. rewrite (IH _ H). split.
        -- intros (A & t' & j' & B & C). split; auto. exists t', j'. simpl. auto.
        -- intros (-> & t' & j' & [<-|B] & C & D & F); [congruence|]. split; auto. exists t', j'. auto.
Qed.

Lemma all_edges_spec ops rest i es : all_edges prod hp ops rest i = inr es ->
  forall k m, In (k, m) es <-> i <= m /\ exists o t j, nth_error rest (m - i) = Some o /\ uses o t /\
      prod t = Some j /\ index_of_name j ops 0 None = Some k.
Proof.
  revert i es. induction rest as [|o rest IH]; intros i es H k m; cbn [all_edges] in H.
  - inversion H; subst. split; [intros []|]. intros (_ & o & t & j & E & _). destruct (m - i); discriminate.
  - destruct (edges_of _ _ _ _ _) as [e|es1] eqn:E1; [discriminate|].
    destruct (all_edges _ _ _ rest _) as [e|es2] eqn:E2; [discriminate|].
    inversion H; subst. rewrite in_app_iff, (edges_of_spec _ _ _ _ E1), (IH _ _ E2). split.
    + intros [(-> & t & j & A & B & C & D)|(L & o' & t & j & A & B)].
      * split; auto. exists o, t, j. rewrite Nat.sub_diag. simpl. split; auto. split; auto.
        split; auto. now apply in_app_or.
      * split; [lia|]. exists o', t, j. replace (m - i) with (S (m - S i)) by lia. auto.
    + intros (L & o' & t & j & A & (B1 & B2) & C & D).
      destruct (Nat.eq_dec m i) as [->|N].
      * left. rewrite Nat.sub_diag in A. inversion A; subst o'. split; auto. exists t, j.
        split; auto. now apply in_or_app.
      * right. split; [lia|]. exists o', t, j. replace (m - i) with (S (m - S i)) in A by lia.
        split; auto. split; [split|]; auto.
Qed.

Lemma edges_of_err ops i inps e : edges_of prod hp ops i inps = inl e ->
  exists t, In t inps /\ t <> ""%string /\
    ((e = EMissing /\ prod t = None) \/
     (e = EKey /\ hp = false /\ exists j, prod t = Some j /\ ~ In j (map t_name ops))).
Proof.
  induction inps as [|t inps IH]; intro H; cbn [edges_of] in H; [discriminate|].
  destruct (String.eqb_spec t "") as [->|Nt].
  - destruct (IH H) as (t & A & B). exists t. simpl. auto.
  - destruct (prod t) as [j|] eqn:Ep.
    + destruct (index_of_name j ops 0 None) as [k'|] eqn:Ei.
      * destruct (edges_of prod hp ops i inps) as [e'|es'] eqn:Ee; [|discriminate].
        inversion H; subst. destruct (IH eq_refl) as (t' & A & B). exists t'. simpl. auto.
      * destruct hp eqn:Eh.
        -- destruct (IH H) as (t' & A & B). exists t'. simpl. auto.
        -- inversion H; subst. exists t. split; [left; auto|]. split; auto. right. split; auto. split; auto.
           exists j. split; auto. intro K.
           destruct (index_of_name_some j ops 0 None (or_introl K)) as (k & Ek). congruence.
    + inversion H; subst. exists t. simpl. auto.
Qed.
Lemma all_edges_err ops rest i e : all_edges prod hp ops rest i = inl e ->
  exists o t, In o rest /\ uses o t /\
    ((e = EMissing /\ prod t = None) \/
     (e = EKey /\ hp = false /\ exists j, prod t = Some j /\ ~ In j (map t_name ops))).
Proof.
  revert i. induction rest as [|o rest IH]; intros i H; cbn [all_edges] in H; [discriminate|].
  destruct (edges_of _ _ _ _ _) as [e1|es1] eqn:E1.
  - inversion H; subst. destruct (edges_of_err _ _ _ _ E1) as (t & A & B & C).
    exists o, t. split; [left; auto|]. split; auto. split; auto. now apply in_app_or.
  - destruct (all_edges _ _ _ rest _) as [e2|es2] eqn:E2; [|discriminate].
    inversion H; subst. destruct (IH _ E2) as (o' & t & A & B). exists o', t. simpl. auto.
Qed.

Lemma children_in es j c : In c (children es j) <-> In (j, c) es.
Proof.
  unfold children. rewrite in_map_iff. split.
  - intros ([a b] & <- & H). apply filter_In in H. destruct H as [H E]. apply Nat.eqb_eq in E.
    simpl in *. now subst.
  - intro H. exists (j, c). split; auto. apply filter_In. split; auto. apply Nat.eqb_refl.
Qed.

Lemma graph_sort_ok ops0 l : NoDup (map t_name ops0) ->
  graph_topological_sort prod hp ops0 = TOk l ->
  Permutation l ops0 /\ (forall a b, feeds prod ops0 a b -> before l a b) /\
  (forall b t, In b ops0 -> uses b t -> prod t <> None).
Proof.
  intros Hn H. unfold graph_topological_sort in H.
  set (ops := sort_ops ops0) in *.
  assert (Hp : Permutation ops ops0) by apply sort_ops_perm.
  assert (Hn' : NoDup (map t_name ops)).
  { eapply Permutation_NoDup; [|exact Hn]. apply Permutation_sym, Permutation_map, Hp. }
  destruct (all_edges prod hp ops ops 0) as [e|es] eqn:Ea; [discriminate|].
  assert (S := all_edges_spec _ _ _ _ Ea).
  assert (Hc : forall i c, In c (children es i) -> c < length ops).
  { intros i c K. apply children_in, S in K. destruct K as (_ & o & t & j & K & _).
    rewrite Nat.sub_0_r in K. apply nth_error_Some. congruence. }
  assert (D := dfs_correct (children es) (length ops) Hc).
  destruct (dfs_loop _ _ _ _ _) as [idx|e]; [|discriminate].
  inversion H; subst l; clear H. destruct D as (D1 & D2 & D3).
  assert (Hidx : Permutation idx (seq 0 (length ops))).
  { apply NoDup_Permutation; auto; [apply seq_NoDup|]. intro x. rewrite D2, in_seq. lia. }
  split; [|split].
  - rewrite (Permutation_map _ Hidx).
    assert (M : forall (f : list tnode) pre, map (fun i => nth i (pre ++ f) dflt_node) (seq (length pre) (length f)) = f).
    { induction f as [|x f IH]; intro pre; auto. simpl. f_equal.
      - rewrite app_nth2, Nat.sub_diag; auto.
      - assert (IHx := IH (pre ++ [x])). rewrite app_length in IHx. simpl in IHx.
        rewrite Nat.add_1_r, <- app_assoc in IHx. exact IHx. }
    specialize (M ops []). simpl app in M. simpl length in M. rewrite M. exact Hp.
  - intros a b (Ia & Ib & t & Ut & Pt).
    assert (Ia' : In a ops) by (eapply Permutation_in; [apply Permutation_sym|]; eauto).
    assert (Ib' : In b ops) by (eapply Permutation_in; [apply Permutation_sym|]; eauto).
    apply In_nth_error in Ia'. apply In_nth_error in Ib'.
    destruct Ia' as (ka & Ea'). destruct Ib' as (kb & Eb').
    assert (K : In (ka, kb) es).
    { apply S. split; [lia|]. exists b, t, (t_name a). rewrite Nat.sub_0_r.
      repeat split; auto; try (apply Ut). now apply index_of_name_at. }
    apply children_in in K.
    assert (La : In ka idx).
    { apply D2. apply nth_error_Some. congruence. }
    apply in_split in La. destruct La as (l1 & l2 & El).
    assert (Kb := D3 _ _ _ El _ K). apply in_split in Kb. destruct Kb as (m1 & m2 & ->).
    exists (map (fun i => nth i ops dflt_node) l1), (map (fun i => nth i ops dflt_node) m1),
           (map (fun i => nth i ops dflt_node) m2).
    rewrite El. rewrite !map_app. simpl. rewrite map_app. simpl.
    apply (nth_error_nth _ _ dflt_node) in Ea'. apply (nth_error_nth _ _ dflt_node) in Eb'.
    now rewrite Ea', Eb'.
  - intros b t Ib Ut Pn.
    assert (Ib' : In b ops) by (eapply Permutation_in; [apply Permutation_sym|]; eauto).
    assert (G : forall rest i es, all_edges prod hp ops rest i = inr es -> In b rest -> False).
    { clear - Pn Ut. induction rest as [|o rest IH]; intros i es H Hb; [destruct Hb|].
      cbn [all_edges] in H. destruct (edges_of _ _ _ _ _) as [e|es1] eqn:E1; [discriminate|].
      destruct (all_edges _ _ _ rest _) as [e|es2] eqn:E2; [discriminate|].
      destruct Hb as [->|Hb]; [|eapply IH; eauto].
      assert (Hin : In t (t_inputs b ++ t_implicit b)) by (apply in_or_app; apply Ut).
      clear - Pn Ut E1 Hin. revert es1 E1. induction (t_inputs b ++ t_implicit b) as [|u us IH]; intros es1 E1; [destruct Hin|].
      cbn [edges_of] in E1. destruct (String.eqb_spec u "") as [->|Nu].
      - destruct Hin as [<-|Hin]; [destruct Ut; congruence|]. eapply IH; eauto.
      - destruct Hin as [->|Hin]; [rewrite Pn in E1; discriminate|].
        destruct (prod u) as [j|]; [|discriminate]. destruct (index_of_name j ops 0 None).
        + destruct (edges_of prod hp ops i us); [discriminate|]. eapply IH; eauto.
        + destruct hp; [|discriminate]. eapply IH; eauto. }
    eapply G; eauto.
Qed.

(** every tensor used has a producer, in this graph unless the graph has a parent *)
Definition producers_ok (ops : list tnode) : Prop :=
  forall b t, In b ops -> uses b t ->
    exists j, prod t = Some j /\ (hp = true \/ In j (map t_name ops)).

Lemma graph_sort_total ops0 : NoDup (map t_name ops0) -> producers_ok ops0 ->
  (graph_topological_sort prod hp ops0 = TErr ECycle <-> cyclic (feeds prod ops0)) /\
  (~ cyclic (feeds prod ops0) -> exists l, graph_topological_sort prod hp ops0 = TOk l).
Proof.
  intros Hn Hpr.
  destruct (graph_topological_sort prod hp ops0) as [l|e] eqn:Eg.
  - split; [|eauto]. split; [discriminate|]. intro C. exfalso.
    destruct (graph_sort_ok _ _ Hn Eg) as (Hp & Ho & _).
    assert (Hnl : NoDup l).
    { apply (NoDup_map_inv t_name). eapply Permutation_NoDup; [|exact Hn].
      apply Permutation_map, Permutation_sym, Hp. }
    revert C. assert (K := ordered_acyclic (fun b a => feeds prod ops0 a b) l Hnl).
    intros (x & Cx). apply K.
    + intros l1 y l2 E z Hz. destruct (Ho _ _ Hz) as (m1 & m2 & m3 & E').
      assert (Hs : l1 = m1 ++ z :: m2).
      { assert (E2 : l1 ++ y :: l2 = m1 ++ z :: m2 ++ y :: m3) by congruence. clear E'. rename E2 into E'.
        rewrite E in Hnl. clear - Hnl E'.
        change (m1 ++ z :: m2 ++ y :: m3) with (m1 ++ (z :: m2) ++ y :: m3) in E'.
        rewrite app_assoc in E'. revert E'. generalize (m1 ++ z :: m2) as m. intros m E'.
        revert m E'. induction l1 as [|a l1 IH]; intros [|b m] E'; auto; simpl in *.
        - inversion E'; subst. inversion Hnl; subst. exfalso. apply H1. apply in_or_app. right. left. auto.
        - inversion E'; subst. inversion Hnl; subst. exfalso. apply H1. apply in_or_app. right. left. auto.
        - inversion E'; subst. inversion Hnl; subst. f_equal. auto. }
      subst l1. apply in_or_app. right. left. auto.
    + intros b a (Ia & Ib & _). eapply Permutation_in; [apply Permutation_sym|]; eauto.
    + exists x. revert Cx. generalize x at 1 4. generalize x as z. intros z y Cx. clear - Cx.
      induction Cx.
      * now apply tc_step.
      * eapply tc_snoc; eauto.
  - unfold graph_topological_sort in Eg.
    set (ops := sort_ops ops0) in *.
    assert (Hp : Permutation ops ops0) by apply sort_ops_perm.
    assert (Hn' : NoDup (map t_name ops)).
    { eapply Permutation_NoDup; [|exact Hn]. apply Permutation_sym, Permutation_map, Hp. }
    destruct (all_edges prod hp ops ops 0) as [e'|es] eqn:Ea.
    + exfalso. destruct (all_edges_err _ _ _ _ Ea) as (o & t & Io & Ut & C).
      assert (Io' : In o ops0) by (eapply Permutation_in; eauto).
      destruct (Hpr o t Io' Ut) as (j & Ej & Cj).
      destruct C as [[_ C]|(_ & C1 & j' & C2 & C3)]; [congruence|].
      destruct Cj as [Cj|Cj]; [congruence|]. rewrite Ej in C2. inversion C2; subst j'.
      apply C3. eapply Permutation_in; [|exact Cj]. apply Permutation_map, Permutation_sym, Hp.
    + assert (S := all_edges_spec _ _ _ _ Ea).
      assert (Hc : forall i c, In c (children es i) -> c < length ops).
      { intros i c K. apply children_in, S in K. destruct K as (_ & o & t & j & K & _).
        rewrite Nat.sub_0_r in K. apply nth_error_Some. congruence. }
      assert (D := dfs_correct (children es) (length ops) Hc).
      destruct (dfs_loop _ _ _ _ _) as [idx|e2]; [discriminate|].
      inversion Eg; subst e2. destruct e; try contradiction.
      assert (Cy : cyclic (feeds prod ops0)).
      { destruct D as (x & D). exists (nth x ops dflt_node).
        assert (G : forall i c, In c (children es i) -> feeds prod ops0 (nth i ops dflt_node) (nth c ops dflt_node)).
        { intros i c K. apply children_in, S in K. destruct K as (_ & o & t & j & K & Ut & Pt & It).
          rewrite Nat.sub_0_r in K.
          destruct (index_of_name_spec _ _ Hn' _ _ _ It) as [(o' & _ & E' & En)|[? _]]; [|discriminate].
          rewrite Nat.sub_0_r in E'.
          rewrite (nth_error_nth _ _ dflt_node K), (nth_error_nth _ _ dflt_node E').
          split; [|split].
          - eapply Permutation_in; eauto. eapply nth_error_In; eauto.
          - eapply Permutation_in; eauto. eapply nth_error_In; eauto.
          - exists t. rewrite En. auto. }
        revert D. generalize x at 1 3. generalize x as z. intros z y D. clear - D G. induction D.
        - apply tc_step. apply G. exact H.
        - eapply tc_trans; [apply G; exact H|exact IHD]. }
      split; [tauto|]. intro. contradiction.
Qed.

Lemma graph_sort_missing ops0 b t : NoDup (map t_name ops0) -> In b ops0 -> uses b t -> prod t = None ->
  exists e, graph_topological_sort prod hp ops0 = TErr e.
Proof.
  intros Hn Hb Hu Hp. destruct (graph_topological_sort prod hp ops0) as [l|e] eqn:E; eauto.
  exfalso. destruct (graph_sort_ok _ _ Hn E) as (_ & _ & K). eapply K; eauto.
Qed.
End Lift.
