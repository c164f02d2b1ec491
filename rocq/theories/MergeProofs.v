From Coq Require Import String List Bool Arith ZArith Lia.
From Coq Require Import Permutation.
From Verif Require Import FGraph FGraphProofs FGraphSpec IdentityModel IdentityProofs ApplyOptProofs ExecSpec ExecProofs DeadSpec DeadProofs RewriteProofs MergeModel MergeSpec.
Import ListNotations.
Local Open Scope string_scope.
Local Open Scope list_scope.

(** ** one duplicate *)
Definition subst_list (ps : list (string * string)) (n : fnode) : fnode :=
  fold_left (fun n p => subst_node (fst p) (snd p) n) ps n.
Lemma subst_list_cons a b ps n : subst_list ((a, b) :: ps) n = subst_list ps (subst_node a b n). Proof. reflexivity. Qed.
Lemma subst_list_head ps : forall n, f_name (subst_list ps n) = f_name n /\ f_op (subst_list ps n) = f_op n /\
  f_dom (subst_list ps n) = f_dom n /\ f_attrs (subst_list ps n) = f_attrs n /\ f_out (subst_list ps n) = f_out n /\
  (f_bodies n = [] -> f_bodies (subst_list ps n) = []).
Proof.
  induction ps as [|[a b] ps IH]; intro n; [cbn; auto 10|]. rewrite subst_list_cons.
  destruct (IH (subst_node a b n)) as (A & B & C & D & E & F). destruct n as [n1 n2 n3 n4 n5 n6 n7]. cbn in *.
  repeat split; auto. intros ->. apply F. reflexivity.
Qed.
Lemma subst_list_in ps : forall n m, f_in n = f_in m -> f_in (subst_list ps n) = f_in (subst_list ps m).
Proof.
  induction ps as [|[a b] ps IH]; intros n m E; [exact E|]. rewrite !subst_list_cons. apply IH. rewrite !f_in_subst. congruence.
Qed.
Lemma subst_none a b n : f_bodies n = [] -> ~ In a (f_in n) -> subst_node a b n = n.
Proof. intros Eb H. destruct n as [n1 n2 n3 n4 n5 n6 n7]. cbn in *. subst n7. cbn. f_equal. now apply map_sub_id. Qed.

Section One.
Variable V : Type.
Variable op_rel : string -> string -> list (string * attr) -> nat -> list V ->
                  list (list V -> list V -> Prop) -> list V -> Prop.
Hypothesis ext : op_ext op_rel.
Hypothesis det : op_det op_rel.
Notation holds := (holds op_rel). Notation all_hold := (all_hold op_rel).
Notation equiv := (equiv op_rel). Notation env := (env V).

(** d and r compute the same *)
Record twins (d r : fnode) : Prop := {
  tw_ne : f_name d <> f_name r;
  tw_in : f_in d = f_in r;
  tw_bd : f_bodies d = []; tw_br : f_bodies r = [];
  tw_rel : forall ins vs, op_rel (f_op d) (f_dom d) (f_attrs d) (length (f_out d)) ins [] vs <->
                          op_rel (f_op r) (f_dom r) (f_attrs r) (length (f_out r)) ins [] vs;
  tw_len : length (f_out d) <= length (f_out r);
  tw_nd : ~ In "" (f_out d); tw_nr : ~ In "" (f_out r) }.

Lemma twins_value d r (e : env) k a b : twins d r -> holds e d -> holds e r ->
  nth_error (f_out d) k = Some a -> nth_error (f_out r) k = Some b -> e a = e b.
Proof.
  intros T Hd Hr Ka Kb. apply holds_eq in Hd, Hr. destruct Hd as (vs & A & P), Hr as (vs' & A' & P').
  rewrite (tw_bd _ _ T) in A. rewrite (tw_br _ _ T) in A'. cbn [map] in *. rewrite (tw_in _ _ T) in A.
  apply (tw_rel _ _ T) in A. assert (E := det _ _ _ _ _ _ _ _ A A'). subst vs'.
  assert (Q := P k a Ka). assert (Q' := P' k b Kb).
  assert (a <> "") by (intros ->; apply (tw_nd _ _ T); eapply nth_error_In; eauto).
  assert (b <> "") by (intros ->; apply (tw_nr _ _ T); eapply nth_error_In; eauto).
  specialize (Q ltac:(auto)). specialize (Q' ltac:(auto)). congruence.
Qed.

Lemma in_combine_nth {A B} (l : list A) : forall (l' : list B) a b, In (a, b) (combine l l') ->
  exists k, nth_error l k = Some a /\ nth_error l' k = Some b.
Proof.
  induction l as [|x l IH]; intros [|y l'] a b H; cbn in H; try contradiction. destruct H as [H|H].
  - injection H as -> ->. exists 0. auto.
  - destruct (IH _ _ _ H) as (k & K). exists (S k). exact K.
Qed.
Lemma node_out_defs g n o : In n (f_nodes g) -> In o (f_out n) -> o <> "" -> In o (defs g).
Proof. intros Hn Ho Ne. apply in_defs. split; auto. right. eauto. Qed.

Lemma twins_noread rk g d r o : WW rk g -> In d (f_nodes g) -> In r (f_nodes g) -> twins d r ->
  In o (f_out d) -> ~ In o (f_in d).
Proof.
  intros H Hd Hr T Ho K. assert (G := H g (within_refl _)).
  assert (o <> "") by (intros ->; apply (tw_nd _ _ T); auto).
  assert (L := g_acyclic _ _ G d o o Hd (fv_in d o K) Ho ltac:(auto)). lia.
Qed.

(** replacing one output of the duplicate by that of the retained node *)
Lemma pair_step rk g d r a b : WW rk g -> In d (f_nodes g) -> In r (f_nodes g) -> twins d r ->
  In (a, b) (combine (f_out d) (f_out r)) ->
  exists rk', replace_all a b (f_nodes g) = Some (map (subst_node a b) (f_nodes g)) /\
    WW rk' (subst_graph a b g) /\ equiv g (subst_graph a b g) /\
    (forall n t, In n (f_nodes (subst_graph a b g)) -> In t (fv_node n) -> t <> a /\ (t = b \/ exists m, In m (f_nodes g) /\ In t (fv_node m))).
Proof.
  intros H Hd Hr T Hab. assert (G := H g (within_refl _)). destruct (in_combine_nth _ _ _ _ Hab) as (k & Ka & Kb).
  assert (Ia : In a (f_out d)) by (eapply nth_error_In; eauto). assert (Ib : In b (f_out r)) by (eapply nth_error_In; eauto).
  assert (Na : a <> "") by (intros ->; apply (tw_nd _ _ T); auto).
  assert (Nb : b <> "") by (intros ->; apply (tw_nr _ _ T); auto).
  assert (Da := node_out_defs g d a Hd Ia Na). assert (Db := node_out_defs g r b Hr Ib Nb).
  assert (Nab : a <> b).
  { intros ->. apply (tw_ne _ _ T). now rewrite (out_uniq rk g d r b G Hd Hr Nb Ia Ib). }
  assert (Nra : ~ In a (f_in d)) by (eapply twins_noread; eauto).
  assert (Nrb : ~ In a (f_in r)) by (rewrite <- (tw_in _ _ T); auto).
  set (rk' := fun t => if String.eqb t b then Nat.min (rk b) (rk a) else rk t).
  assert (Le : forall t, rk' t <= rk t) by (intro t; unfold rk'; destruct (String.eqb_spec t b); [subst; lia|lia]).
  assert (Rb : rk' b <= rk a) by (unfold rk'; rewrite String.eqb_refl; lia).
  assert (Same : forall t, t <> b -> rk' t = rk t) by (intros t Nt; unfold rk'; destruct (String.eqb_spec t b); congruence).
  destruct (subst_valid rk rk' a b g) as [W' _]; auto.
  - intros n t o Hn Ht Ho No. assert (L := g_acyclic _ _ G n t o Hn Ht Ho No).
    destruct (string_dec o b) as [->|Nob].
    + assert (n = r) by (eapply out_uniq; eauto). subst n.
      rewrite fv_node_eq, (tw_br _ _ T) in Ht. cbn in Ht. rewrite app_nil_r in Ht.
      assert (Lt : t <> a) by (intros ->; auto). unfold sub. destruct (String.eqb_spec t a); [contradiction|].
      assert (L2 : rk t < rk a). { apply (g_acyclic _ _ G d); auto. apply fv_in. rewrite (tw_in _ _ T). auto. }
      assert (rk' b = Nat.min (rk b) (rk a)) by (unfold rk'; now rewrite String.eqb_refl).
      specialize (Le t). lia.
    + rewrite (Same o Nob). unfold sub. destruct (String.eqb_spec t a) as [->|]; [lia|]. specialize (Le t). lia.
  - intros t o Ho Nd L. assert (o <> b) by (intros ->; contradiction). rewrite (Same o) by auto.
    unfold sub. destruct (String.eqb_spec t a) as [->|]; [lia|]. specialize (Le t). lia.
  - exists rk'. split; [|split; [exact W'|split]].
    + unfold replace_all. destruct (String.eqb_spec a b); [contradiction|].
      replace (existsb (circ_node a b) (f_nodes g)) with false; auto. symmetry.
      destruct (existsb (circ_node a b) (f_nodes g)) eqn:E; auto. apply existsb_exists in E. destruct E as (m & Hm & E).
      rewrite (proj1 (circ_false a b Nb)) in E; [discriminate| |].
      * intros [Q1 Q2]. assert (m = r) by (eapply out_uniq; eauto). subst m. contradiction.
      * intros bd Hbd. apply (good_not_nested rk g m bd b G Hm Hbd). auto.
    + apply (subst_equiv V op_rel ext a b g rk); auto.
      * intros e A. apply (twins_value d r e k a b); auto.
      * intros e A. apply (twins_value d r e k a b); auto; apply A; destruct g as [ns gi go]; cbn [subst_graph f_nodes] in *; apply in_map_iff.
        -- exists d. split; auto. apply subst_none; [apply (tw_bd _ _ T)|auto].
        -- exists r. split; auto. apply subst_none; [apply (tw_br _ _ T)|auto].
    + intros n t Hn Ht. destruct g as [ns gi go]. cbn [subst_graph f_nodes] in *. apply in_map_iff in Hn. destruct Hn as (m & <- & Hm).
      destruct (proj1 (fv_subst_ind a b Nab Na) m (WW_closed rk _ m H Hm) t Ht) as [A B]. split; auto. destruct B as [B|B]; eauto.
Qed.

Lemma replace_pairs_spec ps : forall rk g d r, WW rk g -> In d (f_nodes g) -> In r (f_nodes g) -> twins d r ->
  incl ps (combine (f_out d) (f_out r)) ->
  exists rk', replace_pairs ps (f_nodes g) = Some (map (subst_list ps) (f_nodes g)) /\
    let g' := FGraph (map (subst_list ps) (f_nodes g)) (f_ins g) (f_outs g) in
    WW rk' g' /\ equiv g g' /\ In d (f_nodes g') /\ In r (f_nodes g') /\
    (forall n t, In n (f_nodes g') -> In t (fv_node n) -> ~ In t (map fst ps) /\ (In t (map snd ps) \/ exists m, In m (f_nodes g) /\ In t (fv_node m))).
Proof.
  induction ps as [|[a b] ps IH]; intros rk g d r H Hd Hr T Hi.
  - exists rk. cbn. rewrite map_id. split; auto. destruct g as [ns gi go]; cbn [f_nodes f_ins f_outs] in *.
    split; auto. split; [apply equiv_refl|]. split; auto. split; auto. intros n t Hn Ht. split; eauto.
  - assert (Hab : In (a, b) (combine (f_out d) (f_out r))) by (apply Hi; left; auto).
    destruct (pair_step rk g d r a b H Hd Hr T Hab) as (rk1 & E1 & W1 & Q1 & F1).
    assert (Ia : In a (f_out d)) by (eapply in_combine_l; eauto).
    assert (Nra : ~ In a (f_in d)) by (exact (twins_noread rk g d r a H Hd Hr T Ia)).
    assert (Nrb : ~ In a (f_in r)) by (rewrite <- (tw_in _ _ T); auto).
    assert (Ed : subst_node a b d = d) by (apply subst_none; [apply (tw_bd _ _ T)|auto]).
    assert (Er : subst_node a b r = r) by (apply subst_none; [apply (tw_br _ _ T)|auto]).
    assert (Nds : f_nodes (subst_graph a b g) = map (subst_node a b) (f_nodes g)) by (destruct g; reflexivity).
    assert (Gin : f_ins (subst_graph a b g) = f_ins g /\ f_outs (subst_graph a b g) = f_outs g) by (destruct g; auto).
    assert (Hd1 : In d (f_nodes (subst_graph a b g))) by (rewrite Nds, <- Ed; apply in_map; auto).
    assert (Hr1 : In r (f_nodes (subst_graph a b g))) by (rewrite Nds, <- Er; apply in_map; auto).
    destruct (IH rk1 (subst_graph a b g) d r W1 Hd1 Hr1 T) as (rk2 & E2 & W2 & Q2 & Hd2 & Hr2 & F2).
    { intros p Hp. apply Hi. right; auto. }
    rewrite Nds in E2, W2, Q2, Hd2, Hr2, F2. destruct Gin as [G1 G2]. rewrite G1, G2, map_map in *.
    assert (EN : map (fun x => subst_list ps (subst_node a b x)) (f_nodes g) = map (subst_list ((a, b) :: ps)) (f_nodes g)) by (apply map_ext; intro; apply subst_list_cons).
    rewrite EN in *.
    exists rk2. cbn [replace_pairs]. rewrite E1. split; [exact E2|]. cbn zeta. split; [exact W2|].
    split; [eapply equiv_trans; eauto|]. split; [exact Hd2|]. split; [exact Hr2|].
    intros n t Hn Ht. destruct (F2 n t Hn Ht) as [A B]. cbn [map fst snd In].
    assert (Nab : a <> b).
    { destruct (in_combine_nth _ _ _ _ Hab) as (k & Ka & Kb). assert (Ib : In b (f_out r)) by (eapply nth_error_In; eauto).
      intros ->. apply (tw_ne _ _ T). assert (Nb : b <> "") by (intros ->; apply (tw_nr _ _ T); auto).
      now rewrite (out_uniq rk g d r b (H g (within_refl _)) Hd Hr Nb Ia Ib). }
    destruct B as [B|(m & Hm & B)].
    + split; [|auto]. intros [<-|K]; [|auto].
      (* a is an output of d, so not one of r *)
      apply in_map_iff in B. destruct B as ([x y] & E & B). cbn in E. subst y.
      assert (Q : In a (f_out r)) by (eapply in_combine_r; apply Hi; right; exact B).
      assert (Na : a <> "") by (intros ->; apply (tw_nr _ _ T); auto).
      apply (tw_ne _ _ T). now rewrite (out_uniq rk g d r a (H g (within_refl _)) Hd Hr Na Ia Q).
    + destruct (F1 m t) as [C D]; [rewrite Nds; exact Hm|exact B|]. split.
      * intros [K|K]; [congruence|auto].
      * destruct D as [->|D]; auto.
Qed.

Lemma combine_fst {A B} (l : list A) : forall (l' : list B), length l <= length l' -> map fst (combine l l') = l.
Proof. induction l as [|x l IH]; intros [|y l'] L; cbn in *; try lia; auto. f_equal. apply IH. lia. Qed.
Lemma combine_snd {A B} (l : list A) : forall (l' : list B) y, In y (map snd (combine l l')) -> In y l'.
Proof. intros l' y H. apply in_map_iff in H. destruct H as ([a b] & <- & H). eapply in_combine_r; eauto. Qed.

Definition heads (g g' : fgraph) : Prop :=
  forall n', In n' (f_nodes g') -> exists n, In n (f_nodes g) /\ f_name n' = f_name n /\ f_op n' = f_op n /\
    f_dom n' = f_dom n /\ f_attrs n' = f_attrs n /\ f_out n' = f_out n /\ (f_bodies n = [] -> f_bodies n' = []).

Lemma merge_one_spec rk g d r rt dd : WW rk g -> In d (f_nodes g) -> In r (f_nodes g) -> twins d r ->
  f_name dd = f_name d -> f_out dd = f_out d -> f_out rt = f_out r ->
  exists g' b rk', merge_one rt dd g = Some (g', b) /\ WW rk' g' /\ equiv g g' /\ f_ins g' = f_ins g /\ f_outs g' = f_outs g /\
    ((b = false /\ g' = g /\ exists o, In o (f_out d) /\ In o (f_outs g)) \/
     (b = true /\ exists ps, f_nodes g' = without (f_name d) (map (subst_list ps) (f_nodes g)))).
Proof.
  intros H Hd Hr T En Eo Er. unfold merge_one. rewrite En, Eo, Er.
  destruct (existsb (fun o => mem o (f_outs g)) (f_out d)) eqn:Ex.
  - exists g, false, rk. apply existsb_exists in Ex. destruct Ex as (o & Ho & M). apply mem_in in M.
    split; auto. split; auto. split; [apply equiv_refl|]. split; auto. split; auto. left. split; auto. split; auto. eauto.
  - destruct (replace_pairs_spec (combine (f_out d) (f_out r)) rk g d r H Hd Hr T (incl_refl _)) as (rk' & E & W' & Q & Hd' & Hr' & F).
    rewrite E. set (ps := combine (f_out d) (f_out r)) in *. set (ns' := map (subst_list ps) (f_nodes g)) in *.
    set (g1 := FGraph ns' (f_ins g) (f_outs g)) in *. cbn zeta in *.
    assert (G1 := W' g1 (within_refl _)). cbn [f_nodes g1] in Hd', Hr'.
    apply in_split in Hd'. destruct Hd' as (l1 & l2 & El).
    assert (Ew : without (f_name d) ns' = l1 ++ l2).
    { rewrite El. apply without_split; auto. assert (N := g_names _ _ G1). cbn [g1 f_nodes] in N. now rewrite El in N. }
    assert (Hpf : map fst ps = f_out d) by (apply combine_fst; apply (tw_len _ _ T)).
    assert (Nrd : forall m t, In m (l1 ++ l2) -> In t (fv_node m) -> t <> "" -> ~ In t (f_out d)).
    { intros m t Hm Ht _. assert (Hm' : In m ns') by (rewrite El, in_app_iff in *; cbn; tauto).
      destruct (F m t Hm' Ht) as [A _]. now rewrite Hpf in A. }
    assert (Nout : forall o, In o (f_outs g) -> ~ In o (f_out d)).
    { intros o Ho K. assert (X : existsb (fun o => mem o (f_outs g)) (f_out d) = true); [|congruence].
      apply existsb_exists. exists o. split; auto. now apply mem_in. }
    unfold g1 in W', Q. rewrite El in W', Q.
    destruct (remove_valid rk' l1 d l2 (f_ins g) (f_outs g) W' Nrd Nout) as [W2 _].
    exists (FGraph (without (f_name d) ns') (f_ins g) (f_outs g)), true, rk'. split; auto. rewrite Ew. split; [exact W2|].
    split; [|split; [reflexivity|split; [reflexivity|]]].
    + eapply equiv_trans; [exact Q|]. eapply (remove_equiv V op_rel ext rk'); eauto.
      intros e A. assert (Hr1 : In r (l1 ++ l2)).
      { rewrite El, in_app_iff in Hr'. cbn in Hr'. rewrite in_app_iff. destruct Hr' as [K|[K|K]]; auto. exfalso. apply (tw_ne _ _ T). now rewrite K. }
      assert (Hh := A r Hr1). apply holds_eq in Hh. destruct Hh as (vs & Op & Pr). rewrite (tw_br _ _ T) in Op. cbn [map] in Op.
      exists (bind V (f_out d) vs e). split; [intros t Ht; now apply bind_frame|].
      apply holds_eq. exists vs. rewrite (tw_bd _ _ T). cbn [map]. split.
      * apply (tw_rel _ _ T). replace (map (bind V (f_out d) vs e) (f_in d)) with (map e (f_in r)); auto.
        rewrite <- (tw_in _ _ T). apply map_ext_in. intros t Ht. symmetry. apply bind_frame. rewrite in_nonempty. intros [K _].
        revert Ht. exact (twins_noread rk g d r t H Hd Hr T K).
      * apply bind_produces.
        -- assert (S := g_ssa _ _ G1). unfold g1 in S. rewrite El in S. apply alldefs_split in S. destruct S as (_ & S & _).
           destruct d as [d1 d2 d3 d4 d5 d6 d7]. cbn [alldefs_node f_out] in *. apply NoDup_app_inv in S. tauto.
        -- etransitivity; [apply (tw_len _ _ T)|]. destruct (Nat.le_gt_cases (length (f_out r)) (length vs)) as [L|L]; auto.
           exfalso. destruct (nth_error (f_out r) (length vs)) as [o|] eqn:Eo'.
           ++ assert (o <> "") by (intros ->; apply (tw_nr _ _ T); eapply nth_error_In; eauto).
              assert (K := Pr _ _ Eo' ltac:(auto)). assert (X : nth_error vs (length vs) <> None) by congruence.
              apply nth_error_Some in X. lia.
           ++ apply nth_error_None in Eo'. lia.
    + right. split; auto. exists ps. cbn [f_nodes]. symmetry. exact Ew.
Qed.
End One.

(** ** groups *)
Lemma ins_desc_perm n l : Permutation (n :: l) (ins_desc n l).
Proof.
  induction l as [|m l IH]; cbn [ins_desc]; [auto|]. destruct (Nat.ltb (length (f_out n)) (length (f_out m))); auto.
  eapply perm_trans; [apply perm_swap|]. now constructor.
Qed.
Lemma sort_desc_perm l : Permutation l (sort_desc l).
Proof. induction l as [|n l IH]; cbn; [auto|]. eapply perm_trans; [|apply ins_desc_perm]. now constructor. Qed.
Lemma ins_desc_max n l rt ds : ins_desc n l = rt :: ds ->
  (forall r0 l0, l = r0 :: l0 -> forall m, In m l0 -> length (f_out m) <= length (f_out r0)) ->
  forall m, In m ds -> length (f_out m) <= length (f_out rt).
Proof.
  destruct l as [|r0 l0]; cbn [ins_desc]; intros E H m Hm.
  - injection E as <- <-. destruct Hm.
  - destruct (Nat.ltb_spec (length (f_out n)) (length (f_out r0))).
    + injection E as <- <-. apply (Permutation_in _ (Permutation_sym (ins_desc_perm n l0))) in Hm. destruct Hm as [<-|Hm]; [lia|]. eapply H; eauto.
    + injection E as <- <-. destruct Hm as [<-|Hm]; auto. specialize (H _ _ eq_refl m Hm). lia.
Qed.
Lemma sort_desc_max l : forall rt ds, sort_desc l = rt :: ds -> forall m, In m ds -> length (f_out m) <= length (f_out rt).
Proof.
  induction l as [|n l IH]; intros rt ds E; [discriminate|]. cbn [sort_desc] in E. apply (ins_desc_max n (sort_desc l)); auto.
Qed.

Section Groups.
Variable const_eq : list (string * attr) -> list (string * attr) -> bool.
Variable hash : list (string * attr) -> Z.
Variable V : Type.
Variable op_rel : string -> string -> list (string * attr) -> nat -> list V ->
                  list (list V -> list V -> Prop) -> list V -> Prop.
Hypothesis ext : op_ext op_rel.
Hypothesis det : op_det op_rel.
Notation equiv := (equiv op_rel).
Notation mergeable := (mergeable const_eq op_rel).
Notation equal_attr := (equal_attr const_eq).

Lemma is_const_spec n : is_const n = true <-> constant n.
Proof. unfold is_const, constant. rewrite orb_true_iff, !String.eqb_eq. tauto. Qed.

(** the node object n of the groups, as it is in the current graph *)
Definition rep (g : fgraph) (n n' : fnode) : Prop :=
  In n' (f_nodes g) /\ f_name n' = f_name n /\ f_op n' = f_op n /\ f_dom n' = f_dom n /\ f_attrs n' = f_attrs n /\
  f_out n' = f_out n /\ (f_bodies n = [] -> f_bodies n' = []).
Definition alive (g : fgraph) (grp : list fnode) : Prop :=
  (forall n, In n grp -> exists n', rep g n n') /\
  (forall n m n' m', In n grp -> In m grp -> rep g n n' -> rep g m m' -> f_in n' = f_in m' /\ f_op n' = f_op m').
Definition ok (rk : string -> nat) (g : fgraph) : Prop :=
  WW rk g /\ mergeable g /\ (forall n, In n (f_nodes g) -> ~ In "" (f_out n)).

(** how the graph evolves: duplicates disappear, the remaining nodes have inputs replaced *)
Definition evolves (g g' : fgraph) (gone : list string) : Prop :=
  exists ps, forall n', In n' (f_nodes g') <-> exists n, n' = subst_list ps n /\ In n (f_nodes g) /\ ~ In (f_name n) gone.
Lemma evolves_refl g : evolves g g [].
Proof. exists []. intro n'. cbn. split; [intro H; exists n'; auto|intros (n & -> & H & _); auto]. Qed.
Lemma subst_list_app ps qs n : subst_list (ps ++ qs) n = subst_list qs (subst_list ps n).
Proof. unfold subst_list. apply fold_left_app. Qed.
Lemma evolves_trans g1 g2 g3 a b : evolves g1 g2 a -> evolves g2 g3 b -> evolves g1 g3 (a ++ b).
Proof.
  intros (ps & P) (qs & Q). exists (ps ++ qs). intro n'. rewrite Q. split.
  - intros (m & -> & Hm & Nm). apply P in Hm. destruct Hm as (n & -> & Hn & Nn). exists n.
    rewrite subst_list_app. split; auto. split; auto. rewrite in_app_iff. rewrite (proj1 (subst_list_head ps n)) in Nm. tauto.
  - intros (n & -> & Hn & Nn). exists (subst_list ps n). rewrite subst_list_app. rewrite in_app_iff in Nn. split; auto. split.
    + apply P. exists n. tauto.
    + rewrite (proj1 (subst_list_head ps n)). tauto.
Qed.
Lemma names_inj g n m : NoDup (map f_name (f_nodes g)) -> In n (f_nodes g) -> In m (f_nodes g) -> f_name n = f_name m -> n = m.
Proof. intro N. apply (nm_inj g n m N). Qed.
Lemma alive_evolves g g' gone grp : NoDup (map f_name (f_nodes g)) -> evolves g g' gone -> alive g grp ->
  (forall n, In n grp -> ~ In (f_name n) gone) -> alive g' grp.
Proof.
  intros U (ps & P) [A B] N. split.
  - intros n Hn. destruct (A n Hn) as (n' & Hn' & E1 & E2 & E3 & E4 & E5 & E6). exists (subst_list ps n').
    destruct (subst_list_head ps n') as (F1 & F2 & F3 & F4 & F5 & F6).
    unfold rep. rewrite F1, F2, F3, F4, F5. split; [|auto 10]. apply P. exists n'. split; auto. split; auto. rewrite E1. auto.
  - assert (K : forall n n', In n grp -> rep g' n n' -> exists n0, rep g n n0 /\ n' = subst_list ps n0).
    { intros n n' Hn (H1 & H2 & _). apply P in H1. destruct H1 as (n0 & -> & H0 & _). exists n0. split; auto.
      destruct (A n Hn) as (n1 & R1). replace n0 with n1; auto. apply (names_inj g); auto; [apply R1|].
      rewrite (proj1 (subst_list_head ps n0)) in H2. destruct R1 as (_ & R1 & _). congruence. }
    intros n m n' m' Hn Hm Rn Rm. destruct (K n n' Hn Rn) as (n0 & Rn0 & ->), (K m m' Hm Rm) as (m0 & Rm0 & ->).
    destruct (B n m n0 m0 Hn Hm Rn0 Rm0) as [E1 E2]. split; [now apply subst_list_in|].
    destruct (subst_list_head ps n0) as (_ & -> & _), (subst_list_head ps m0) as (_ & -> & _). exact E2.
Qed.
Lemma mergeable_evolves g g' gone : evolves g g' gone -> mergeable g -> mergeable g'.
Proof.
  intros (ps & P) M. constructor.
  - intros n m Hn Hm L. apply P in Hn, Hm. destruct Hn as (n0 & -> & Hn & _), Hm as (m0 & -> & Hm & _). unfold look_alike, constant in *.
    destruct (subst_list_head ps n0) as (_ & F2 & F3 & F4 & F5 & _), (subst_list_head ps m0) as (_ & H2 & H3 & H4 & H5 & _).
    rewrite F2, F3, F4, F5, ?H2, ?H3, ?H4, ?H5 in *. apply (mg_same _ _ _ M n0 m0 Hn Hm). exact L.
  - intros n m Hn Hm E C1 C2 Ce. apply P in Hn, Hm. destruct Hn as (n0 & -> & Hn & _), Hm as (m0 & -> & Hm & _). unfold constant in *.
    destruct (subst_list_head ps n0) as (_ & F2 & F3 & F4 & F5 & _), (subst_list_head ps m0) as (_ & H2 & H3 & H4 & H5 & _).
    rewrite F2, F4, ?H2, ?H4 in *. apply (mg_const _ _ _ M n0 m0 Hn Hm E C1 C2 Ce).
  - intros n Hn C. apply P in Hn. destruct Hn as (n0 & -> & Hn & _). unfold constant in C.
    destruct (subst_list_head ps n0) as (_ & F2 & F3 & F4 & F5 & F6). rewrite F2 in C. apply F6. apply (mg_flat _ _ _ M n0 Hn C).
Qed.
Lemma equal_attr_spec n m : equal_attr n m = true ->
  (f_attrs n = f_attrs m /\ f_bodies n = [] /\ f_bodies m = []) \/ (constant n /\ constant m /\ const_eq (f_attrs n) (f_attrs m) = true).
Proof.
  unfold MergeModel.equal_attr. rewrite orb_true_iff, !andb_true_iff, !is_const_spec. intros [H|H]; [left|right; tauto].
  destruct (f_bodies n); [|discriminate]. destruct (f_bodies m); [|discriminate]. destruct (attrs_dec (f_attrs n) (f_attrs m)); [auto|discriminate].
Qed.

(** two nodes of a class are twins in the current graph *)
Definition alike (n m : fnode) : Prop :=
  (f_attrs n = f_attrs m /\ f_bodies n = [] /\ f_bodies m = []) \/ (constant n /\ constant m /\ const_eq (f_attrs n) (f_attrs m) = true).
Lemma make_twins rk g n m n' m' : ok rk g -> rep g n n' -> rep g m m' -> f_name n <> f_name m ->
  f_in n' = f_in m' -> f_op n' = f_op m' -> alike n m ->
  length (f_out n) <= length (f_out m) -> twins V op_rel n' m'.
Proof.
  intros (W1 & M & NO) (Hn & E1 & E2 & E3 & E4 & E5 & E6) (Hm & F1 & F2 & F3 & F4 & F5 & F6) Ne Ei Eop L Le.
  assert (Lk : look_alike const_eq n' m').
  { split; auto. rewrite E4, F4. unfold constant. rewrite E2, F2. destruct L as [(L & _)|L]; auto. }
  destruct (mg_same _ _ _ M n' m' Hn Hm Lk) as [Ed Ea].
  constructor; auto.
  - congruence.
  - destruct L as [(_ & L & _)|(L & _)]; auto. apply (mg_flat _ _ _ M n' Hn). unfold constant in *. now rewrite E2.
  - destruct L as [(_ & _ & L)|(_ & L & _)]; auto. apply (mg_flat _ _ _ M m' Hm). unfold constant in *. now rewrite F2.
  - intros ins vs. rewrite <- Eop, <- Ed.
    transitivity (op_rel (f_op n') (f_dom n') (f_attrs n') (length (f_out m')) ins [] vs).
    + destruct Ea as [Ea|Ea]; [rewrite Ea; tauto|]. apply Ea.
    + destruct L as [(L & _)|(L1 & L2 & L3)].
      * assert (E : f_attrs n' = f_attrs m') by congruence. rewrite E. tauto.
      * apply (mg_const _ _ _ M n' m' Hn Hm Eop).
        -- unfold constant in *. now rewrite E2.
        -- unfold constant in *. now rewrite F2.
        -- now rewrite E4, F4.
  - rewrite E5, F5. exact Le.
Qed.

(** the claim about a step from (g, b) to (g', b') *)
Definition stepped (rk : string -> nat) (st st' : fgraph * bool) (names : list string) : Prop :=
  exists rk' gone, ok rk' (fst st') /\ equiv (fst st) (fst st') /\ f_ins (fst st') = f_ins (fst st) /\ f_outs (fst st') = f_outs (fst st) /\
    evolves (fst st) (fst st') gone /\ incl gone names /\
    length (f_nodes (fst st')) + length gone = length (f_nodes (fst st)) /\
    (gone = [] -> st' = st) /\ (gone <> [] -> snd st' = true) /\ (snd st = true -> snd st' = true).
Lemma stepped_refl rk st names : ok rk (fst st) -> stepped rk st st names.
Proof.
  intro H. exists rk, []. split; auto. split; [apply equiv_refl|]. split; auto. split; auto. split; [apply evolves_refl|].
  split; [intros x []|]. split; [cbn; lia|]. split; [reflexivity|]. split; [congruence|auto].
Qed.
Lemma stepped_weaken rk st st' names names' : incl names names' -> stepped rk st st' names -> stepped rk st st' names'.
Proof.
  intros I (rk' & gone & A1 & A2 & A3 & A4 & A5 & A6 & A7). exists rk', gone. split; auto. split; auto. split; auto. split; auto. split; auto.
  split; auto. intros x Hx. auto.
Qed.
Lemma evolves_named g g' gone : evolves g g' gone -> (forall n, In n (f_nodes g) -> ~ In "" (f_out n)) -> forall n, In n (f_nodes g') -> ~ In "" (f_out n).
Proof.
  intros (ps & P) H n Hn. apply P in Hn. destruct Hn as (m & -> & Hm & _).
  destruct (subst_list_head ps m) as (_ & _ & _ & _ & -> & _). auto.
Qed.
Lemma filter_length_name (d : string) l : NoDup (map f_name l) -> In d (map f_name l) -> length (without d l) + 1 = length l.
Proof.
  intros N H. apply in_map_iff in H. destruct H as (n & E & H). apply in_split in H. destruct H as (l1 & l2 & ->).
  rewrite without_split; auto. rewrite !app_length. cbn. lia.
Qed.

Lemma merge_one_step rk g b rt d : ok rk g -> alive g [rt; d] -> f_name d <> f_name rt -> alike d rt ->
  length (f_out d) <= length (f_out rt) ->
  exists g' b', merge_one rt d g = Some (g', b') /\ stepped rk (g, b) (g', b || b') [f_name d] /\
    (b' = false -> exists o, In o (f_out d) /\ In o (f_outs g)).
Proof.
  intros O [A B] Ne L Le. assert (O' := O). destruct O' as (W1 & M & NO).
  destruct (A d) as (d' & Rd); [cbn; auto|]. destruct (A rt) as (r' & Rr); [cbn; auto|].
  destruct (B d rt d' r') as [Ei Eo]; cbn; auto.
  assert (T := make_twins rk g d rt d' r' O Rd Rr Ne Ei Eo L Le).
  destruct Rd as (Hd & D1 & _ & _ & _ & D5 & _), Rr as (Hr & R1 & _ & _ & _ & R5 & _).
  destruct (merge_one_spec V op_rel ext det rk g d' r' rt d W1 Hd Hr T (eq_sym D1) (eq_sym D5) (eq_sym R5))
    as (g' & b' & rk' & E & W2 & Q & E1 & E2 & K).
  exists g', b'. split; auto. destruct K as [(-> & -> & o & Ho & Hg)|(-> & ps & Ns)].
  - split; [|intros _; exists o; rewrite <- D5; auto]. rewrite orb_false_r. now apply stepped_refl.
  - split; [|discriminate]. rewrite orb_true_r.
    assert (Ev : evolves g g' [f_name d]).
    { exists ps. intro n'. rewrite Ns, without_in, D1. split.
      - intros [H Nm]. apply in_map_iff in H. destruct H as (n & <- & Hn). exists n. split; auto. split; auto. cbn.
        rewrite (proj1 (subst_list_head ps n)) in Nm. intros [K|[]]. congruence.
      - intros (n & -> & Hn & Nm). split; [now apply in_map|]. rewrite (proj1 (subst_list_head ps n)). cbn in Nm. intro K. apply Nm. auto. }
    exists rk', [f_name d]. cbn [fst snd]. split; [split; [exact W2|split; [eapply mergeable_evolves; eauto|eapply evolves_named; eauto]]|].
    split; auto. split; auto. split; auto. split; auto. split; [apply incl_refl|]. split; [|split; [discriminate|auto]].
    rewrite Ns. assert (G := W1 g (within_refl _)). cbn [length].
    assert (Nn : map f_name (map (subst_list ps) (f_nodes g)) = map f_name (f_nodes g)).
    { rewrite map_map. apply map_ext. intro n. apply (proj1 (subst_list_head ps n)). }
    rewrite filter_length_name, map_length; auto.
    + rewrite Nn. apply (g_names _ _ G).
    + rewrite Nn. now apply in_map.
Qed.

Lemma stepped_trans rk st1 st2 st3 n1 n2 : stepped rk st1 st2 n1 ->
  (forall rk', ok rk' (fst st2) -> stepped rk' st2 st3 n2) -> stepped rk st1 st3 (n1 ++ n2).
Proof.
  intros (rk' & gone & A1 & A2 & A3 & A4 & A5 & A6 & A7 & A8 & A9 & A10) H.
  destruct (H rk' A1) as (rk'' & gone' & B1 & B2 & B3 & B4 & B5 & B6 & B7 & B8 & B9 & B10).
  exists rk'', (gone ++ gone'). split; auto. split; [eapply equiv_trans; eauto|]. split; [congruence|]. split; [congruence|].
  split; [eapply evolves_trans; eauto|]. split; [apply incl_app_app; auto|]. split; [rewrite app_length; lia|].
  split; [|split].
  - intro E. apply app_eq_nil in E. destruct E as [E1 E2]. rewrite (B8 E2). apply A8. exact E1.
  - intro E. destruct gone as [|x gone]; [cbn in E; auto|]. apply B10. apply A9. discriminate.
  - auto.
Qed.
Lemma stepped_alive rk st st' names grp : ok rk (fst st) -> stepped rk st st' names -> alive (fst st) grp ->
  (forall n, In n grp -> ~ In (f_name n) names) -> alive (fst st') grp.
Proof.
  intros (W1 & _) (rk' & gone & _ & _ & _ & _ & Ev & I & _) A N. eapply alive_evolves; eauto.
  - apply (g_names rk). apply W1. constructor.
  - intros n Hn K. apply (N n Hn). auto.
Qed.
Lemma alive_incl g grp grp' : incl grp' grp -> alive g grp -> alive g grp'.
Proof. intros I [A B]. split; [auto|]. intros n m n' m' Hn Hm. apply B; auto. Qed.

Lemma merge_all_spec ds : forall rk st rt, ok rk (fst st) -> alive (fst st) (rt :: ds) -> NoDup (map f_name (rt :: ds)) ->
  (forall d, In d ds -> alike d rt /\ length (f_out d) <= length (f_out rt)) ->
  exists st', merge_all rt ds st = Some st' /\ stepped rk st st' (map f_name ds) /\
    (snd st' = false -> forall d, In d ds -> exists o, In o (f_out d) /\ In o (f_outs (fst st))).
Proof.
  induction ds as [|d ds IH]; intros rk st rt O A N L.
  - exists st. split; auto. split; [now apply stepped_refl|]. intros _ d [].
  - cbn [map] in N. inversion N as [|? ? N1 N2]; subst. inversion N2 as [|? ? N3 N4]; subst.
    destruct (L d (or_introl eq_refl)) as [L1 L2]. destruct st as [g b].
    destruct (merge_one_step rk g b rt d O) as (g' & b' & E & S & Fb); auto.
    { eapply alive_incl; [|exact A]. intros x [<-|[<-|[]]]; cbn; auto. }
    { intro K. apply N1. cbn. auto. }
    assert (S' := S). destruct S' as (rk1 & gone1 & O1 & Rest).
    destruct (IH rk1 (g', b || b') rt O1) as (st' & E2 & S2 & F2).
    + apply (stepped_alive rk (g, b) (g', b || b') [f_name d]); auto.
      * eapply alive_incl; [|exact A]. intros x [<-|Hx]; cbn; auto.
      * intros n [<-|Hn] [K|[]].
        -- apply N1. cbn. auto.
        -- apply N3. rewrite K. now apply in_map.
    + cbn. constructor; auto. intro K. apply N1. cbn. auto.
    + intros x Hx. apply L. cbn; auto.
    + exists st'. cbn [merge_all fst snd]. rewrite E. split; auto. split.
      * change (map f_name (d :: ds)) with ([f_name d] ++ map f_name ds). eapply stepped_trans; [exact S|].
        intros rk2 O2. destruct (IH rk2 (g', b || b') rt O2) as (st'' & E3 & S3 & _).
        -- apply (stepped_alive rk (g, b) (g', b || b') [f_name d]); auto.
           ++ eapply alive_incl; [|exact A]. intros x [<-|Hx]; cbn; auto.
           ++ intros n [<-|Hn] [K|[]].
              ** apply N1. cbn. auto.
              ** apply N3. rewrite K. now apply in_map.
        -- cbn. constructor; auto. intro K. apply N1. cbn. auto.
        -- intros x Hx. apply L. cbn; auto.
        -- congruence.
      * intros Hf x [<-|Hx].
        -- apply Fb. destruct S2 as (_ & _ & _ & _ & _ & _ & _ & _ & _ & _ & _ & Mono). cbn [snd] in Mono.
           destruct b'; auto. rewrite orb_true_r in Mono. rewrite Mono in Hf; [discriminate|auto].
        -- destruct (F2 Hf x Hx) as (o & Ho & Hg). exists o. split; auto. cbn [fst] in *.
           destruct Rest as (_ & _ & Eo & _). cbn [fst] in Eo. now rewrite Eo in Hg.
Qed.

Hypothesis csym : forall a b, const_eq a b = true -> const_eq b a = true.
Hypothesis ctrans : forall a b c, const_eq a b = true -> const_eq b c = true -> const_eq a c = true.
Lemma alike_sym n m : alike n m -> alike m n.
Proof. unfold alike. intros [(A & B & C)|(A & B & C)]; [left|right]; auto. Qed.
Lemma alike_trans n m k : f_op n = f_op m -> f_op m = f_op k -> alike n m -> alike m k -> alike n k.
Proof.
  unfold alike, constant. intros E1 E2 [(A & B & C)|(A & B & C)] [(A' & B' & C')|(A' & B' & C')].
  - left. split; [congruence|auto].
  - right. rewrite A, E1. split; auto.
  - right. rewrite <- A', <- E2. split; auto.
  - right. split; auto. split; auto. eapply ctrans; eauto.
Qed.
Lemma alike_equal n m : alike n m <-> equal_attr n m = true.
Proof.
  split; [|apply equal_attr_spec]. unfold MergeModel.equal_attr. rewrite orb_true_iff, !andb_true_iff, !is_const_spec.
  intros [(A & B & C)|H]; [left|right; tauto]. rewrite B, C, A. destruct (attrs_dec (f_attrs m) (f_attrs m)); congruence.
Qed.

Lemma merge_class_spec rk st l : ok rk (fst st) -> alive (fst st) l -> NoDup (map f_name l) ->
  (forall x y, In x l -> In y l -> f_name x <> f_name y -> alike x y) ->
  exists st', merge_class l st = Some st' /\ stepped rk st st' (map f_name l) /\
    (snd st' = false -> forall x y, In x l -> In y l -> f_name x <> f_name y ->
       exists o, (In o (f_out x) \/ In o (f_out y)) /\ In o (f_outs (fst st))).
Proof.
  intros O A N L. unfold merge_class. assert (P := sort_desc_perm l). destruct (sort_desc l) as [|rt ds] eqn:E.
  - exists st. split; auto. split; [now apply stepped_refl|]. intros _ x y Hx. apply (Permutation_in _ P) in Hx. destruct Hx.
  - assert (N' : NoDup (map f_name (rt :: ds))) by (eapply Permutation_NoDup; [apply Permutation_map; exact P|exact N]).
    assert (Hin : forall x, In x (rt :: ds) -> In x l) by (intros x Hx; exact (Permutation_in _ (Permutation_sym P) Hx)).
    destruct (merge_all_spec ds rk st rt O) as (st' & E' & S & F); auto.
    + eapply alive_incl; [|exact A]. exact Hin.
    + intros d Hd. split; [|eapply sort_desc_max; eauto]. apply L; [apply Hin; cbn; auto|apply Hin; cbn; auto|].
      cbn [map] in N'. inversion N' as [|? ? N1 _]; subst. intro K. apply N1. rewrite <- K. now apply in_map.
    + exists st'. split; auto. split.
      * eapply stepped_weaken; [|exact S]. intros x Hx. apply in_map_iff in Hx. destruct Hx as (d & <- & Hd). apply in_map. apply Hin. cbn; auto.
      * intros Hf x y Hx Hy Ne. apply (Permutation_in _ P) in Hx, Hy. destruct Hx as [->|Hx].
        -- destruct Hy as [->|Hy]; [congruence|]. destruct (F Hf y Hy) as (o & Ho & Hg). eauto.
        -- destruct (F Hf x Hx) as (o & Ho & Hg). eauto.
Qed.

Lemma filter_len {A} (f : A -> bool) l : length (filter f l) <= length l.
Proof. induction l as [|x l IH]; cbn; [lia|]. destruct (f x); cbn; lia. Qed.
Lemma NoDup_map_filter (f : fnode -> bool) l : NoDup (map f_name l) -> NoDup (map f_name (filter f l)).
Proof.
  induction l as [|x l IH]; cbn [map filter]; intro N; [constructor|]. inversion N as [|? ? N3 N4]; subst.
  destruct (f x); auto. cbn [map]. constructor; auto. intro K. apply N3. apply in_map_iff in K. destruct K as (y & E & Hy).
  apply filter_In in Hy. rewrite <- E. apply in_map. tauto.
Qed.
Lemma del_group_spec fuel : forall grp rk st, length grp <= fuel -> ok rk (fst st) -> alive (fst st) grp -> NoDup (map f_name grp) ->
  (forall x y, In x grp -> In y grp -> f_op x = f_op y) ->
  exists st', del_group const_eq fuel grp st = Some st' /\ stepped rk st st' (map f_name grp) /\
    (snd st' = false -> forall x y, In x grp -> In y grp -> f_name x <> f_name y -> alike x y ->
       exists o, (In o (f_out x) \/ In o (f_out y)) /\ In o (f_outs (fst st))).
Proof.
  induction fuel as [|fuel IH]; intros grp rk st Hl O A N Op.
  { destruct grp; [|cbn in Hl; lia]. exists st. split; auto. split; [now apply stepped_refl|]. intros _ x y []. }
  destruct grp as [|n [|m0 ms]].
  - exists st. split; auto. split; [now apply stepped_refl|]. intros _ x y [].
  - exists st. split; auto. split; [now apply stepped_refl|]. intros _ x y [<-|[]] [<-|[]]. congruence.
  - cbn [del_group]. set (tl := m0 :: ms) in *.
    set (cls := n :: filter (fun m => equal_attr m n) tl). set (rest := filter (fun m => negb (equal_attr m n)) tl).
    assert (N' := N). cbn [map] in N'. apply NoDup_cons_iff in N'. destruct N' as [N1 N2].
    assert (Icls : incl cls (n :: tl)). { intros x [<-|Hx]; [cbn; auto|]. apply filter_In in Hx. right. tauto. }
    assert (Irest : incl rest (n :: tl)). { intros x Hx. apply filter_In in Hx. right. tauto. }
    assert (Ninj : forall x y, In x (n :: tl) -> In y (n :: tl) -> f_name x = f_name y -> x = y).
    { intros x y. apply (names_inj (FGraph (n :: tl) [] [])). exact N. }
    assert (NDl : forall f, NoDup (map f_name (filter f tl))).
    { intro f. apply NoDup_map_filter. exact N2. }
    assert (Ncls : NoDup (map f_name cls)).
    { unfold cls. cbn [map]. constructor; [|apply NDl].  intro K. apply N1.
      apply in_map_iff in K. destruct K as (y & E & Hy). apply filter_In in Hy. rewrite <- E. apply in_map. tauto. }
    destruct (merge_class_spec rk st cls O) as (st1 & E1 & S1 & F1); auto.
    + eapply alive_incl; eauto.
    + intros x y Hx Hy Ne.
      assert (K : forall z, In z cls -> z = n \/ alike z n).
      { intros z [<-|Hz]; auto. apply filter_In in Hz. right. apply equal_attr_spec. tauto. }
      destruct (K x Hx) as [->|Kx], (K y Hy) as [->|Ky]; auto; [congruence|now apply alike_sym|].
      apply (alike_trans x n y); auto; [apply Op; auto; cbn; auto|apply Op; auto; cbn; auto|now apply alike_sym].
    + rewrite E1.
      assert (Dj : forall x, In x rest -> ~ In (f_name x) (map f_name cls)).
      { intros x Hx K. apply in_map_iff in K. destruct K as (y & E & Hy). assert (y = x) by (apply Ninj; auto). subst y.
        unfold cls, rest in *. apply filter_In in Hx. destruct Hx as [Hx Bx]. destruct Hy as [->|Hy].
        -  apply N1. now apply in_map.
        - apply filter_In in Hy. destruct Hy as [_ Hy]. rewrite Hy in Bx. discriminate. }
      assert (Go : forall rk1, ok rk1 (fst st1) -> exists st', del_group const_eq fuel rest st1 = Some st' /\ stepped rk1 st1 st' (map f_name rest) /\
                (snd st' = false -> forall x y, In x rest -> In y rest -> f_name x <> f_name y -> alike x y ->
                  exists o, (In o (f_out x) \/ In o (f_out y)) /\ In o (f_outs (fst st1)))).
      { intros rk1 O1. apply IH; auto.
        - unfold rest. assert (Fl := filter_len (fun m => negb (equal_attr m n)) tl). cbn [length] in Hl. lia.
        - eapply (stepped_alive rk st st1); eauto. eapply alive_incl; eauto.
        - apply NDl. }
      assert (S1' := S1). destruct S1' as (rk1 & gone1 & O1 & _ & _ & Eo1 & _).
      destruct (Go rk1 O1) as (st' & E2 & S2 & F2). exists st'. split; [exact E2|]. split.
      * eapply stepped_weaken; [|eapply stepped_trans; [exact S1|]].
        2: { intros rk2 O2. destruct (Go rk2 O2) as (st'' & E3 & S3 & _). rewrite E2 in E3. injection E3 as <-. exact S3. }
        intros z Hz. apply in_app_iff in Hz. destruct Hz as [Hz|Hz]; apply in_map_iff in Hz; destruct Hz as (y & <- & Hy); apply in_map; auto.
      * intros Hf x y Hx Hy Ne L.
        assert (Hf1 : snd st1 = false).
        { destruct (snd st1) eqn:Q; [|reflexivity]. exfalso. destruct S2 as (? & ? & S2). decompose [and] S2. match goal with Mo : snd st1 = true -> _ |- _ => rewrite (Mo Q) in Hf end. discriminate. }
        assert (Cl : forall z, In z (n :: tl) -> In z cls \/ In z rest).
        { intros z [<-|Hz]; [left; left; auto|]. unfold cls, rest. destruct (equal_attr z n) eqn:B.
          - left. right. apply filter_In. auto.
          - right. apply filter_In. rewrite B. auto. }
        assert (Mv : forall a b, In a (n :: tl) -> In b (n :: tl) -> In a cls -> In b rest -> alike a b -> False).
        { intros a b Ha Hb Ca Rb Lab. unfold rest in Rb. apply filter_In in Rb. destruct Rb as [Hbt Rb].
          assert (Kb : equal_attr b n = true); [|rewrite Kb in Rb; discriminate]. apply alike_equal.
          destruct Ca as [<-|Ca]; [now apply alike_sym|]. apply filter_In in Ca. destruct Ca as [_ Ca]. apply equal_attr_spec in Ca.
          apply (alike_trans b a n); [apply Op; assumption|apply Op; [assumption|now left]|now apply alike_sym|exact Ca]. }
        destruct (Cl x Hx) as [Cx|Cx], (Cl y Hy) as [Cy|Cy].
        -- apply F1; auto.
        -- exfalso. apply (Mv x y); auto.
        -- exfalso. apply (Mv y x); auto. now apply alike_sym.
        -- rewrite <- Eo1. apply F2; auto.
Qed.

Lemma merge_groups_spec gs : forall rk st, ok rk (fst st) -> (forall grp, In grp gs -> alive (fst st) grp) ->
  NoDup (map f_name (concat gs)) -> (forall grp x y, In grp gs -> In x grp -> In y grp -> f_op x = f_op y) ->
  exists st', merge_groups const_eq gs st = Some st' /\ stepped rk st st' (map f_name (concat gs)) /\
    (snd st' = false -> forall grp x y, In grp gs -> In x grp -> In y grp -> f_name x <> f_name y -> f_op x <> "Identity" -> alike x y ->
       exists o, (In o (f_out x) \/ In o (f_out y)) /\ In o (f_outs (fst st))).
Proof.
  induction gs as [|grp gs IH]; intros rk st O A N Op.
  - exists st. split; auto. split; [now apply stepped_refl|]. intros _ grp x y [].
  - cbn [concat] in N. rewrite map_app in N. apply NoDup_app_inv in N. destruct N as (N1 & N2 & N3).
    cbn [merge_groups].
    assert (K : exists st1, (if skip_group grp then Some st else del_group const_eq (length grp) grp st) = Some st1 /\ stepped rk st st1 (map f_name grp) /\
       (snd st1 = false -> forall x y, In x grp -> In y grp -> f_name x <> f_name y -> f_op x <> "Identity" -> alike x y ->
         exists o, (In o (f_out x) \/ In o (f_out y)) /\ In o (f_outs (fst st)))).
    { destruct (skip_group grp) eqn:Sk.
      - exists st. split; auto. split; [now apply stepped_refl|]. intros _ x y Hx Hy Ne Ni. exfalso. apply Ni.
        destruct grp as [|n grp]; [destruct Hx|]. cbn in Sk. apply String.eqb_eq in Sk. rewrite <- Sk.
        apply (Op (n :: grp)); cbn; auto.
      - destruct (del_group_spec (length grp) grp rk st (le_n _) O) as (st1 & E & S & F); auto.
        + apply A. cbn; auto.
        + intros x y Hx Hy. apply (Op grp); cbn; auto.
        + exists st1. split; auto. }
    destruct K as (st1 & E1 & S1 & F1). rewrite E1.
    assert (Go : forall rk1, ok rk1 (fst st1) -> exists st', merge_groups const_eq gs st1 = Some st' /\ stepped rk1 st1 st' (map f_name (concat gs)) /\
      (snd st' = false -> forall grp x y, In grp gs -> In x grp -> In y grp -> f_name x <> f_name y -> f_op x <> "Identity" -> alike x y ->
       exists o, (In o (f_out x) \/ In o (f_out y)) /\ In o (f_outs (fst st1)))).
    { intros rk1 O1. apply IH; auto.
      - intros grp' Hg. eapply (stepped_alive rk st st1); eauto; [apply A; cbn; auto|]. intros n Hn K.
        apply (N3 _ K). apply in_map. apply in_concat. eauto.
      - intros grp' x y Hg. apply Op. cbn; auto. }
    assert (S1' := S1). destruct S1' as (rk1 & gone1 & O1 & _ & _ & Eo1 & _).
    destruct (Go rk1 O1) as (st' & E2 & S2 & F2). exists st'. split; auto. split.
    + cbn [concat]. rewrite map_app. eapply stepped_trans; [exact S1|].
      intros rk2 O2. destruct (Go rk2 O2) as (st'' & E3 & S3 & _). rewrite E2 in E3. injection E3 as <-. exact S3.
    + intros Hf g0 x y [<-|Hg] Hx Hy Ne Ni L.
      * apply F1; auto. destruct S2 as (_ & _ & _ & _ & _ & _ & _ & _ & _ & _ & _ & Mono). destruct (snd st1); auto. rewrite Mono in Hf; auto.
      * rewrite <- Eo1. apply (F2 Hf g0); auto.
Qed.

(** ** grouping *)
Notation same_key := (same_key hash). Notation add_to_group := (add_to_group hash). Notation group_nodes := (group_nodes hash).
Lemma same_key_spec n m : same_key n m = true <-> f_op n = f_op m /\ f_in n = f_in m /\ key_hash hash n = key_hash hash m.
Proof.
  unfold MergeModel.same_key. rewrite !andb_true_iff, String.eqb_eq. destruct (list_eq_dec string_dec (f_in n) (f_in m)) as [E|E].
  - destruct (key_hash hash n), (key_hash hash m); rewrite ?Z.eqb_eq; intuition (try congruence).
  - intuition congruence.
Qed.
Lemma sk_sym n m : same_key n m = true -> same_key m n = true.
Proof. rewrite !same_key_spec. intuition congruence. Qed.
Lemma sk_trans n m k : same_key n m = true -> same_key m k = true -> same_key n k = true.
Proof. rewrite !same_key_spec. intuition congruence. Qed.
Fixpoint sep (gs : list (list fnode)) : Prop :=
  match gs with
  | [] => True
  | grp :: gs' => grp <> [] /\ (forall x y, In x grp -> In y grp -> same_key x y = true) /\
                  (forall x y, In x grp -> In y (concat gs') -> same_key x y = false) /\ sep gs'
  end.
Lemma sk_refl n : same_key n n = true. Proof. apply same_key_spec. auto. Qed.
Lemma add_perm n gs : sep gs -> Permutation (concat (add_to_group n gs)) (n :: concat gs).
Proof.
  induction gs as [|grp gs IH]; cbn [MergeModel.add_to_group concat sep]; [auto|]. intros (Ne & _ & _ & S).
  destruct grp as [|m l]; [congruence|]. destruct (same_key m n).
  - cbn [concat]. rewrite <- app_assoc. apply Permutation_sym. apply (Permutation_middle (m :: l) (concat gs) n).
  - cbn [concat]. rewrite (IH S). apply Permutation_sym. apply Permutation_middle.
Qed.
Lemma add_sep n gs : sep gs -> sep (add_to_group n gs).
Proof.
  induction gs as [|grp gs IH]; cbn [MergeModel.add_to_group sep].
  - intros _. split; [discriminate|]. split; [intros x y [<-|[]] [<-|[]]; apply sk_refl|]. split; auto. intros x y _ [].
  - intros (Ne & A & B & S). destruct grp as [|m l]; [congruence|]. destruct (same_key m n) eqn:E.
    + cbn [sep]. split; [destruct l; discriminate|].
      assert (Km : forall x, In x ((m :: l) ++ [n]) -> same_key m x = true).
      { intros x Hx. apply in_app_iff in Hx. destruct Hx as [Hx|[<-|[]]]; auto. apply A; cbn; auto. }
      split; [intros x y Hx Hy; apply (sk_trans x m y); [apply sk_sym|]; auto|]. split; auto.
      intros x y Hx Hy. destruct (same_key x y) eqn:Q; auto. rewrite <- (B m y); [symmetry|cbn; auto|auto].
      apply (sk_trans m x y); auto.
    + cbn [sep]. split; auto. split; auto. split; [|auto]. intros x y Hx Hy. apply (Permutation_in _ (add_perm n gs S)) in Hy.
      destruct Hy as [<-|Hy]; [|auto]. destruct (same_key x n) eqn:Q; auto. rewrite <- E. symmetry. apply (sk_trans m x n); auto. apply A; cbn; auto.
Qed.
Lemma group_nodes_spec ns : sep (group_nodes ns) /\ Permutation (concat (group_nodes ns)) ns.
Proof.
  unfold MergeModel.group_nodes.
  enough (K : forall ns gs, sep gs -> sep (fold_left (fun gs n => add_to_group n gs) ns gs) /\
       Permutation (concat (fold_left (fun gs n => add_to_group n gs) ns gs)) (concat gs ++ ns)) by (apply (K ns []); cbn; auto).
  induction ns0 as [|n ns0 IH]; intros gs S; cbn [fold_left]; [rewrite app_nil_r; auto|].
  destruct (IH (add_to_group n gs) (add_sep n gs S)) as [A B]. split; auto. rewrite B, (add_perm n gs S). cbn.
  apply Permutation_middle.
Qed.
Lemma sep_group gs : sep gs -> forall x y, In x (concat gs) -> In y (concat gs) -> same_key x y = true ->
  exists grp, In grp gs /\ In x grp /\ In y grp.
Proof.
  induction gs as [|grp gs IH]; cbn [sep concat]; [intros _ x y []|]. intros (_ & A & B & S) x y Hx Hy K.
  apply in_app_iff in Hx, Hy. destruct Hx as [Hx|Hx], Hy as [Hy|Hy].
  - exists grp. cbn. auto.
  - rewrite (B x y Hx Hy) in K. discriminate.
  - apply sk_sym in K. rewrite (B y x Hy Hx) in K. discriminate.
  - destruct (IH S x y Hx Hy K) as (g0 & A0 & A1). exists g0. cbn. auto.
Qed.
Lemma sep_keys gs : sep gs -> forall grp x y, In grp gs -> In x grp -> In y grp -> same_key x y = true.
Proof. induction gs as [|g0 gs IH]; cbn [sep]; [intros _ grp x y []|]. intros (_ & A & _ & S) grp x y [<-|Hg]; auto. apply (IH S grp). exact Hg. Qed.

(** ** rounds *)
Lemma merge_round_spec rk g : ok rk g ->
  exists st', merge_round const_eq hash g = Some st' /\ stepped rk (g, false) st' (map f_name (f_nodes g)) /\
    (snd st' = false -> forall x y, In x (f_nodes g) -> In y (f_nodes g) -> f_name x <> f_name y -> f_op x <> "Identity" -> same_key x y = true -> alike x y ->
       exists o, (In o (f_out x) \/ In o (f_out y)) /\ In o (f_outs g)).
Proof.
  intro O. unfold merge_round. destruct (group_nodes_spec (f_nodes g)) as [S P].
  assert (O' := O). destruct O' as (W1 & _). assert (G := W1 g (within_refl _)). assert (Nn := g_names _ _ G).
  assert (Hin : forall x, In x (concat (group_nodes (f_nodes g))) <-> In x (f_nodes g)).
  { intro x. split; intro H; [exact (Permutation_in _ P H)|exact (Permutation_in _ (Permutation_sym P) H)]. }
  assert (Hg : forall grp x, In grp (group_nodes (f_nodes g)) -> In x grp -> In x (f_nodes g)).
  { intros grp x Hgr Hx. apply Hin. apply in_concat. eauto. }
  destruct (merge_groups_spec (group_nodes (f_nodes g)) rk (g, false) O) as (st' & E & St & F).
  - intros grp Hgr. cbn [fst]. split.
    + intros n Hn. exists n. unfold rep. assert (Hn' := Hg grp n Hgr Hn). auto 10.
    + intros n m n' m' Hn Hm (Rn & En & _) (Rm & Em & _).
      assert (n' = n) by (apply (names_inj g); eauto). assert (m' = m) by (apply (names_inj g); eauto). subst.
      assert (K := sep_keys _ S grp n m Hgr Hn Hm). apply same_key_spec in K. tauto.
  - eapply Permutation_NoDup; [|exact Nn]. apply Permutation_map, Permutation_sym. exact P.
  - intros grp x y Hgr Hx Hy. assert (K := sep_keys _ S grp x y Hgr Hx Hy). apply same_key_spec in K. tauto.
  - exists st'. split; auto. split.
    + eapply stepped_weaken; [|exact St]. intros z Hz. exact (Permutation_in _ (Permutation_map f_name P) Hz).
    + intros Hf x y Hx Hy Ne Ni K L. destruct (sep_group _ S x y) as (grp & Hgr & Gx & Gy); [apply Hin; exact Hx|apply Hin; exact Hy|exact K|].
      apply (F Hf grp); auto.
Qed.

Lemma merge_rounds_spec fuel : forall rk g, ok rk g -> length (f_nodes g) < fuel ->
  exists g' rk', merge_rounds const_eq hash fuel g = Some g' /\ ok rk' g' /\ equiv g g' /\ f_ins g' = f_ins g /\ f_outs g' = f_outs g /\
    (forall x y, In x (f_nodes g') -> In y (f_nodes g') -> f_name x <> f_name y -> f_op x <> "Identity" -> same_key x y = true -> alike x y ->
       exists o, (In o (f_out x) \/ In o (f_out y)) /\ In o (f_outs g')).
Proof.
  induction fuel as [|fuel IH]; intros rk g O Hl; [lia|]. cbn [merge_rounds].
  destruct (merge_round_spec rk g O) as (st' & E & S & F). rewrite E. destruct st' as [g' b'].
  destruct S as (rk' & gone & O' & Q & Ei & Eo & Ev & _ & Len & Z & Nz & _). cbn [fst snd] in *.
  destruct gone as [|x gone].
  - specialize (Z eq_refl). injection Z as -> ->. exists g, rk. split; [reflexivity|]. split; [exact O|]. split; [apply equiv_refl|]. split; [reflexivity|]. split; [reflexivity|exact (F eq_refl)].
  - rewrite (Nz ltac:(discriminate)). destruct (IH rk' g' O') as (g2 & rk2 & E2 & O2 & Q2 & Ei2 & Eo2 & F2); [cbn in Len; lia|].
    exists g2, rk2. split; [exact E2|]. split; [exact O2|]. split; [eapply equiv_trans; eauto|]. split; [congruence|]. split; [congruence|exact F2].
Qed.
End Groups.
