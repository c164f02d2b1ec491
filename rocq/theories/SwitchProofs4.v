(** Mul behind a Transpose, and Transposes that do nothing, on a graph. *)
From Coq Require Import String List Arith ZArith Bool Lia Permutation.
From Verif Require Import FGraph FGraphSpec FGraphProofs IdentityModel IdentityProofs ApplyOptProofs RewriteProofs BypassProofs.
From Verif Require Import Tensor OnnxSpec FoldModel TensorProofs NNModel PushSpec PushModel PushProofs PushProofs3 SwitchModel SwitchSpec SwitchProofs SwitchProofs2 SwitchProofs3 B2BProofs QdqProofs.
Import ListNotations.
Local Open Scope string_scope.
Local Open Scope list_scope.

Lemma names_unique rk g n m : good rk g -> In n (f_nodes g) -> In m (f_nodes g) -> f_name n = f_name m -> n = m.
Proof.
  intro G. assert (N := g_names _ _ G). revert N. induction (f_nodes g) as [|z l IH]; cbn [map In]; intros N A B E; [tauto|].
  inversion N as [|? ? Hn N']; subst. destruct A as [A|A], B as [B|B]; subst; auto.
  - exfalso. apply Hn. rewrite E. apply in_map. exact B.
  - exfalso. apply Hn. rewrite <- E. apply in_map. exact A.
Qed.
Lemma out_unique rk g n m o : good rk g -> In n (f_nodes g) -> In m (f_nodes g) -> In o (f_out n) -> In o (f_out m) -> o <> "" -> n = m.
Proof.
  intros G Hn Hm Ho Ho' No. destruct (string_dec (f_name n) (f_name m)) as [E|E]; [apply (names_unique rk g); auto|]. exfalso.
  apply in_split in Hn. destruct Hn as (l1 & l2 & En). assert (S : NoDup (alldefs (FGraph (l1 ++ n :: l2) (f_ins g) (f_outs g)))).
  { assert (S := g_ssa _ _ G). rewrite <- En. destruct g as [ns gi go]. exact S. }
  destruct (alldefs_split l1 n l2 (f_ins g) (f_outs g) S) as (_ & _ & D).
  apply (D o). { apply alldefs_in_node. left. auto. }
  apply alldefs_in. right. exists m. split; [|apply alldefs_in_node; left; auto].
  rewrite En in Hm. apply in_app_iff in Hm. cbn [f_nodes]. apply in_app_iff. cbn [In] in Hm. intuition congruence.
Qed.
Lemma fv_with_in at_ ins n : f_bodies n = [] -> fv_node (with_in at_ ins n) = ins.
Proof. intro B. rewrite fv_node_eq. destruct n as [b1 b2 b3 b4 b5 b6 b7]. cbn [with_in f_in f_bodies] in *. subst b7. apply app_nil_r. Qed.
Section Drop.
Variable V : Type.
Variable op_rel : string -> string -> list (string * attr) -> nat -> list V -> list (list V -> list V -> Prop) -> list V -> Prop.
Hypothesis ext : op_ext op_rel.
Notation holds := (holds op_rel). Notation body_rel := (body_rel op_rel). Notation all_hold := (all_hold op_rel). Notation executes := (executes op_rel).
Lemma drop_call rk g d w : WW rk g -> In d (f_nodes g) -> f_out d = [w] -> w <> "" -> (forall m, In m (f_nodes g) -> m <> d -> ~ In w (fv_node m)) -> ~ In w (f_outs g) ->
  let g' := without_node (f_name d) g in WW rk g' /\ forall r0 args,
    (forall r, executes g r0 args r -> executes g' r0 args (IdentityProofs.upd V r w (r0 w))) /\
    forall res, (body_rel r0 g args res -> body_rel r0 g' args res) /\
    ((forall r, executes g' r0 args r -> exists v, holds (IdentityProofs.upd V r w v) d) -> body_rel r0 g' args res -> body_rel r0 g args res).
Proof.
  intros W Hd Od Nw Rd Go. destruct g as [ns gi go]. cbn [f_nodes f_ins f_outs without_node] in *. destruct (in_split _ _ Hd) as (l1 & l2 & ->).
  assert (G := W _ (within_refl _)). assert (Nm := g_names _ _ G). cbn [f_nodes] in Nm.
  assert (Ef := without_split (f_name d) l1 d l2 Nm eq_refl). unfold without in Ef. unfold without_node. cbn [f_nodes f_ins f_outs]. rewrite Ef. clear Ef.
  assert (Ne : forall m, In m (l1 ++ l2) -> m <> d).
  { intros m Hm ->. rewrite map_app in Nm. cbn [map] in Nm. apply NoDup_remove_2 in Nm. apply Nm. rewrite <- map_app. now apply in_map. }
  assert (Sub : forall m, In m (l1 ++ l2) -> In m (l1 ++ d :: l2)) by (intros m Hm; rewrite in_app_iff in *; cbn; tauto).
  assert (Hr : forall m u, In m (l1 ++ l2) -> In u (fv_node m) -> u <> "" -> ~ In u (f_out d)).
  { intros m u Hm Hu Nu. rewrite Od. intros [<-|[]]. apply (Rd m); auto. }
  assert (Ho : forall o, In o go -> ~ In o (f_out d)) by (intros o Ho; rewrite Od; intros [<-|[]]; auto).
  destruct (remove_valid rk l1 d l2 gi go W Hr Ho) as [W' _]. split; [exact W'|]. intros r0 args.
  assert (Ew : nonempty (f_out d) = [w]). { rewrite Od. unfold nonempty. cbn [filter]. destruct (String.eqb_spec w ""); [contradiction|reflexivity]. }
  split.
  - intros r (A1 & A2 & A3). cbn [f_ins f_nodes] in *.
    assert (Nw' : ~ In w gi /\ forall m, In m (l1 ++ l2) -> ~ In w (f_out m)) by (apply (removed_new rk l1 d l2 gi go W); rewrite Ew; now left). repeat split; cbn [f_ins f_nodes].
    + intros u Hu. destruct (string_dec u w) as [->|Nu]; [apply upd_same|]. rewrite upd_other by auto. apply A1. intro K. apply (removed_defs l1 d l2 gi go) in K. rewrite Ew in K. destruct K as [K|[K|[]]]; auto.
    + rewrite <- A2. apply map_ext_in. intros u Hu. apply upd_other. intros ->. tauto.
    + intros m Hm. eapply holds_agree; [exact ext| | |apply (A3 m (Sub m Hm))].
      * intros u Hu. rewrite upd_other; auto. intros ->. apply (Rd m); auto.
      * intros u Hu Nu. rewrite upd_other; auto. intros ->. destruct Nw' as [_ K]. now apply (K m).
  - intro res. split; [apply (remove_forth V op_rel ext rk l1 d l2 gi go W Hr Ho)|]. intros Hx. apply (remove_back V op_rel ext rk l1 d l2 gi go W Hr Ho).
    intros r A1 A2 A3. destruct (Hx r) as [v Hv]; [repeat split; auto|]. exists (IdentityProofs.upd V r w v). split; auto. intros u Hu. apply upd_other. intros ->. apply Hu. rewrite Ew. now left.
Qed.
End Drop.

Section Mul.
Context {A : Type}.
Notation V := (tensor A).
Variable op_rel : string -> string -> list (string * attr) -> nat -> list V -> list (list V -> list V -> Prop) -> list V -> Prop.
Hypothesis ext : op_ext op_rel.
Variable f : list A -> A.
Hypothesis MT : means op_rel "Transpose" (fun at_ ws v w => ws = [] /\ transpose_rel (map Z.to_nat (ints_attr "perm" at_ [])) v w).
Hypothesis MM : mul_means op_rel f.
Notation holds := (holds op_rel). Notation body_rel := (body_rel op_rel). Notation executes := (executes op_rel).
Definition same_result (g g' : fgraph) (ok : (string -> V) -> Prop) : Prop :=
  forall r0 args res, (body_rel r0 g args res -> body_rel r0 g' args res) /\ ((forall r, executes g' r0 args r -> ok r) -> body_rel r0 g' args res -> body_rel r0 g args res).
Lemma same_id g ok : same_result g g ok.
Proof. intros r0 args res. auto. Qed.

Lemma nary_rank (xs : list V) y n : nary_rel f xs y -> length (shape y) = n -> exists x, In x xs /\ length (shape x) = n.
Proof. intros (_ & _ & H & _) <-. exact H. Qed.
Lemma nary_wf (xs : list V) y x : nary_rel f xs y -> In x xs -> wf x.
Proof. intros (_ & H & _) Hx. now apply H. Qed.

(** one input is the Transpose, the other a constant scalar *)
Lemma scalar_carried p n (c : V) : is_perm p n -> wf c -> shape c = [] \/ (shape c = [1] /\ 2 <= n) -> carried p n c c /\ (length (shape c) < n \/ n = 0).
Proof. intros P W [S|[S L]]; (split; [apply carried_scalar; auto; rewrite S; cbn; auto; lia|rewrite S; cbn; lia]). Qed.

Lemma last_other_two t a b : last_other t 0 [a; b] = if String.eqb b t then (if String.eqb a t then None else Some (0, a)) else Some (1, b).
Proof. cbn [last_other]. destruct (String.eqb b t); reflexivity. Qed.

Variables (g : fgraph) (tr nd : fnode) (x t y a b : string) (p : list nat) (n : nat) (const_shape : string -> option (list nat)).
Hypothesis Val : valid g.
Hypothesis Ht : In tr (f_nodes g). Hypothesis Ot : f_op tr = "Transpose". Hypothesis It : f_in tr = [x]. Hypothesis Out : f_out tr = [t]. Hypothesis Bt : f_bodies tr = [].
Hypothesis Nt : t <> "". Hypothesis Ep : perm_of tr = Some p. Hypothesis P : is_perm p n.
Hypothesis Hn : In nd (f_nodes g). Hypothesis On : f_op nd = "Mul". Hypothesis In_ : f_in nd = [a; b]. Hypothesis Oy : f_out nd = [y]. Hypothesis Bn : f_bodies nd = []. Hypothesis Ny : y <> "".
Hypothesis C : consumers t g = [nd]. Hypothesis Go : ~ In t (f_outs g) /\ ~ In y (f_outs g).
Hypothesis Const : forall w m sh (r : string -> V), node_of w g = Some m -> const_shape w = Some sh -> holds r m -> shape (r w) = sh /\ wf (r w).
Hypothesis Rank1 : forall w, const_shape w = Some [1] -> 2 <= n.
Definition other_transpose (w z : string) (m : fnode) : Prop :=
  In w [a; b] /\ w <> t /\ node_of w g = Some m /\ f_op m = "Transpose" /\ perm_of m = Some p /\ f_in m = [z].
Hypothesis Other : forall w m, In w [a; b] -> w <> t -> node_of w g = Some m -> f_op m = "Transpose" -> perm_of m = Some p ->
  f_out m = [w] /\ w <> "" /\ f_bodies m = [] /\ ~ In w (f_outs g) /\ exists z, f_in m = [z].
Definition ranks (r : string -> V) : Prop := forall w z m, other_transpose w z m -> length (shape (r x)) = n /\ wf (r z) /\ length (shape (r z)) = n.

Lemma push_mul_ok : exists g' changed, push_mul const_shape g tr nd = Some (g', changed) /\ valid g' /\ same_result g g' ranks.
Proof.
  destruct Val as [rk W]. assert (G := W g (within_refl g)).
  assert (Id : exists g' changed, Some (g, false) = Some (g', changed) /\ valid g' /\ same_result g g' ranks) by (exists g, false; split; auto; split; [exists rk; exact W|apply same_id]).
  assert (Rd : In t [a; b]).
  { rewrite <- In_. apply (proj2 (consumers_in t nd) g). rewrite C. now left. }
  assert (T : transposed g tr nd x t y).
  { constructor; auto; [now rewrite In_|]. apply (single_consumer rk g tr nd t y); auto. }
  destruct (switch_ranks rk g tr nd x t y W T) as [Rx Rt]. assert (Sx := switch_source g tr nd x t y T). assert (So := switch_other rk g tr nd x t y W T). rewrite In_ in So.
  assert (Xt : x <> t) by (intros ->; lia). assert (Xy : x <> y) by (intros ->; lia).
  assert (Ms : forall vi vs at_, length vi = 2 -> (op_rel (f_op nd) (f_dom nd) at_ 1 vi [] vs <-> exists w, vs = [w] /\ nary_rel f vi w)).
  { intros vi vs at_ L. rewrite On. destruct vi as [|v1 [|v2 [|]]]; try discriminate. apply MM. }
  assert (Pt := perm_of_spec tr p Ep).
  unfold push_mul. rewrite It, Out, In_, last_other_two.
  (* both directions from carried inputs *)
  assert (Main : forall (fi : list string -> list string) a' b' (ok : (string -> V) -> Prop), fi [a; b] = [a'; b'] -> (forall i, In i [a'; b'] -> i <> t /\ rk i < rk y /\ (In i (defs g) \/ In i (fv_graph g))) ->
    (forall r v, ok r -> ok (IdentityProofs.upd V r y v)) ->
    (forall r : string -> V, context V op_rel g nd tr r -> transpose_rel p (r x) (r t) -> carried p n (r a) (r a') /\ carried p n (r b) (r b')) -> In x [a'; b'] ->
    (forall (r : string -> V) u, ok r -> context V op_rel g nd tr r -> nary_rel f [r a'; r b'] u -> length (shape u) = n -> length (shape (r x)) = n) ->
    exists g', switch_inputs fi g tr nd (f_attrs nd) (f_attrs tr) = Some g' /\ g' = exchange nd tr (with_in (f_attrs nd) [a'; b'] nd) (with_in (f_attrs tr) [y] tr) y t g /\
      valid g' /\ same_result g g' ok).
  { intros fi a' b' ok Fi Hin Okr Car Hx Rk.
    destruct (switch_equiv_gen op_rel ext rk g tr nd x t y fi (f_attrs nd) (f_attrs tr) p p (fun vi w => nary_rel f vi w) (fun vi w => nary_rel f vi w) ok Okr W T) as (g' & E & Ex & (RK & WR) & S); auto; rewrite ?In_, ?Fi; auto.
    - intros r v Cx Tx H. cbn [map] in *. destruct (Car r Cx Tx) as [C1 C2]. destruct (tr_facts p n P _ _ Tx) as (L1 & L2 & _).
      apply (nary_moves f p n [r a; r b] [r a'; r b'] P); auto.
      + exists (r t). split; auto. change [r a; r b] with (map r [a; b]). now apply in_map.
      + exists (r x). split; auto. change [r a'; r b'] with (map r [a'; b']). now apply in_map.
    - intros r u v Ok Cx H U. cbn [map] in *. destruct (tr_facts p n P _ _ U) as (Lu & Lv & _).
      assert (Lx := Rk r u Ok Cx H Lu). assert (Wx : wf (r x)). { apply (nary_wf [r a'; r b'] u); auto. change [r a'; r b'] with (map r [a'; b']). now apply in_map. }
      destruct (tr_exists p n P (r x) Wx Lx) as [w Hw]. exists w. split; auto. set (r1 := IdentityProofs.upd V r t w).
      assert (Cx1 : context V op_rel g nd tr r1).
      { intros m Hm N1 N2. eapply holds_agree; [exact ext| | |apply (Cx m Hm N1 N2)].
        - intros i Hi. unfold r1. rewrite upd_other; auto. intros ->. apply N1. apply (t_only _ _ _ _ _ _ T); auto.
        - intros i Hi Ni. unfold r1. rewrite upd_other; auto. intros ->. apply N2. apply (out_unique rk g m tr t G Hm Ht Hi); auto. rewrite Out. now left. }
      assert (E1 : r1 x = r x) by (unfold r1; rewrite upd_other; auto). assert (E2 : r1 t = w) by (unfold r1; apply upd_same).
      destruct (Car r1 Cx1) as [C1 C2]; [rewrite E1, E2; exact Hw|].
      assert (E3 : forall i, In i [a'; b'] -> r1 i = r i) by (intros i Hi; unfold r1; rewrite upd_other; auto; intros ->; now apply (Hin t)).
      rewrite (E3 a'), (E3 b') in * by (cbn; auto).
      apply (nary_moves f p n [r1 a; r1 b] [r a'; r b'] P); auto.
      + exists (r1 t). split; [change [r1 a; r1 b] with (map r1 [a; b]); now apply in_map|]. rewrite E2. destruct (tr_facts p n P _ _ Hw) as (_ & ? & _). auto.
      + exists (r x). split; auto. change [r a'; r b'] with (map r [a'; b']). now apply in_map.
      + eauto.
    - exists g'. split; auto. split; [rewrite In_, Fi in Ex; exact Ex|]. split; [exists RK; exact WR|exact S]. }
  assert (Cons : forall w m (r : string -> V), In w [a; b] -> w <> t -> node_of w g = Some m -> context V op_rel g nd tr r -> holds r m).
  { intros w m r Hw Nw Nm Cx. destruct (producer_in w g m Nm) as [Hm Ow]. apply Cx; auto.
    - intros ->. rewrite Oy in Ow. destruct Ow as [<-|[]]. destruct (So y Hw). lia.
    - intros ->. rewrite Out in Ow. destruct Ow as [<-|[]]. congruence. }
  assert (Tcar : forall (r : string -> V), transpose_rel p (r x) (r t) -> carried p n (r t) (r x)) by (intros; now apply carried_transpose).
  assert (Hxin : x <> t /\ rk x < rk y /\ (In x (defs g) \/ In x (fv_graph g))) by (repeat split; auto; lia).
  (* the constant scalar at either side *)
  assert (Scal : forall k w m, In w [a; b] -> w <> t -> (k = 0 /\ a = t /\ b = w \/ k = 1 /\ b = t /\ a = w) -> node_of w g = Some m ->
    (const_shape w = Some [] \/ const_shape w = Some [1]) -> exists g' changed, option_map (fun g' => (g', true)) (switch g tr nd (f_attrs nd) (f_attrs tr)) = Some (g', changed) /\ valid g' /\ same_result g g' ranks).
  { intros k w m Hw Nw Pos Nm Cs. unfold switch. rewrite It, Out, In_.
    assert (Hwin : w <> t /\ rk w < rk y /\ (In w (defs g) \/ In w (fv_graph g))) by (split; auto).
    assert (Sc : forall r : string -> V, context V op_rel g nd tr r -> wf (r w) /\ (shape (r w) = [] \/ (shape (r w) = [1] /\ 2 <= n))).
    { intros r Cx. assert (H := Cons w m r Hw Nw Nm Cx). destruct Cs as [Cs|Cs]; destruct (Const w m _ r Nm Cs H); split; auto. right. split; auto. now apply (Rank1 w). }
    assert (Rk : forall (r : string -> V) u l, context V op_rel g nd tr r -> nary_rel f l u -> length (shape u) = n -> (l = [r x; r w] \/ l = [r w; r x]) -> length (shape (r x)) = n).
    { intros r u l Cx H L El. destruct (Sc r Cx) as [Wc Sc']. destruct (scalar_carried p n (r w) P Wc Sc') as [_ Ls].
      destruct (proj1 (proj2 H) (r x)) as [_ Le]; [destruct El as [-> | ->]; cbn; auto|]. rewrite L in Le. destruct Ls as [Ls|Ls]; [|lia].
      destruct (nary_rank _ _ n H L) as (z & Hz & Lz). assert (z = r x \/ z = r w) by (destruct El as [-> | ->]; cbn in Hz; destruct Hz as [<-|[<-|[]]]; auto). destruct H0 as [-> | ->]; auto. lia. }
    destruct Pos as [(-> & -> & ->)|(-> & -> & ->)]; cbn [input_index]; rewrite ?String.eqb_refl.
    - destruct (Main (put_nth 0 x) x w (fun _ => True)) as (g' & E & _ & V' & S'); [reflexivity| |auto| |cbn; auto| |].
      + intros i [<-|[<-|[]]]; auto.
      + intros r Cx Tx. split; auto. destruct (Sc r Cx). now apply scalar_carried.
      + intros r u _ Cx Hu L. apply (Rk r u [r x; r w]); auto.
      + rewrite E. exists g', true. split; auto. split; auto. intros r0 args res. destruct (S' r0 args res). split; auto.
    - destruct (String.eqb_spec w t) as [|_]; [contradiction|].
      destruct (Main (put_nth 1 x) w x (fun _ => True)) as (g' & E & _ & V' & S'); [reflexivity| |auto| |cbn; auto| |].
      + intros i [<-|[<-|[]]]; auto.
      + intros r Cx Tx. split; auto. destruct (Sc r Cx). now apply scalar_carried.
      + intros r u _ Cx Hu L. apply (Rk r u [r w; r x]); auto.
      + rewrite E. exists g', true. split; auto. split; auto. intros r0 args res. destruct (S' r0 args res). split; auto. }
  (* the other input is a Transpose too *)
  assert (Pair : forall w m z, other_transpose w z m -> (a = t /\ b = w \/ b = t /\ a = w) -> consumers w g = [nd] ->
    exists g' changed, option_map (fun g' => (without_node (f_name m) g', true))
      (switch_inputs (fun ins => put_nth (input_index w [a; b]) z (put_nth (input_index t [a; b]) x ins)) g tr nd (f_attrs nd) (f_attrs tr)) = Some (g', changed) /\ valid g' /\ same_result g g' ranks).
  { intros w m z OT Pos Cw. assert (OT' := OT). destruct OT' as (Hw & Nw & Nm & Om & Pm & Im). destruct (Other w m Hw Nw Nm Om Pm) as (Owm & Ne & Bm & Gw & _).
    destruct (producer_in w g m Nm) as [Hm _]. destruct (So w Hw) as [Rw Dw].
    assert (Rz : rk z < rk w). { apply (g_acyclic _ _ G m); auto; [rewrite fv_node_eq, Im; now left|rewrite Owm; now left]. }
    assert (Zt : z <> t). { intros ->. assert (m = nd); [|subst m; rewrite On in Om; discriminate]. apply (t_only _ _ _ _ _ _ T); auto. rewrite fv_node_eq, Im. now left. }
    assert (Hzin : z <> t /\ rk z < rk y /\ (In z (defs g) \/ In z (fv_graph g))). { split; auto. split; [lia|]. apply (used_defs_or_free g m); auto. rewrite fv_node_eq, Im. now left. }
    assert (Hol : forall r : string -> V, holds r m <-> transpose_rel p (r z) (r w)).
    { intro r. assert (K := perm_of_spec m p Pm). destruct m as [b1 b2 b3 b4 b5 b6 b7]. cbn [f_in f_out f_bodies f_op f_attrs] in *. subst b2 b5 b6 b7. rewrite (SwitchProofs3.holds_one op_rel "Transpose" _ _ _ _ _ _ _ _ Ne MT), K. cbn [map]. tauto. }
    assert (Zc : forall r : string -> V, context V op_rel g nd tr r -> carried p n (r w) (r z)). { intros r Cx. apply carried_transpose; auto. apply Hol. now apply (Cons w). }
    assert (Okr : forall (r : string -> V) v, ranks r -> ranks (IdentityProofs.upd V r y v)).
    { intros r v H w' z' m' OT2. specialize (H w' z' m' OT2). destruct OT2 as (Hw' & Nw' & Nm' & Om' & Pm' & Im'). destruct (producer_in w' g m' Nm') as [Hm' Ow'].
      assert (z' <> y). { intros ->. assert (K : rk y < rk w'). { destruct (Other w' m' Hw' Nw' Nm' Om' Pm') as (Owm' & Ne' & _). apply (g_acyclic _ _ G m'); auto. rewrite fv_node_eq, Im'. now left. } destruct (So w' Hw'). lia. }
      rewrite !upd_other; auto. }
    assert (Step : exists g1, switch_inputs (fun ins => put_nth (input_index w [a; b]) z (put_nth (input_index t [a; b]) x ins)) g tr nd (f_attrs nd) (f_attrs tr) = Some g1 /\
      (exists a' b', (a' = x /\ b' = z \/ a' = z /\ b' = x) /\ g1 = exchange nd tr (with_in (f_attrs nd) [a'; b'] nd) (with_in (f_attrs tr) [y] tr) y t g) /\ valid g1 /\ same_result g g1 ranks).
    { destruct Pos as [[-> ->]|[-> ->]].
      - cbn [input_index]. rewrite !String.eqb_refl. destruct (String.eqb_spec t w) as [|_]; [congruence|].
        destruct (Main (fun ins => put_nth 1 z (put_nth 0 x ins)) x z ranks) as (g' & E & Ex & V' & S'); [reflexivity| |auto| |cbn; auto| |].
        + intros i [<-|[<-|[]]]; auto.
        + intros r Cx Tx. split; auto.
        + intros r u Ok _ _ _. now destruct (Ok w z m OT).
        + exists g'. split; auto. split; auto. exists x, z. auto.
      - cbn [input_index]. rewrite !String.eqb_refl. destruct (String.eqb_spec w t) as [|_]; [congruence|].
        destruct (Main (fun ins => put_nth 0 z (put_nth 1 x ins)) z x ranks) as (g' & E & Ex & V' & S'); [reflexivity| |auto| |cbn; auto| |].
        + intros i [<-|[<-|[]]]; auto.
        + intros r Cx Tx. split; auto.
        + intros r u Ok _ _ _. now destruct (Ok w z m OT).
        + exists g'. split; auto. split; auto. exists z, x. auto. }
    destruct Step as (g1 & E & (a' & b' & Ab & Ex) & [RK W1] & S1). rewrite E. cbn [option_map].
    assert (Nmn : m <> nd /\ m <> tr). { split; [intros ->; rewrite On in Om; discriminate|]. intros ->. rewrite Owm in Out. injection Out as ->. congruence. }
    assert (Nam : forall k k', In k (f_nodes g) -> In k' (f_nodes g) -> f_name k = f_name k' -> k = k') by (intros k k' Hk Hk' E'; apply (names_unique rk g k k' G); auto).
    assert (Ry : ~ In y (f_in m)). { rewrite Im. intros [<-|[]]. lia. }
    assert (Hm1 : In m (f_nodes g1)).
    { rewrite Ex. cbn [exchange f_nodes]. apply in_map_iff. exists m. split; auto. unfold exchange_node.
      destruct (String.eqb_spec (f_name m) (f_name nd)) as [K|_]; [apply Nam in K; tauto|]. destruct (String.eqb_spec (f_name m) (f_name tr)) as [K|_]; [apply Nam in K; tauto|].
      destruct m as [b1 b2 b3 b4 b5 b6 b7]. cbn [f_bodies f_in] in *. subst b7. now apply subst_node_id. }
    assert (Wz : w <> z) by (intros ->; lia). assert (Wx : w <> x). { intros ->. assert (K : tr = nd). { apply (single_consumer rk g m nd x y); auto. rewrite fv_node_eq, It. now left. } rewrite K, On in Ot. discriminate. }
    assert (Wy : w <> y) by (intros ->; lia).
    assert (Un : forall k, In k (f_nodes g1) -> k <> m -> ~ In w (fv_node k)).
    { intros k Hk Nk. rewrite Ex in Hk. cbn [exchange f_nodes] in Hk. apply in_map_iff in Hk. destruct Hk as (k0 & <- & Hk0). unfold exchange_node.
      destruct (String.eqb_spec (f_name k0) (f_name nd)) as [K|K].
      { rewrite fv_with_in by auto. destruct Ab as [[-> ->]|[-> ->]]; cbn; intuition congruence. }
      destruct (String.eqb_spec (f_name k0) (f_name tr)) as [K'|K'].
      { rewrite fv_with_in by auto. cbn. intuition congruence. }
      intro Kw. assert (Kw' : In w (fv_node k0)).
      { destruct (proj1 (fv_subst_ind y t ltac:(intros ->; lia) Ny) k0 (WW_closed rk g k0 W Hk0) w Kw) as [_ [Kt|Kv]]; [congruence|exact Kv]. }
      apply K. f_equal. apply (single_consumer rk g m nd w y); auto. }
    destruct (drop_call V op_rel ext RK g1 m w W1 Hm1 Owm Ne Un) as [W2 D2]. { rewrite Ex. exact Gw. }
    exists (without_node (f_name m) g1), true. split; auto. split; [exists RK; exact W2|]. intros r0 args res. destruct (S1 r0 args res) as [F1 F2]. destruct (D2 r0 args) as [D3 D4]. destruct (D4 res) as [D5 D6]. split; [auto|].
    intros Ok H. apply F2.
    - intros r Hr. assert (K := Ok _ (D3 r Hr)). intros w' z' m' OT2. specialize (K w' z' m' OT2).
      assert (w' = w). { destruct OT2 as (Hw' & Nw' & _). destruct Pos as [[-> ->]|[-> ->]]; cbn in Hw'; intuition congruence. } subst w'.
      assert (m' = m) by (destruct OT2 as (_ & _ & Nm' & _); congruence). subst m'. assert (z' = z) by (destruct OT2 as (_ & _ & _ & _ & _ & Im'); congruence). subst z'.
      rewrite !upd_other in K; auto.
    - apply D6; auto. intros r Hr. destruct (Ok r Hr w z m OT) as (_ & Wz' & Lz). destruct (tr_exists p n P (r z) Wz' Lz) as [v Hv]. exists v. apply Hol. rewrite upd_same, upd_other; auto. }
  assert (Two : forall w, In w [a; b] -> w <> t -> (a = t /\ b = w \/ b = t /\ a = w)).
  { intros w Hw Nw. cbn in Hw, Rd. destruct Rd as [<-|[<-|[]]]; destruct Hw as [<-|[<-|[]]]; auto; congruence. }
  assert (Fin : forall w k, In w [a; b] -> w <> t -> k = input_index w [a; b] -> exists g' changed,
    match node_of w g with
    | None => Some (g, false)
    | Some m => if String.eqb (f_op m) "Transpose" && perm_is (perm_of tr) m
        then match consumers w g, f_in m with
             | [_], z :: _ => option_map (fun g' => (without_node (f_name m) g', true)) (switch_inputs (fun ins => put_nth k z (put_nth (input_index t [a; b]) x ins)) g tr nd (f_attrs nd) (f_attrs tr))
             | _, _ => Some (g, false) end
        else match const_shape w with
             | Some [] | Some [1] => option_map (fun g' => (g', true)) (switch g tr nd (f_attrs nd) (f_attrs tr))
             | _ => Some (g, false) end end = Some (g', changed) /\ valid g' /\ same_result g g' ranks).
  { intros w k Hw Nw ->. destruct (node_of w g) as [m|] eqn:Nm; [|exact Id].
    destruct (String.eqb_spec (f_op m) "Transpose") as [Om|Om]; cbn [andb].
    - destruct (perm_is (perm_of tr) m) eqn:Pi.
      + assert (Pm : perm_of m = Some p). { unfold perm_is in Pi. rewrite Ep in Pi. destruct (perm_of m) as [q|]; [|discriminate]. destruct (list_eq_dec Nat.eq_dec p q); congruence. }
        destruct (Other w m Hw Nw Nm Om Pm) as (Owm & Ne & Bm & Gw & z & Im). rewrite Im.
        destruct (consumers w g) as [|c [|c2 cs]] eqn:Cw; try exact Id.
        assert (c = nd).
        { destruct (producer_in w g m Nm) as [Hm _]. destruct (proj1 (consumers_some w) nd) as (c' & K1 & K2).
          - apply (WW_closed rk g nd W Hn).
          - rewrite fv_node_eq, In_. apply in_app_iff. auto.
          - intros h bd Hb. rewrite Bn in Hb. destruct Hb.
          - assert (Hc : In c' (consumers w g)). { destruct g as [ns gi go]. cbn [consumers]. apply in_concat. exists (consumers_node w nd). split; auto. now apply in_map. }
            rewrite Cw in Hc. destruct Hc as [<-|[]]. destruct K2 as [K2|(bd & h & Hb & _)]; auto. rewrite Bn in Hb. destruct Hb. }
        subst c. apply (Pair w m z); auto. repeat split; auto.
      + destruct (const_shape w) as [[|[|[|k]] [|]]|] eqn:Cs; try exact Id; destruct (Two w Hw Nw) as [Q|Q]; [apply (Scal 0 w m)|apply (Scal 1 w m)|apply (Scal 0 w m)|apply (Scal 1 w m)]; auto.
    - destruct (const_shape w) as [[|[|[|k]] [|]]|] eqn:Cs; try exact Id; destruct (Two w Hw Nw) as [Q|Q]; [apply (Scal 0 w m)|apply (Scal 1 w m)|apply (Scal 0 w m)|apply (Scal 1 w m)]; auto. }
  destruct (String.eqb_spec b t) as [Eb|Eb].
  - destruct (String.eqb_spec a t) as [Ea|Ea].
    + destruct (Main (fun ins => put_nth 1 x (put_nth 0 x ins)) x x (fun _ => True)) as (g' & E & _ & V' & S'); [reflexivity| |auto| |cbn; auto| |].
      * intros i [<-|[<-|[]]]; auto.
      * intros r Cx Tx. rewrite Ea, Eb. split; auto.
      * intros r u _ _ H L. destruct (nary_rank _ _ n H L) as (z & Hz & Lz). cbn in Hz. destruct Hz as [<-|[<-|[]]]; auto.
      * rewrite E. exists g', true. split; auto. split; auto. intros r0 args res. destruct (S' r0 args res). split; auto.
    + apply Fin; cbn; auto.
  - apply Fin; cbn; auto.
Qed.
End Mul.

Section Useless.
Context {A : Type}.
Notation V := (tensor A).
Variable op_rel : string -> string -> list (string * attr) -> nat -> list V -> list (list V -> list V -> Prop) -> list V -> Prop.
Hypothesis ext : op_ext op_rel.
Hypothesis MT : means op_rel "Transpose" (fun at_ ws v w => ws = [] /\ transpose_rel (map Z.to_nat (ints_attr "perm" at_ [])) v w).
Notation holds := (holds op_rel). Notation body_rel := (body_rel op_rel). Notation executes := (executes op_rel).
Lemma remove_useless_ok g tr x t p : valid g -> In tr (f_nodes g) -> f_in tr = [x] -> f_out tr = [t] -> f_bodies tr = [] -> t <> "" -> x <> "" -> perm_of tr = Some p ->
  is_useless tr = true -> ~ In t (f_outs g) ->
  exists g', remove_useless g tr = Some g' /\ valid g' /\ same_result op_rel g g' (fun r => wf (r x) /\ length (shape (r x)) = length p).
Proof.
  intros [rk W] Ht It Out Bt Nt Nx Ep Us Go. assert (G := W g (within_refl g)). unfold is_useless in Us. rewrite Ep in Us.
  destruct (String.eqb_spec (f_op tr) "Transpose") as [Ot|]; [|discriminate]. cbn [andb] in Us. destruct (list_eq_dec Nat.eq_dec p (seq 0 (length p))) as [Es|]; [|discriminate]. clear Us.
  assert (Rx : rk x < rk t). { apply (g_acyclic _ _ G tr); auto; [rewrite fv_node_eq, It; now left|rewrite Out; now left]. }
  assert (Xt : t <> x) by (intros ->; lia).
  assert (Dt : In t (defs g)) by (apply in_defs; split; auto; right; exists tr; rewrite Out; split; auto; now left).
  assert (Dx : In x (defs g) \/ In x (fv_graph g)). { apply (used_defs_or_free g tr); auto. rewrite fv_node_eq, It. now left. }
  destruct (bypass_valid rk g t x W Xt Nt Nx Dt Dx) as (Er & W1 & F1 & U1); [lia|].
  unfold remove_useless. rewrite It, Out, Er. cbn [option_map].
  assert (Hol : forall r : string -> V, holds r tr <-> transpose_rel p (r x) (r t)).
  { intro r. assert (K := perm_of_spec tr p Ep). destruct tr as [b1 b2 b3 b4 b5 b6 b7]. cbn [f_in f_out f_bodies f_op f_attrs] in *. subst b2 b5 b6 b7. rewrite (SwitchProofs3.holds_one op_rel "Transpose" _ _ _ _ _ _ _ _ Nt MT), K. cbn [map]. tauto. }
  assert (Sem : forall r : string -> V, holds r tr -> r t = r x).
  { intros r H. apply Hol in H. assert (L : length (shape (r x)) = length p) by (destruct H as (K & _); apply Permutation_length in K; rewrite seq_length in K; auto).
    rewrite Es, <- L in H. now apply transpose_id in H. }
  assert (Eg : subst_graph t x g = FGraph (map (subst_node t x) (f_nodes g)) (f_ins g) (f_outs g)) by (destruct g; reflexivity).
  assert (Ht1 : In tr (f_nodes (subst_graph t x g))).
  { rewrite Eg. cbn [f_nodes]. apply in_map_iff. exists tr. split; auto. destruct tr as [b1 b2 b3 b4 b5 b6 b7]. cbn [f_bodies f_in] in *. subst b5 b7. apply subst_node_id. intros [K|[]]. congruence. }
  assert (E1 : equiv op_rel g (subst_graph t x g)).
  { apply (subst_equiv V op_rel ext t x g rk W); auto; intros r H; apply Sem; apply H; auto. }
  rewrite Eg in *. set (g1 := FGraph (map (subst_node t x) (f_nodes g)) (f_ins g) (f_outs g)) in *.
  destruct (drop_call V op_rel ext rk g1 tr t W1 Ht1 Out Nt) as [W2 D2]; auto.
  { intros m Hm _ K. destruct (U1 m t Hm K) as [K' _]. congruence. }
  exists (without_node (f_name tr) g1). split; auto. split; [exists rk; exact W2|]. intros r0 args res. destruct (D2 r0 args) as [_ D3]. destruct (D3 res) as [D4 D5]. split.
  - intro B. apply D4. now apply E1.
  - intros Ok B. apply E1. apply D5; auto. intros r Hr. destruct (Ok r Hr) as [Wx Lx]. exists (r x). apply Hol. rewrite upd_same, upd_other by auto.
    rewrite Es, <- Lx. destruct (transpose_exists (seq 0 (length (shape (r x)))) (r x)) as [v Hv]; auto; [apply Permutation_refl|].
    assert (K := transpose_id _ _ Hv). subst v. exact Hv.
Qed.
End Useless.
