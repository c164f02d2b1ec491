(** The optimizer's step on a graph. *)
From Coq Require Import String List Arith ZArith Bool Lia Permutation.
From Verif Require Import FGraph FGraphSpec FGraphProofs IdentityModel IdentityProofs ApplyOptProofs RewriteProofs.
From Verif Require Import Tensor OnnxSpec FoldModel NNModel PushSpec PushModel SwitchModel SwitchSpec SwitchProofs SwitchProofs2.
Import ListNotations.
Local Open Scope string_scope.
Local Open Scope list_scope.

(** tr: Transpose(x) = t, read by nd = y only *)
Record transposed (g : fgraph) (tr nd : fnode) (x t y : string) : Prop := {
  t_tr : In tr (f_nodes g); t_nd : In nd (f_nodes g);
  t_op : f_op tr = "Transpose"; t_in : f_in tr = [x]; t_out : f_out tr = [t]; t_reads : In t (f_in nd); t_nout : f_out nd = [y];
  t_bodies : f_bodies tr = [] /\ f_bodies nd = []; t_named : t <> "" /\ y <> "";
  t_only : forall m, In m (f_nodes g) -> In t (fv_node m) -> m = nd;
  t_go : ~ In t (f_outs g) /\ ~ In y (f_outs g) }.
Definition with_in (at_ : list (string * attr)) (ins : list string) (n : fnode) : fnode :=
  match n with FNode nm op dom _ _ outs bodies => FNode nm op dom at_ ins outs bodies end.

Section Switch.
Variables (rk : string -> nat) (g : fgraph) (tr nd : fnode) (x t y : string) (fi : list string -> list string) (at_nd at_tr : list (string * attr)).
Hypothesis W : WW rk g.
Hypothesis T : transposed g tr nd x t y.
Hypothesis Hin : forall i, In i (fi (f_in nd)) -> i <> t /\ rk i < rk y /\ (In i (defs g) \/ In i (fv_graph g)).
Let nd' := with_in at_nd (fi (f_in nd)) nd.
Let tr' := with_in at_tr [y] tr.
Let G : good rk g := W g (within_refl g).
Lemma switch_ranks : rk x < rk t /\ rk t < rk y.
Proof.
  assert (Rt : In t (fv_node nd)) by (rewrite fv_node_eq; apply in_app_iff; left; apply (t_reads _ _ _ _ _ _ T)).
  assert (Rx : In x (fv_node tr)) by (rewrite fv_node_eq, (t_in _ _ _ _ _ _ T); apply in_app_iff; left; now left).
  destruct (t_named _ _ _ _ _ _ T) as [Nt Ny]. split.
  - apply (g_acyclic _ _ G tr); auto; [apply (t_tr _ _ _ _ _ _ T)|rewrite (t_out _ _ _ _ _ _ T); now left].
  - apply (g_acyclic _ _ G nd); auto; [apply (t_nd _ _ _ _ _ _ T)|rewrite (t_nout _ _ _ _ _ _ T); now left].
Qed.
Lemma switch_source : In x (defs g) \/ In x (fv_graph g).
Proof. apply (used_defs_or_free g tr); [apply (t_tr _ _ _ _ _ _ T)|]. rewrite fv_node_eq, (t_in _ _ _ _ _ _ T). now left. Qed.
Lemma switch_other i : In i (f_in nd) -> rk i < rk y /\ (In i (defs g) \/ In i (fv_graph g)).
Proof.
  intro Hi. assert (Ri : In i (fv_node nd)) by (rewrite fv_node_eq; apply in_app_iff; now left). destruct (t_named _ _ _ _ _ _ T) as [Nt Ny]. split.
  - apply (g_acyclic _ _ G nd); auto; [apply (t_nd _ _ _ _ _ _ T)|rewrite (t_nout _ _ _ _ _ _ T); now left].
  - apply (used_defs_or_free g nd); auto. apply (t_nd _ _ _ _ _ _ T).
Qed.
Lemma switch_exchangeable : exchangeable rk g nd tr nd' tr' y t.
Proof.
  destruct (t_named _ _ _ _ _ _ T) as [Nt Ny]. destruct (t_bodies _ _ _ _ _ _ T) as [Bt Bn].
  constructor; auto; try apply T.
  - destruct (t_go _ _ _ _ _ _ T). auto.
  - unfold nd', tr'. destruct nd, tr. cbn in *. auto.
  - unfold nd', tr'. destruct nd, tr. cbn in *. auto.
  - assert (A := t_nout _ _ _ _ _ _ T). assert (B := t_out _ _ _ _ _ _ T). unfold nd', tr'. destruct nd, tr. cbn in *. auto.
  - unfold tr'. destruct tr. reflexivity.
  - intros i Hi. apply Hin. unfold nd' in Hi. destruct nd. exact Hi.
Qed.
Lemma rewire_id a b (at1 at2 : list (string * attr)) : forall k,
  (forall n, ~ In a (alldefs_node n) -> ~ In b (alldefs_node n) -> a <> "" -> b <> "" -> rewire k a b at1 at2 n = n) /\
  (forall g, ~ In a (alldefs g) -> ~ In b (alldefs g) -> a <> "" -> b <> "" -> rewire_graph k a b at1 at2 g = g).
Proof.
  intro z. apply fnode_fgraph_ind.
  - intros nm op dom at_ ins outs bodies IH Ha Hb Na Nb. cbn [rewire].
    assert (K : forall c, c <> "" -> ~ In c (alldefs_node (FNode nm op dom at_ ins outs bodies)) -> mem c outs = false /\ forall bd, In bd bodies -> ~ In c (alldefs bd)).
    { intros c Nc Hc. rewrite alldefs_in_node in Hc. cbn [f_out f_bodies] in Hc. split; [apply mem_false; tauto|]. intros bd Hbd Hc'. apply Hc. right. eauto. }
    destruct (K a Na Ha) as [-> Ka]. destruct (K b Nb Hb) as [-> Kb]. f_equal. rewrite <- (map_id bodies) at 2. apply map_ext_in. intros bd Hbd. apply IH; auto.
  - intros ns gi go IH Ha Hb Na Nb. cbn [rewire_graph]. f_equal. rewrite <- (map_id ns) at 2. apply map_ext_in. intros n Hn. apply IH; auto.
    + intro K. apply Ha. apply alldefs_in. right. eauto.
    + intro K. apply Hb. apply alldefs_in. right. eauto.
Qed.
Lemma no_circle n : In n (f_nodes g) -> circ_node y t n = false.
Proof.
  intro Hn. assert (X := switch_exchangeable). destruct (t_named _ _ _ _ _ _ T) as [Nt Ny].
  assert (K : (forall m, ~ In t (alldefs_node m) -> circ_node y t m = false) /\ (forall h, ~ In t (alldefs h) -> circ_graph y t h = false)).
  { apply fnode_fgraph_ind.
    - intros nm op dom at_ ins outs bodies IH H. cbn [circ_node]. rewrite alldefs_in_node in H. cbn [f_out f_bodies] in H. assert (M : mem t outs = false) by (apply mem_false; tauto). rewrite M, andb_false_r. cbn [orb].
      apply not_true_is_false. intro E. apply existsb_exists in E. destruct E as (bd & Hbd & E). rewrite IH in E; auto; [discriminate|]. intro K. apply H. right. eauto.
    - intros ns gi go IH H. cbn [circ_graph]. apply not_true_is_false. intro E. apply existsb_exists in E. destruct E as (m & Hm & E). rewrite IH in E; auto; [discriminate|]. intro K. apply H. apply alldefs_in. right. eauto. }
  destruct (string_dec (f_name n) (f_name tr)) as [E|E].
  - assert (n = tr) by (apply (same_name _ _ _ _ _ _ _ _ X); auto; apply (t_tr _ _ _ _ _ _ T)). subst n.
    assert (A := t_in _ _ _ _ _ _ T). assert (B := proj1 (t_bodies _ _ _ _ _ _ T)). assert (R := x_rank _ _ _ _ _ _ _ _ X). clear K E.
    assert (R2 : rk x < rk t). { apply (g_acyclic _ _ G tr); auto; [rewrite fv_node_eq, A; now left|rewrite (t_out _ _ _ _ _ _ T); now left]. }
    destruct tr as [a1 a2 a3 a4 a5 a6 a7]. cbn [f_in f_bodies] in A, B. subst a5 a7. cbn [circ_node existsb]. rewrite orb_false_r.
    assert (M : mem y [x] = false). { apply mem_false. intros [->|[]]. lia. } now rewrite M.
  - apply K. rewrite alldefs_in_node. intros [[H _]|(bd & Hbd & H)].
    + destruct (string_dec (f_name n) (f_name nd)) as [E'|E'].
      * assert (n = nd) by (apply (same_name _ _ _ _ _ _ _ _ X); auto; apply (t_nd _ _ _ _ _ _ T)). subst n. rewrite (t_nout _ _ _ _ _ _ T) in H. destruct H as [H|[]]. apply (x_neq _ _ _ _ _ _ _ _ X). auto.
      * destruct (other_out _ _ _ _ _ _ _ _ X n t); auto; congruence.
    + destruct (x_nested _ _ _ _ _ _ _ _ X n bd Hn Hbd) as (_ & K2 & _). contradiction.
Qed.
Lemma switch_is_exchange : switch_inputs fi g tr nd at_nd at_tr = Some (exchange nd tr nd' tr' y t g).
Proof.
  assert (X := switch_exchangeable). destruct (t_named _ _ _ _ _ _ T) as [Nt Ny]. assert (NE := x_neq _ _ _ _ _ _ _ _ X). assert (DN := x_diff _ _ _ _ _ _ _ _ X).
  unfold switch_inputs. rewrite (t_nout _ _ _ _ _ _ T), (t_out _ _ _ _ _ _ T).
  unfold replace_all. destruct (String.eqb_spec y t) as [|_]; [congruence|].
  assert (C : existsb (circ_node y t) (f_nodes g) = false). { apply not_true_is_false. intro E. apply existsb_exists in E. destruct E as (m & Hm & E). rewrite no_circle in E; auto. discriminate. }
  rewrite C. unfold exchange. cbn [rewire_graph f_ins f_outs]. f_equal. f_equal. rewrite map_map. apply map_ext_in. intros m Hm. unfold exchange_node.
  destruct (String.eqb_spec (f_name m) (f_name nd)) as [E|E].
  - assert (m = nd) by (apply (same_name _ _ _ _ _ _ _ _ X); auto; apply (t_nd _ _ _ _ _ _ T)). subst m.
    assert (Iy : ~ In y (f_in nd)). { intro K. assert (R := g_acyclic _ _ G nd y y Hm). rewrite fv_node_eq in R. specialize (R (proj2 (in_app_iff _ _ _) (or_introl K))). rewrite (t_nout _ _ _ _ _ _ T) in R. specialize (R (or_introl eq_refl) Ny). lia. }
    assert (A2 := t_nout _ _ _ _ _ _ T). assert (A3 := proj2 (t_bodies _ _ _ _ _ _ T)). unfold nd'. clear - A2 A3 Iy.
    destruct nd as [a1 a2 a3 a4 a5 a6 a7]. cbn [f_in f_out f_bodies with_in] in *. subst a6 a7. cbn [subst_node rewire map mem existsb]. rewrite String.eqb_refl. cbn [orb]. rewrite map_sub_id by auto. reflexivity.
  - destruct (String.eqb_spec (f_name m) (f_name tr)) as [E'|E'].
    + assert (m = tr) by (apply (same_name _ _ _ _ _ _ _ _ X); auto; apply (t_tr _ _ _ _ _ _ T)). subst m.
      assert (A1 := t_in _ _ _ _ _ _ T). assert (A2 := t_out _ _ _ _ _ _ T). assert (A3 := proj1 (t_bodies _ _ _ _ _ _ T)). unfold tr'. clear - A1 A2 A3 NE.
      destruct tr as [a1 a2 a3 a4 a5 a6 a7]. cbn [f_in f_out f_bodies with_in] in *. subst a5 a6 a7. cbn [subst_node rewire map mem existsb put_nth]. destruct (String.eqb_spec y t); [congruence|]. rewrite String.eqb_refl. reflexivity.
    + apply rewire_id; auto; rewrite (proj1 (alldefs_subst y t)), alldefs_in_node; intros [[H N]|(bd & Hbd & H)].
      * destruct (other_out _ _ _ _ _ _ _ _ X m t); auto; congruence.
      * destruct (x_nested _ _ _ _ _ _ _ _ X m bd Hm Hbd) as (_ & K2 & _). contradiction.
      * destruct (other_out _ _ _ _ _ _ _ _ X m y); auto; congruence.
      * destruct (x_nested _ _ _ _ _ _ _ _ X m bd Hm Hbd) as (K1 & _ & _). contradiction.
Qed.
End Switch.

Section Meaning.
Context {A : Type}.
Notation V := (tensor A).
Variable op_rel : string -> string -> list (string * attr) -> nat -> list V -> list (list V -> list V -> Prop) -> list V -> Prop.
Hypothesis ext : op_ext op_rel.
Notation holds := (holds op_rel).
Lemma holds_one op rel (r : string -> V) nm dom at_ i ws o : o <> "" -> means op_rel op rel ->
  (holds r (FNode nm op dom at_ (i :: ws) [o] []) <-> rel at_ (map r ws) (r i) (r o)).
Proof.
  intros No M. rewrite holds_eq. cbn [f_op f_dom f_attrs f_out f_in f_bodies length map]. split.
  - intros (vs & H & Pr). apply M in H. destruct H as (w & -> & H). specialize (Pr 0 o eq_refl No). cbn in Pr. inversion Pr. congruence.
  - intro H. exists [r o]. split; [apply M; eauto|]. intros [|k] o' E _; cbn in *; [now inversion E|destruct k; discriminate].
Qed.
Lemma switch_equiv_gen rk g tr nd x t y fi at_nd at_tr p q (Rb Ra : list V -> V -> Prop) (ok : (string -> V) -> Prop) : (forall r v, ok r -> ok (IdentityProofs.upd V r y v)) -> WW rk g -> transposed g tr nd x t y ->
  (forall i, In i (fi (f_in nd)) -> i <> t /\ rk i < rk y /\ (In i (defs g) \/ In i (fv_graph g))) ->
  means op_rel "Transpose" (fun at_ ws v w => ws = [] /\ transpose_rel (map Z.to_nat (ints_attr "perm" at_ [])) v w) ->
  map Z.to_nat (ints_attr "perm" (f_attrs tr) []) = p -> map Z.to_nat (ints_attr "perm" at_tr []) = q ->
  (forall vi vs, length vi = length (f_in nd) -> (op_rel (f_op nd) (f_dom nd) (f_attrs nd) 1 vi [] vs <-> exists w, vs = [w] /\ Rb vi w)) ->
  (forall vi vs, length vi = length (fi (f_in nd)) -> (op_rel (f_op nd) (f_dom nd) at_nd 1 vi [] vs <-> exists w, vs = [w] /\ Ra vi w)) ->
  (forall r v, context V op_rel g nd tr r -> transpose_rel p (r x) (r t) -> Rb (map r (f_in nd)) v -> exists u, Ra (map r (fi (f_in nd))) u /\ transpose_rel q u v) ->
  (forall r u v, ok r -> context V op_rel g nd tr r -> Ra (map r (fi (f_in nd))) u -> transpose_rel q u v ->
     exists w, transpose_rel p (r x) w /\ Rb (map (IdentityProofs.upd V r t w) (f_in nd)) v) ->
  exists g', switch_inputs fi g tr nd at_nd at_tr = Some g' /\ g' = exchange nd tr (with_in at_nd (fi (f_in nd)) nd) (with_in at_tr [y] tr) y t g /\ (exists RK, WW RK g') /\
    forall r0 args res, (body_rel op_rel r0 g args res -> body_rel op_rel r0 g' args res) /\ ((forall r, executes op_rel g' r0 args r -> ok r) -> body_rel op_rel r0 g' args res -> body_rel op_rel r0 g args res).
Proof.
  intros Okr W T Hin MT Ep Eq Mb Ma Fw Bw. assert (X := switch_exchangeable rk g tr nd x t y fi at_nd at_tr W T Hin).
  eexists. split; [apply (switch_is_exchange rk g tr nd x t y fi at_nd at_tr W T Hin)|]. split; [reflexivity|].
  split. { destruct (exchange_valid _ _ _ _ _ _ _ _ X) as (RK & WR & _). eauto. }
  destruct (t_named _ _ _ _ _ _ T) as [Nt Ny]. assert (NE := x_neq _ _ _ _ _ _ _ _ X).
  destruct (switch_ranks rk g tr nd x t y W T) as [Rx Rt].
  assert (Xt : x <> t) by (intros ->; lia). assert (Xy : x <> y) by (intros ->; lia).
  assert (Oy : forall i, In i (f_in nd) -> i <> y). { intros i Hi ->. destruct (switch_other rk g tr nd x t y W T y Hi). lia. }
  assert (On : forall i, In i (fi (f_in nd)) -> i <> t /\ i <> y). { intros i Hi. destruct (Hin i Hi) as (? & ? & _). split; auto. intros ->. lia. }
  assert (N2 := t_nout _ _ _ _ _ _ T). assert (N3 := proj2 (t_bodies _ _ _ _ _ _ T)).
  assert (T0 := t_op _ _ _ _ _ _ T). assert (T1 := t_in _ _ _ _ _ _ T). assert (T2 := t_out _ _ _ _ _ _ T). assert (T3 := proj1 (t_bodies _ _ _ _ _ _ T)).
  assert (H1 : forall (r : string -> V) m R, f_out m = [y] -> f_bodies m = [] -> (forall vi vs, length vi = length (f_in m) -> (op_rel (f_op m) (f_dom m) (f_attrs m) 1 vi [] vs <-> exists w, vs = [w] /\ R vi w)) ->
    (holds r m <-> R (map r (f_in m)) (r y))).
  { intros r m R O B M. rewrite holds_eq, O, B. cbn [map length]. specialize (M (map r (f_in m))). split.
    - intros (vs & H & Pr). apply M in H; [|now rewrite map_length]. destruct H as (w & -> & H). specialize (Pr 0 y eq_refl Ny). cbn in Pr. inversion Pr. congruence.
    - intro H. exists [r y]. split; [apply M; [now rewrite map_length|eauto]|]. intros [|k] o' E _; cbn in *; [now inversion E|destruct k; discriminate]. }
  assert (Hnd : forall r : string -> V, holds r nd <-> Rb (map r (f_in nd)) (r y)) by (intro r; apply H1; auto).
  assert (Hnd' : forall r : string -> V, holds r (with_in at_nd (fi (f_in nd)) nd) <-> Ra (map r (fi (f_in nd))) (r y)).
  { intro r. rewrite (H1 r (with_in at_nd (fi (f_in nd)) nd) Ra); [|destruct nd; exact N2|destruct nd; exact N3|destruct nd; exact Ma]. destruct nd. reflexivity. }
  assert (Htr : forall r : string -> V, holds r tr <-> transpose_rel p (r x) (r t)).
  { intro r. clear - Nt T0 T1 T2 T3 Ep MT. destruct tr as [b1 b2 b3 b4 b5 b6 b7]. cbn [f_in f_out f_bodies f_op f_attrs] in *. subst b2 b5 b6 b7. rewrite (holds_one "Transpose" _ _ _ _ _ _ _ _ Nt MT), Ep. cbn [map]. tauto. }
  assert (Htr' : forall r : string -> V, holds r (with_in at_tr [y] tr) <-> transpose_rel q (r y) (r t)).
  { intro r. clear - Nt T0 T1 T2 T3 Eq MT. destruct tr as [b1 b2 b3 b4 b5 b6 b7]. cbn [f_in f_out f_bodies f_op f_attrs with_in] in *. subst b2 b5 b6 b7. rewrite (holds_one "Transpose" _ _ _ _ _ _ _ _ Nt MT), Eq. cbn [map]. tauto. }
  intros r0 args res.
  match goal with |- context [exchange nd tr ?a ?b y t g] => destruct (exchange_call (tensor A) op_rel ext rk g nd tr a b y t X) with (ok := ok) (r0 := r0) (args := args) (res := res) as [K1 K2] end.
  3:{ split; [exact K1|]. intros Ok. apply K2. intros r A1 A2 A3. apply Ok. repeat split; auto. }
  - intros r C Hn Ht. apply Hnd in Hn. apply Htr in Ht. destruct (Fw r (r y) C Ht Hn) as (u & U1 & U2). exists u.
    set (r' := IdentityProofs.upd (tensor A) (IdentityProofs.upd (tensor A) r t (r y)) y u).
    assert (Ey : r' y = u) by (unfold r'; apply upd_same). assert (Et : r' t = r y) by (unfold r'; rewrite upd_other, upd_same; auto).
    assert (Ew : map r' (fi (f_in nd)) = map r (fi (f_in nd))). { apply map_ext_in. intros w Hw. destruct (On w Hw). unfold r'. rewrite !upd_other; auto. }
    split; [apply Hnd'; now rewrite Ew, Ey|]. apply Htr'. now rewrite Ey, Et.
  - intros r Or C Hn Ht. apply Hnd' in Hn. apply Htr' in Ht. set (r1 := IdentityProofs.upd V r y (r t)) in *.
    assert (E1 : map r1 (fi (f_in nd)) = map r (fi (f_in nd))). { apply map_ext_in. intros w Hw. destruct (On w Hw). unfold r1. rewrite upd_other; auto. }
    destruct (Bw r1 (r y) (r t) (Okr r (r t) Or) C) as (w & U1 & U2); [now rewrite E1|exact Ht|]. exists w.
    set (r' := IdentityProofs.upd (tensor A) r1 t w) in *.
    assert (Ex : r' x = r x) by (unfold r', r1; rewrite !upd_other; auto). assert (Et : r' t = w) by (unfold r'; apply upd_same).
    assert (Ey : r' y = r t) by (unfold r', r1; rewrite upd_other, upd_same; auto).
    split; [apply Hnd; now rewrite Ey|]. apply Htr. rewrite Ex, Et. unfold r1 in U1. rewrite upd_other in U1; auto.
Qed.
Lemma switch_equiv rk g tr nd x t y ws at_nd at_tr p q rel : WW rk g -> transposed g tr nd x t y -> f_in nd = t :: ws -> ~ In t ws ->
  means op_rel "Transpose" (fun at_ ws v w => ws = [] /\ transpose_rel (map Z.to_nat (ints_attr "perm" at_ [])) v w) ->
  map Z.to_nat (ints_attr "perm" (f_attrs tr) []) = p -> map Z.to_nat (ints_attr "perm" at_tr []) = q ->
  means op_rel (f_op nd) rel -> (forall us, moves p (rel (f_attrs nd) us) (rel at_nd us) q) ->
  exists g', switch g tr nd at_nd at_tr = Some g' /\ (exists RK, WW RK g') /\ equiv op_rel g g'.
Proof.
  intros W T Ni Nw MT Ep Eq Mn Mv. unfold switch. rewrite (t_in _ _ _ _ _ _ T), (t_out _ _ _ _ _ _ T), Ni. cbn [input_index]. rewrite String.eqb_refl.
  destruct (switch_ranks rk g tr nd x t y W T) as [Rx Rt].
  set (R := fun at_ (vi : list V) w => match vi with v :: us => rel at_ us v w | [] => False end).
  assert (M : forall at_ vi vs, length vi = length (f_in nd) -> (op_rel (f_op nd) (f_dom nd) at_ 1 vi [] vs <-> exists w, vs = [w] /\ R at_ vi w)).
  { intros at_ [|v us] vs L; [rewrite Ni in L; discriminate|]. apply Mn. }
  assert (Fi : put_nth 0 x (f_in nd) = x :: ws) by (rewrite Ni; reflexivity).
  destruct (switch_equiv_gen rk g tr nd x t y (put_nth 0 x) at_nd at_tr p q (R (f_attrs nd)) (R at_nd) (fun _ => True)) as (g' & E & _ & K1 & K2); auto.
  - rewrite Fi. intros i [<-|Hi].
    + split; [intros ->; lia|]. split; [lia|]. apply (switch_source g tr nd x t y T).
    + split; [intros ->; contradiction|]. apply (switch_other rk g tr nd x t y W T). rewrite Ni. now right.
  - rewrite Fi. intros vi vs L. apply M. rewrite Ni. exact L.
  - rewrite Fi, Ni. cbn [map]. intros r v _ H1 H2. cbn [R] in *. apply (proj1 (Mv (map r ws) (r x) v)). eauto.
  - rewrite Fi, Ni. cbn [map]. intros r u v _ _ H1 H2. cbn [R] in *. destruct (proj2 (Mv (map r ws) (r x) v)) as (w & U1 & U2); [eauto|]. exists w. split; auto. rewrite upd_same.
    replace (map (IdentityProofs.upd V r t w) ws) with (map r ws); auto. apply map_ext_in. intros i Hi. rewrite upd_other; auto. intros ->. contradiction.
  - exists g'. split; auto. split; auto. intros r0 args res. destruct (K2 r0 args res). split; auto.
Qed.
End Meaning.

(** ** find_output_consumers *)
Lemma consumers_some t :
  (forall n, closed_node n -> In t (fv_node n) -> (forall h b, In b (f_bodies n) -> within b h -> ~ In t (f_ins h)) -> exists c, In c (consumers_node t n) /\ (c = n \/ exists b h, In b (f_bodies n) /\ within b h /\ In c (f_nodes h))) /\
  (forall g, closed_graph g -> In t (fv_graph g) -> (forall h, within g h -> ~ In t (f_ins h)) -> exists c h, In c (consumers t g) /\ within g h /\ In c (f_nodes h)).
Proof.
  apply fnode_fgraph_ind.
  - intros nm op dom at_ ins outs bodies IH C H Hi. rewrite fv_node_eq in H. cbn [f_in f_bodies] in *. apply in_app_iff in H. cbn [consumers_node]. destruct H as [H|H].
    + exists (FNode nm op dom at_ ins outs bodies). split; auto. apply in_app_iff. left. apply mem_in in H. rewrite H. now left.
    + apply in_concat_map in H. destruct H as (b & Hb & H). rewrite closed_node_eq in C. destruct (IH b Hb (C b Hb) H) as (c & h & K1 & K2 & K3).
      { intros h Hh. apply (Hi h b); auto. }
      exists c. split; [apply in_app_iff; right; apply in_concat; exists (consumers t b); split; auto; now apply in_map|]. right. exists b, h. auto.
  - intros ns gi go IH C H Hi. apply in_fv_graph in H. destruct H as [Nd H]. apply closed_graph_eq in C. cbn [f_ins f_outs f_nodes] in *. destruct C as [Co Cn].
    destruct H as [H|[H|(n & Hn & H)]].
    + exfalso. now apply (Hi (FGraph ns gi go) (within_refl _)).
    + exfalso. apply Nd. now apply Co.
    + destruct (IH n Hn (Cn n Hn) H) as (c & K1 & K2). { intros h b Hb Hh. apply Hi. apply (within_body (FGraph ns gi go) n b h); auto. }
      exists c. cbn [consumers]. destruct K2 as [->|(b & h & Hb & Hh & Hc)].
      * exists (FGraph ns gi go). split; [apply in_concat; exists (consumers_node t n); split; auto; now apply in_map|]. split; [apply within_refl|exact Hn].
      * exists h. split; [apply in_concat; exists (consumers_node t n); split; auto; now apply in_map|]. split; auto. apply (within_body (FGraph ns gi go) n b h); auto.
Qed.
Lemma consumers_in t c : (forall n, In c (consumers_node t n) -> In t (f_in c)) /\ (forall g, In c (consumers t g) -> In t (f_in c)).
Proof.
  apply fnode_fgraph_ind.
  - intros nm op dom at_ ins outs bodies IH H. cbn [consumers_node] in H. apply in_app_iff in H. destruct H as [H|H].
    + destruct (mem t ins) eqn:M; [|inversion H]. destruct H as [<-|[]]. now apply mem_in.
    + apply in_concat in H. destruct H as (l & Hl & H). apply in_map_iff in Hl. destruct Hl as (b & <- & Hb). now apply (IH b).
  - intros ns gi go IH H. cbn [consumers] in H. apply in_concat in H. destruct H as (l & Hl & H). apply in_map_iff in Hl. destruct Hl as (n & <- & Hn). now apply (IH n).
Qed.
Lemma single_consumer rk g tr nd t y : WW rk g -> In tr (f_nodes g) -> f_out tr = [t] -> t <> "" -> In nd (f_nodes g) -> f_out nd = [y] -> y <> "" -> consumers t g = [nd] ->
  forall m, In m (f_nodes g) -> In t (fv_node m) -> m = nd.
Proof.
  intros W Ht Ot Nt Hn On Ny C m Hm Hf. assert (G := W g (within_refl g)).
  assert (Dt : In t (defs g)) by (apply in_defs; split; auto; right; exists tr; rewrite Ot; split; auto; now left).
  assert (Dy : In y (defs g)) by (apply in_defs; split; auto; right; exists nd; rewrite On; split; auto; now left).
  destruct (proj1 (consumers_some t) m) as (c & K1 & K2); auto.
  { apply (WW_closed rk g); auto. }
  { intros h b Hb Hh Hi. apply (good_not_nested rk g m b t G Hm Hb); auto. apply (within_alldefs b h); auto. apply alldefs_in. auto. }
  assert (Hc : In c (consumers t g)). { destruct g as [ns gi go]. cbn [consumers]. apply in_concat. exists (consumers_node t m). split; auto. now apply in_map. }
  rewrite C in Hc. destruct Hc as [<-|[]]. destruct K2 as [K2|(b & h & Hb & Hh & Hc)]; auto.
  exfalso. apply (good_not_nested rk g m b y G Hm Hb); auto. apply (within_alldefs b h); auto. apply alldefs_in. right. exists nd. split; auto. apply alldefs_in_node. left. rewrite On. split; auto. now left.
Qed.

Lemma push_attrs_total opset n p op at_ : is_perm p n -> valid_attrs opset n op at_ -> push_attrs opset p op at_ <> None.
Proof.
  intros P (V1 & V2 & V3 & V4 & V5). unfold push_attrs.
  destruct (mem op simple_ops); [discriminate|]. destruct (mem op ["Softmax"; "LogSoftmax"]) eqn:E2.
  { apply mem_in in E2. destruct V1 as [N0 V1]; [cbn in E2; intuition congruence|]. destruct (Nat.leb 13 opset); [|discriminate].
    destruct V1 as (ax & N & _). cbn [norm_axes] in N. destruct (norm_axis n (int_attr "axis" at_ (-1))) as [k|] eqn:Nk; [|discriminate].
    unfold moved_softmax_axis. rewrite attr_int_spec. assert (K := PushProofs2.plus_rank_axis p n _ k P Nk). unfold moved_softmax_axis in K. rewrite K. discriminate. }
  destruct (mem op ["ArgMax"; "ArgMin"]) eqn:E3.
  { apply mem_in in E3. destruct V2 as (ax & N & _); [cbn in E3; intuition congruence|]. cbn [norm_axes] in N. destruct (norm_axis n (int_attr "axis" at_ 0)) as [k|] eqn:Nk; [|discriminate].
    rewrite !attr_int_spec. rewrite (PushProofs2.plus_rank_axes p n [int_attr "axis" at_ 0] [k] P); [discriminate|]. cbn [norm_axes]. now rewrite Nk. }
  destruct (mem op reduce_ops && Nat.ltb opset 18 || String.eqb op "ReduceSum" && Nat.ltb opset 13)%bool eqn:E4.
  { destruct V3 as (ax & N & ND).
    { apply orb_prop in E4. destruct E4 as [E4|E4]; apply andb_prop in E4; destruct E4 as [E4 _]; [apply mem_in in E4; unfold reduce_ops in E4; cbn [In] in *; intuition congruence|apply String.eqb_eq in E4; subst; cbn [In]; tauto]. }
    assert (K : moved_reduce_axes p (attr_ints "axes" at_) = moved_reduce_axes p (Some (ints_attr "axes" at_ (map Z.of_nat (seq 0 n))))).
    { rewrite <- attr_ints_spec. destruct (attr_ints "axes" at_); auto. apply (PushProofs2.plus_rank_all p n P). }
    rewrite K, (PushProofs2.plus_rank_axes p n _ ax P N). discriminate. }
  destruct (String.eqb op "Squeeze" && Nat.leb opset 12)%bool eqn:E5.
  { apply andb_prop in E5. destruct E5 as [E5 L]. apply String.eqb_eq in E5. subst op. assert (Ea := attr_ints_spec "axes" at_ []). destruct (attr_ints "axes" at_) as [axes|] eqn:Ai; [|discriminate]. rewrite <- Ea in V4. destruct V4 as (ax & N & ND); auto.
    destruct (norm_axes_perm _ _ _ _ (PushProofs2.sorted_by_perm Z.leb axes) N) as (ax' & N' & _). rewrite (PushProofs2.squeeze_attr p n _ ax' P N'). discriminate. }
  destruct (String.eqb op "Unsqueeze" && Nat.leb opset 12)%bool; [|discriminate]. destruct (attr_ints "axes" at_) as [axes|]; [|discriminate]. destruct (unsqueeze_new_attr p axes). discriminate.
Qed.
Lemma perm_of_spec n p : perm_of n = Some p -> map Z.to_nat (ints_attr "perm" (f_attrs n) []) = p.
Proof. unfold perm_of. intro H. rewrite <- attr_ints_spec. destruct (attr_ints "perm" (f_attrs n)); [|discriminate]. now inversion H. Qed.
Lemma perm_put q at_ : map Z.to_nat (ints_attr "perm" (put_attr "perm" (perm_attr q) at_) []) = q.
Proof. unfold perm_attr. rewrite ints_put, map_map. rewrite <- (map_id q) at 2. apply map_ext. intro. apply Nat2Z.id. Qed.

(** nothing is assumed about how many nodes read t, only about the one that does if there is just one *)
Lemma handle_transpose_ok {A} op_rel opset g tr x t p n : op_ext op_rel -> @onnx_means A op_rel opset -> valid g ->
  In tr (f_nodes g) -> f_op tr = "Transpose" -> f_in tr = [x] -> f_out tr = [t] -> f_bodies tr = [] -> t <> "" -> perm_of tr = Some p -> is_perm p n ->
  (forall nd, consumers t g = [nd] -> In nd (f_nodes g) /\ f_bodies nd = [] /\ valid_attrs opset n (f_op nd) (f_attrs nd) /\
     exists y ws, f_in nd = t :: ws /\ ~ In t ws /\ f_out nd = [y] /\ y <> "") ->
  exists g' changed, handle_transpose opset g tr = Some (g', changed) /\ valid g' /\ equiv op_rel g g'.
Proof.
  intros ext Sem [rk W] Ht Ot It Out Bt Nt Ep P Cons. unfold handle_transpose. rewrite Out.
  assert (Id : forall c : bool, exists g' changed, Some (g, c) = Some (g', changed) /\ valid g' /\ equiv op_rel g g').
  { intro c. exists g, c. split; auto. split; [exists rk; exact W|apply equiv_refl]. }
  destruct (mem t (f_outs g)) eqn:Mt; [apply Id|]. apply mem_false in Mt.
  destruct (consumers t g) as [|nd [|c2 cs]] eqn:C; try apply Id. destruct (Cons nd eq_refl) as (Hn & Bn & VA & y & ws & In_ & Nw & On & Ny).
  destruct (existsb (fun o => mem o (f_outs g)) (f_out nd)) eqn:My; [apply Id|]. rewrite Ep.
  assert (Tot := push_attrs_total opset n p (f_op nd) (f_attrs nd) P VA). destruct (push_attrs opset p (f_op nd) (f_attrs nd)) as [[[at_ q]|]|] eqn:Pa; [|apply Id|congruence]. clear Tot.
  destruct (push_attrs_moves op_rel opset n p Sem P (f_op nd) (f_attrs nd) at_ q VA Pa) as (rel & M & Mv).
  assert (T : transposed g tr nd x t y).
  { constructor; auto.
    - rewrite In_. now left.
    - apply (single_consumer rk g tr nd t y); auto.
    - split; auto. rewrite On in My. cbn [existsb] in My. rewrite orb_false_r in My. now apply mem_false. }
  destruct (switch_equiv op_rel ext rk g tr nd x t y ws at_ (put_attr "perm" (perm_attr q) (f_attrs tr)) p q rel W T In_ Nw (o_transpose _ _ Sem) (perm_of_spec tr p Ep) (perm_put q _) M Mv) as (g' & E & (RK & WR) & Eq).
  rewrite E. exists g', true. split; auto. split; [exists RK; exact WR|exact Eq].
Qed.
