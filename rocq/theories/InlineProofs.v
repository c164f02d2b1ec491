(** Proofs about inlining: the closed form of the renaming loop. *)
From Coq Require Import String List Bool NArith Lia.
From Verif Require Import FGraph FGraphProofs InlineModel InlineSpec.
From Verif Require NamesModel NamesProofs.
Import ListNotations.
Local Open Scope string_scope.
Local Open Scope list_scope.

Definition pairs := list (string * string).
Definition apps (s : pairs) (x : string) : string := fold_left (fun x p => sub (fst p) (snd p) x) s x.
Definition substs (s : pairs) (g : fgraph) : fgraph := fold_left (fun g p => subst_graph (fst p) (snd p) g) s g.
Definition substs_node (s : pairs) (n : fnode) : fnode := fold_left (fun n p => subst_node (fst p) (snd p) n) s n.
Definition substs_bodies (s : pairs) (n : fnode) : fnode := fold_left (fun n p => subst_bodies (fst p) (snd p) n) s n.

Lemma substs_node_eq s : forall nm op dom at_ ins outs bodies,
  substs_node s (FNode nm op dom at_ ins outs bodies) = FNode nm op dom at_ (map (apps s) ins) outs (map (substs s) bodies).
Proof.
  induction s as [|[a b] s IH]; intros.
  - unfold substs_node, apps, substs. cbn [fold_left]. now rewrite !map_id.
  - unfold substs_node. cbn [fold_left subst_node fst snd]. fold (substs_node s). rewrite IH, !map_map. reflexivity.
Qed.
Lemma substs_bodies_eq s : forall nm op dom at_ ins outs bodies,
  substs_bodies s (FNode nm op dom at_ ins outs bodies) = FNode nm op dom at_ ins outs (map (substs s) bodies).
Proof.
  induction s as [|[a b] s IH]; intros.
  - unfold substs_bodies, substs. cbn [fold_left]. now rewrite !map_id.
  - unfold substs_bodies. cbn [fold_left subst_bodies fst snd]. fold (substs_bodies s). rewrite IH, !map_map. reflexivity.
Qed.
Lemma apps_app s s' x : apps (s ++ s') x = apps s' (apps s x).
Proof. unfold apps. apply fold_left_app. Qed.
Lemma substs_app s s' x : substs (s ++ s') x = substs s' (substs s x).
Proof. unfold substs. apply fold_left_app. Qed.
Lemma substs_node_app s s' x : substs_node (s ++ s') x = substs_node s' (substs_node s x).
Proof. unfold substs_node. apply fold_left_app. Qed.
Lemma substs_bodies_app s s' x : substs_bodies (s ++ s') x = substs_bodies s' (substs_bodies s x).
Proof. unfold substs_bodies. apply fold_left_app. Qed.
Lemma apps_fresh s x : ~ In x (map fst s) -> apps s x = x.
Proof.
  induction s as [|[a b] s IH]; intro H; [reflexivity|]. unfold apps. cbn [fold_left fst snd]. unfold sub.
  destruct (String.eqb_spec x a) as [->|E]; [exfalso; apply H; left; reflexivity|]. apply IH. intro K. apply H. right. exact K.
Qed.
Lemma apps_key s x y : NoDup (map fst s) -> (forall v, In v (map snd s) -> ~ In v (map fst s)) -> In (x, y) s -> apps s x = y.
Proof.
  intros ND D I. apply in_split in I. destruct I as (s1 & s2 & ->). rewrite map_app in ND. cbn [map fst] in ND. apply NoDup_remove_2 in ND. rewrite in_app_iff in ND.
  rewrite apps_app, (apps_fresh s1) by tauto. change (apps s2 (sub x y x) = y). unfold sub. rewrite String.eqb_refl. apply apps_fresh.
  intro K. apply (D y); [rewrite map_app, in_app_iff; right; left; reflexivity|]. rewrite map_app, in_app_iff. right. right. exact K.
Qed.

Definition new_name (scope : string) (n : fnode) : string := scoped scope (f_name n).
Definition new_outs (scope : string) (n : fnode) : list string := output_names (new_name scope n) (length (f_out n)).
Definition sigma1 (scope : string) (n : fnode) : pairs := combine (f_out n) (new_outs scope n).
Definition sigma (scope : string) (ns : list fnode) : pairs := flat_map (sigma1 scope) ns.
Lemma sigma_app scope l l' : sigma scope (l ++ l') = sigma scope l ++ sigma scope l'.
Proof. apply flat_map_app. Qed.
Lemma new_outs_length scope n : length (new_outs scope n) = length (f_out n).
Proof. unfold new_outs, output_names. now rewrite map_length, seq_length. Qed.
Lemma map_fst_combine {A B} (l : list A) : forall l' : list B, length l' = length l -> map fst (combine l l') = l.
Proof. induction l as [|a l IH]; intros [|b l']; cbn; intro H; try discriminate; f_equal; auto. Qed.
Lemma map_snd_combine {A B} (l : list A) : forall l' : list B, length l' = length l -> map snd (combine l l') = l'.
Proof. induction l as [|a l IH]; intros [|b l']; cbn; intro H; try discriminate; f_equal; auto. Qed.
Lemma sigma_keys scope ns : map fst (sigma scope ns) = outputs_of ns.
Proof.
  unfold sigma, outputs_of. induction ns as [|n ns IH]; [reflexivity|]. cbn [flat_map map concat]. rewrite map_app, IH. f_equal.
  apply map_fst_combine, new_outs_length.
Qed.
Lemma sigma_vals scope ns : map snd (sigma scope ns) = concat (map (new_outs scope) ns).
Proof.
  unfold sigma. induction ns as [|n ns IH]; [reflexivity|]. cbn [flat_map map concat]. rewrite map_app, IH. f_equal.
  apply map_snd_combine, new_outs_length.
Qed.
Lemma sigma_subst scope s ns : sigma scope (map (substs_node s) ns) = sigma scope ns.
Proof.
  unfold sigma. induction ns as [|n ns IH]; [reflexivity|]. cbn [flat_map map]. rewrite IH. f_equal.
  destruct n as [b1 b2 b3 b4 b5 b6 b7]. rewrite substs_node_eq. reflexivity.
Qed.

(** the copy of node n, when the outputs of the nodes in [s] are already renamed; [s'] are all renamings *)
Definition copy (scope : string) (s s' : pairs) (n : fnode) : fnode :=
  FNode (new_name scope n) (f_op n) "" (f_attrs n) (map (apps s) (f_in n)) (new_outs scope n) (map (substs s') (f_bodies n)).
Fixpoint copies (scope : string) (s : pairs) (ns : list fnode) : list fnode :=
  match ns with
  | [] => []
  | n :: ns' => copy scope s (s ++ sigma scope ns) n :: copies scope (s ++ sigma1 scope n) ns'
  end.
Lemma copies_in scope n' : forall ns s, In n' (copies scope s ns) <->
  exists l1 n l2, ns = l1 ++ n :: l2 /\ n' = copy scope (s ++ sigma scope l1) (s ++ sigma scope ns) n.
Proof.
  induction ns as [|m ns IH]; intro s.
  - cbn. split; [tauto|]. intros (l1 & n & l2 & E & _). destruct l1; discriminate.
  - cbn [copies In]. rewrite IH. split.
    + intros [<-|(l1 & n & l2 & -> & ->)].
      * exists [], m, ns. split; auto. cbn [sigma flat_map]. now rewrite app_nil_r.
      * exists (m :: l1), n, l2. split; auto. cbn [sigma flat_map]. fold (sigma scope l1) (sigma scope (l1 ++ n :: l2)). now rewrite !app_assoc.
    + intros ([|m' l1] & n & l2 & E & ->); cbn [app] in E; injection E as <- ->.
      * left. cbn [sigma flat_map]. now rewrite app_nil_r.
      * right. exists l1, n, l2. split; auto. cbn [sigma flat_map]. fold (sigma scope l1) (sigma scope (l1 ++ n :: l2)). now rewrite !app_assoc.
Qed.
Lemma copies_outs scope : forall ns s, outputs_of (copies scope s ns) = concat (map (new_outs scope) ns).
Proof. unfold outputs_of. induction ns as [|n ns IH]; intro s; [reflexivity|]. cbn [copies map concat]. f_equal. apply IH. Qed.

(** ** the loop *)
Lemma rename_outputs s : forall st, fold_left rename_output s st =
  PState (map (substs_node s) (p_kept st)) (map (substs_node s) (p_todo st)) (map (substs_bodies s) (p_new st))
         (fold_left (fun l p => replace_first (fst p) (snd p) l) s (p_outs st)).
Proof.
  induction s as [|[a b] s IH]; intros [k t n o].
  - cbn [fold_left p_kept p_todo p_new p_outs]. f_equal; symmetry; [transitivity (map (fun x : fnode => x) k)|transitivity (map (fun x : fnode => x) t)|transitivity (map (fun x : fnode => x) n)]; try apply map_id; reflexivity.
  - cbn [fold_left rename_output p_kept p_todo p_new p_outs fst snd]. rewrite IH. cbn [p_kept p_todo p_new p_outs]. rewrite !map_map. reflexivity.
Qed.
Lemma graph_input_substs s n : is_graph_input (substs_node s n) = is_graph_input n.
Proof. destruct n as [b1 b2 b3 b4 b5 b6 b7]. rewrite substs_node_eq. reflexivity. Qed.
Lemma existsb_false {A} (f : A -> bool) l : existsb f l = false -> forall x, In x l -> f x = false.
Proof. intros H x I. destruct (f x) eqn:E; auto. assert (existsb f l = true) by (apply existsb_exists; eauto). congruence. Qed.

Lemma loop_spec scope names outs : forall ns fuel s new gouts st,
  (forall n, In n ns -> is_graph_input n = false) ->
  prefix_loop scope names outs fuel (PState [] (map (substs_node s) ns) new gouts) = Some st ->
  p_kept st = [] /\ p_new st = map (substs_bodies (sigma scope ns)) new ++ copies scope s ns /\
  p_outs st = fold_left (fun l p => replace_first (fst p) (snd p) l) (sigma scope ns) gouts /\
  (forall o, In o (concat (map (new_outs scope) ns)) -> ~ In o outs /\ ~ In o (outputs_of new)) /\
  (forall l1 n l2, ns = l1 ++ n :: l2 -> forall o, In o (new_outs scope n) -> ~ In o (concat (map (new_outs scope) l1))) /\
  (forall l1 n l2, ns = l1 ++ n :: l2 -> ~ In (new_name scope n) (names ++ map f_name new ++ map (new_name scope) l1)).
Proof.
  induction ns as [|n ns IH]; intros fuel s new gouts st NI E.
  - assert (st = PState [] [] new gouts) as -> by (destruct fuel; cbn in E; congruence). cbn [p_kept p_new p_outs sigma flat_map fold_left copies map concat].
    rewrite app_nil_r. split; auto. split; [symmetry; transitivity (map (fun x : fnode => x) new); [reflexivity|apply map_id]|]. split; auto. split; [intros o []|].
    split; intros [|? ?] ? ? ?; discriminate.
  - destruct fuel as [|fuel]; [discriminate|]. cbn [prefix_loop p_todo map p_kept p_new p_outs] in E. rewrite graph_input_substs, (NI n) in E by (left; auto).
    destruct n as [b1 b2 b3 b4 b5 b6 b7]. rewrite substs_node_eq in E. set (N0 := FNode b1 b2 b3 b4 b5 b6 b7) in *.
    unfold make_scoped in E. cbn [f_name f_out f_op f_attrs f_in f_bodies] in E.
    change (scoped scope b1) with (new_name scope N0) in E. change (output_names (new_name scope N0) (length b6)) with (new_outs scope N0) in E.
    destruct (mem (new_name scope N0) (names ++ map f_name new)) eqn:M1; [discriminate|].
    destruct (existsb (fun o => mem o (outs ++ concat (map f_out new))) (new_outs scope N0)) eqn:M2; [discriminate|]. cbn [orb] in E.
    change (combine b6 (new_outs scope N0)) with (sigma1 scope N0) in E. rewrite rename_outputs in E. cbn [p_kept p_todo p_new p_outs map f_out] in E.
    rewrite map_map in E. erewrite (map_ext (fun x => substs_node (sigma1 scope N0) (substs_node s x))) in E by (intro; symmetry; apply substs_node_app).
    apply IH in E; [|intros; apply NI; right; auto]. destruct E as (E1 & E2 & E3 & E4 & E5 & E6).
    apply mem_false in M1. split; auto. split; [|split; [|split; [|split]]].
    + rewrite E2. cbn [copies]. rewrite !map_app, map_map, <- app_assoc. f_equal; [|f_equal].
      * apply map_ext. intro x. unfold sigma. cbn [flat_map]. now rewrite substs_bodies_app.
      * cbn [map]. rewrite !substs_bodies_eq. cbn [app]. f_equal. unfold copy. f_equal. subst N0. cbn [f_bodies]. rewrite !map_map. apply map_ext. intro x.
        unfold sigma. cbn [flat_map]. rewrite !substs_app. reflexivity.
    + rewrite E3. unfold sigma. cbn [flat_map]. now rewrite fold_left_app.
    + intros o I. cbn [map concat] in I. apply in_app_iff in I. destruct I as [I|I].
      * pose proof (existsb_false _ _ M2 o I) as M. apply mem_false in M. rewrite in_app_iff in M. unfold outputs_of. tauto.
      * destruct (E4 o I) as [A B]. split; auto. intro K. apply B. unfold outputs_of in *. rewrite map_map, map_app, concat_app, in_app_iff.
        left. erewrite map_ext; [exact K|]. intros [c1 c2 c3 c4 c5 c6 c7]. rewrite substs_bodies_eq. reflexivity.
    + intros [|m l1] n l2 EL o I; cbn [app] in EL; injection EL as <- EL; [intros []|]. cbn [map concat]. rewrite in_app_iff. intros [K|K].
      * assert (I' : In o (concat (map (new_outs scope) ns))) by (rewrite EL, map_app, concat_app, in_app_iff; right; cbn [map concat]; rewrite in_app_iff; auto).
        destruct (E4 o I') as [_ B]. apply B. unfold outputs_of. rewrite map_map, map_app, concat_app, in_app_iff. right. cbn [map]. rewrite substs_bodies_eq. cbn [f_out concat]. rewrite app_nil_r. exact K.
      * exact (E5 l1 n l2 EL o I K).
    + intros [|m l1] n l2 EL K; cbn [app] in EL; injection EL as <- EL.
      * cbn [map] in K. rewrite app_nil_r in K. contradiction.
      * apply (E6 l1 n l2 EL). rewrite !in_app_iff in *. cbn [map] in K. rewrite map_map, map_app, in_app_iff. cbn [map]. rewrite substs_bodies_eq. cbn [f_name].
        assert (Eq : forall s, map (fun x => f_name (substs_bodies s x)) new = map f_name new) by (intro; apply map_ext; intros [c1 c2 c3 c4 c5 c6 c7]; rewrite substs_bodies_eq; reflexivity).
        rewrite Eq. cbn [In] in *. tauto.
Qed.
