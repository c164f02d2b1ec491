(** C54: the written ONNX model computes what the graph computes. *)
From Coq Require Import String List Bool ZArith Arith Lia.
From Verif Require Import FGraph FGraphProofs FGraphSpec MakeSpec MakeModel MakeProofs MakeProofs2.
Import ListNotations.
Local Open Scope string_scope.
Local Open Scope list_scope.

(** For every choice of given inputs, the graph and the written model have the same results.  Missing for the full claim:
    constants that are the default of an input and used otherwise (see the refutation), defaults in body graphs. *)
Theorem C54_same_results_partial :
  forall V op_rel (tensor : attr -> V) opset g p, op_ext op_rel -> constant_meaning op_rel tensor ->
    make_graph opset g = Some p -> writable g ->
    forall feeds res, (forall x, feeds x <> None -> exists n, In n (f_nodes g) /\ input_node n /\ In x (f_out n)) ->
      (g_run op_rel feeds g res <-> p_run op_rel tensor feeds p res).
Proof. intros V op_rel tensor opset [ns gi go] p E C M W feeds res F. exact (make_run op_rel tensor E C opset ns gi go p W M feeds res F). Qed.
Print Assumptions C54_same_results_partial.

(** The written model keeps the outputs, the order of the inputs and the order of the nodes; the inputs that must be given
    are those of the Placeholder nodes without default; every name that is read and was defined is defined. *)
Theorem C54_parts_partial :
  forall opset g p, make_graph opset g = Some p -> writable g ->
    p_outs p = f_outs g /\ firstn (length (f_ins g)) (p_ins p) = f_ins g /\
    Forall2 (fun n q => p_name q = f_name n /\ p_op q = f_op n /\ p_in q = f_in n /\ p_out q = f_out n)
      (filter (fun n => negb (mem (f_op n) ["Const"; "ConstV2"; "Placeholder"; "PlaceholderWithDefault"; "PlaceholderV2"])) (f_nodes g)) (p_nodes p) /\
    (forall i, (In i (p_ins p) /\ ~ In i (map fst (p_inits p))) <-> exists n, In n (f_nodes g) /\ (f_op n = "Placeholder" \/ f_op n = "PlaceholderV2") /\ f_out n = [i]) /\
    forall t, In t (p_outs p) \/ (exists q, In q (p_nodes p) /\ In t (p_in q)) -> In t (concat (map f_out (f_nodes g))) ->
      In t (p_ins p ++ map fst (p_inits p) ++ concat (map p_out (p_nodes p))).
Proof.
  intros opset [ns gi go] p M W. destruct (parts opset ns gi go p M) as (A & B & C). repeat (split; [assumption|]). split; [exact (required opset ns gi go p W M)|exact (defined opset ns gi go p W M)].
Qed.
Print Assumptions C54_parts_partial.

(** Writing raises no exception if defaults are constants. *)
Theorem C54_total :
  forall opset g, writable g ->
    (forall n, In n (f_nodes g) -> f_op n = "PlaceholderWithDefault" -> exists d rest c, f_in n = d :: rest /\ In c (f_nodes g) /\ const_node c /\ f_out c = [d]) ->
    exists p, make_graph opset g = Some p.
Proof. intros opset g W H. destruct (make_graph opset g) as [p|] eqn:E; [eauto|]. exfalso. exact (make_total opset g W H E). Qed.
Print Assumptions C54_total.

(** ** Examples *)
Definition z_tensor (a : attr) : Z := match a with AInt z => z | _ => 0%Z end.
Definition z_rel (op dom : string) (at_ : list (string * attr)) (k : nat) (ins : list Z) (bs : list (list Z -> list Z -> Prop)) (vs : list Z) : Prop :=
  if String.eqb op "Call" then exists b, bs = [b] /\ b ins vs
  else if String.eqb op "Add" then exists a b, ins = [a; b] /\ vs = [(a + b)%Z]
  else if mem op ["Const"; "ConstV2"] then exists a, In ("value", a) at_ /\ vs = [z_tensor a] else False.
Definition parameter (nm t : string) : fnode := FNode nm "Placeholder" "" [] [] [t] [].
Definition constant (nm t : string) (z : Z) : fnode := FNode nm "Const" "" [("value", AInt z)] [] [t] [].
Definition defaulted (nm t d : string) : fnode := FNode nm "PlaceholderWithDefault" "" [] [d] [t] [].
Definition node (op nm : string) (ins outs : list string) (bodies : list fgraph) : fnode := FNode nm op "" [] ins outs bodies.
(** x + 3 in a body graph that reads y, an input with default 5 *)
Definition body1 : fgraph := FGraph [parameter "a" "a:0"; constant "k" "k:0" 3; node "Add" "s" ["a:0"; "k:0"] ["s:0"] []; node "Add" "u" ["s:0"; "y:0"] ["u:0"] []] ["a:0"] ["u:0"].
Definition graph1 : fgraph := FGraph [parameter "x" "x:0"; constant "c" "c:0" 5; defaulted "y" "y:0" "c:0"; node "Call" "f" ["x:0"] ["f:0"] [body1]] ["x:0"; "y:0"] ["f:0"].
Lemma z_ext : op_ext z_rel.
Proof.
  intros op dom at_ k ins bs bs' vs F H. unfold z_rel in *. destruct (String.eqb op "Call"); [|exact H]. destruct H as (b & -> & H). inversion F as [|? b' ? l Hb F']; subst. inversion F'; subst. exists b'. split; auto. now apply Hb.
Qed.
Lemma z_const : constant_meaning z_rel z_tensor.
Proof.
  intros op dom at_ a vs Op I U. unfold z_rel. assert (E1 : String.eqb op "Call" = false) by (destruct Op; subst; reflexivity). assert (E2 : String.eqb op "Add" = false) by (destruct Op; subst; reflexivity). assert (E3 : mem op ["Const"; "ConstV2"] = true) by (destruct Op; subst; reflexivity).
  rewrite E1, E2, E3. split; [intros (b & Ib & ->); now rewrite (U b Ib)|intros ->; eauto].
Qed.
Ltac all_members := repeat match goal with
  | H : In _ _ |- _ => progress cbn in H
  | H : _ \/ _ |- _ => destruct H as [H|H]
  | H : False |- _ => destruct H
  end; subst.
Ltac nodup := cbn; repeat (constructor; [let H := fresh in intro H; cbn in H; repeat (destruct H as [H|H]; [discriminate|]); destruct H|]); constructor.
Ltac not_op H := unfold input_node, const_node in H; cbn in H; repeat (destruct H as [H|H]; [discriminate|]); discriminate.
Lemma body1_writable : writable_graph body1.
Proof.
  constructor; cbn [f_nodes f_ins body1].
  - nodup.
  - intros n I P. all_members; try (exists "a:0"; repeat split; discriminate); try (exists "k:0"; repeat split; discriminate); exfalso; unfold input_node, const_node in P; cbn in P; intuition discriminate.
  - intros n I C. all_members; try (exfalso; unfold const_node in C; cbn in C; intuition discriminate). split; [reflexivity|]. exists (AInt 3). split; [left; auto|]. intros b [E|[]]. congruence.
  - intros i I. all_members. exists (parameter "a" "a:0"). split; [left; auto|split; [left; auto|auto]].
  - nodup.
Qed.
Lemma graph1_writable : writable_graph graph1.
Proof.
  constructor; cbn [f_nodes f_ins graph1].
  - nodup.
  - intros n I P. all_members; try (exists "x:0"; repeat split; discriminate); try (exists "y:0"; repeat split; discriminate); try (exists "c:0"; repeat split; discriminate); exfalso; unfold input_node, const_node in P; cbn in P; intuition discriminate.
  - intros n I C. all_members; try (exfalso; unfold const_node in C; cbn in C; intuition discriminate). split; [reflexivity|]. exists (AInt 5). split; [left; auto|]. intros b [E|[]]. congruence.
  - intros i I. all_members; [exists (parameter "x" "x:0"); split; [left; auto|split; [left; auto|auto]]|exists (defaulted "y" "y:0" "c:0"); split; [right; right; left; auto|split; [right; left; auto|auto]]].
  - nodup.
Qed.
Lemma within1 h : within graph1 h -> h = graph1 \/ h = body1.
Proof.
  intro H. inversion H as [|n b ? I J K]; subst; [auto|right]. all_members; all_members. inversion K as [|n2 b2 ? I2 J2]; subst; [auto|]. all_members; all_members.
Qed.
Lemma writable1 : writable graph1.
Proof.
  constructor.
  - intros h H. destruct (within1 h H) as [-> | ->]; [exact graph1_writable|exact body1_writable].
  - intros n b h m I J K Im P. assert (B : b = body1) by (cbn in I; all_members; cbn in J; all_members; auto). subst b. inversion K as [|n2 b2 ? I2 J2]; subst; [|exfalso; cbn in I2; all_members; destruct J2].
    cbn in Im. all_members; try (exfalso; unfold input_node in P; cbn in P; intuition discriminate). split; [discriminate|]. intros o [<-|[]]. left; auto.
  - intros n d m I E J Im NI. all_members; try discriminate; all_members; try (exfalso; apply NI; right; left; reflexivity); vm_compute; intro H; repeat (destruct H as [H|H]; [discriminate|]); destruct H.
  - intros n d I E J. all_members; try discriminate; all_members. intros [H|[]]. discriminate.
Qed.
(** without a value for y the result is x + 3 + 5 *)
Example C54_example : writable graph1 /\ exists p, make_graph 8 graph1 = Some p /\ p_ins p = ["x:0"; "y:0"] /\ p_inits p = [("y:0", AInt 5)] /\
  p_run z_rel z_tensor (fun x => if String.eqb x "x:0" then Some 10%Z else None) p [18%Z].
Proof.
  split; [exact writable1|]. eexists. split; [vm_compute; reflexivity|]. split; [reflexivity|]. split; [reflexivity|].
  assert (R : forall r0 : string -> Z, r0 "y:0" = 5%Z -> body_rel z_rel r0 (strip body1) [10%Z] [18%Z]).
  { intros r0 Ey. apply body_rel_eq. exists (fun t => if String.eqb t "a:0" then 10%Z else if String.eqb t "k:0" then 3%Z else if String.eqb t "s:0" then 13%Z else if String.eqb t "u:0" then 18%Z else r0 t). split; [|split; [reflexivity|split; [|reflexivity]]].
    - intros t N. destruct (String.eqb_spec t "a:0"); [exfalso; apply N; subst; vm_compute; tauto|]. destruct (String.eqb_spec t "k:0"); [exfalso; apply N; subst; vm_compute; tauto|]. destruct (String.eqb_spec t "s:0"); [exfalso; apply N; subst; vm_compute; tauto|]. destruct (String.eqb_spec t "u:0"); [exfalso; apply N; subst; vm_compute; tauto|reflexivity].
    - intros n I. cbn in I. all_members; apply holds_eq; cbn.
      + exists [3%Z]. split; [exists (AInt 3); split; [left; auto|auto]|]. intros [|[|k]] o Ek _; try discriminate. injection Ek as <-. reflexivity.
      + exists [13%Z]. split; [exists 10%Z, 3%Z; auto|]. intros [|[|k]] o Ek _; try discriminate. injection Ek as <-. reflexivity.
      + exists [18%Z]. split; [exists 13%Z, 5%Z; rewrite Ey; auto|]. intros [|[|k]] o Ek _; try discriminate. injection Ek as <-. reflexivity. }
  apply (C54_same_results_partial Z z_rel z_tensor 8 graph1 _ z_ext z_const eq_refl writable1).
  - intros y Hy. destruct (String.eqb_spec y "x:0") as [Ey|Ny]; [subst y|congruence]. exists (parameter "x" "x:0"). split; [left; auto|]. split; left; auto.
  - exists (fun t => if String.eqb t "x:0" then 10%Z else if String.eqb t "f:0" then 18%Z else 5%Z). split; [|split; [|reflexivity]].
    + intros n I NI. cbn in I. all_members; try (exfalso; apply NI; unfold input_node; cbn; tauto); apply holds_eq; cbn [strip_node constant node f_op f_dom f_attrs f_in f_out f_bodies map length].
      * exists [5%Z]. split; [exists (AInt 5); split; [left; auto|auto]|]. intros [|[|k]] o Ek _; try discriminate. injection Ek as <-. reflexivity.
      * exists [18%Z]. split; [exists (body_rel z_rel (fun t => if String.eqb t "x:0" then 10%Z else if String.eqb t "f:0" then 18%Z else 5%Z) (strip body1)); split; [reflexivity|now apply R]|]. intros [|[|k]] o Ek _; try discriminate. injection Ek as <-. reflexivity.
    + intros n o I P O. cbn in I. all_members; cbn in O; all_members; try (exfalso; unfold input_node in P; cbn in P; intuition discriminate); cbn; auto. split; [auto|]. exists "c:0", []. auto.
Qed.

(** A constant that is the default of an input and is also used by a node is dropped: the written model reads an undefined name. *)
Definition graph2 : fgraph := FGraph [constant "c" "c:0" 5; defaulted "y" "y:0" "c:0"; node "Add" "f" ["y:0"; "c:0"] ["f:0"] []] ["y:0"] ["f:0"].
Theorem C54_shared_default_refuted :
  forall opset, exists p, make_graph opset graph2 = Some p /\
    (exists q, In q (p_nodes p) /\ In "c:0" (p_in q)) /\ ~ In "c:0" (p_ins p ++ map fst (p_inits p) ++ concat (map p_out (p_nodes p))) /\
    (forall res, g_run z_rel (fun _ => None) graph2 res -> res = [10%Z]) /\ p_run z_rel z_tensor (fun _ => None) p [6%Z].
Proof.
  intro opset. exists (PGraph [PNode "f" "Add" "" [] ["y:0"; "c:0"] ["f:0"] []] ["y:0"] [("y:0", AInt 5)] ["f:0"]). split; [cbn; destruct (Nat.leb opset 8); reflexivity|]. cbn [p_nodes p_ins p_inits]. split; [eexists; split; [left; reflexivity|right; left; reflexivity]|]. split.
  - cbn. intuition discriminate.
  - split.
    + intros res (r & H1 & H2 & <-). assert (K1 := H1 (constant "c" "c:0" 5) (or_introl eq_refl)). assert (K2 := H1 (node "Add" "f" ["y:0"; "c:0"] ["f:0"] []) (or_intror (or_intror (or_introl eq_refl)))).
      assert (K3 := H2 (defaulted "y" "y:0" "c:0") "y:0" (or_intror (or_introl eq_refl)) (or_intror (or_introl eq_refl)) (or_introl eq_refl)). cbn in K3. destruct K3 as (_ & d & rest & Ed & Ey). injection Ed as <- _.
      assert (N1 : ~ input_node (constant "c" "c:0" 5)) by (unfold input_node; cbn; intuition discriminate). assert (N2 : ~ input_node (node "Add" "f" ["y:0"; "c:0"] ["f:0"] [])) by (unfold input_node; cbn; intuition discriminate).
      specialize (K1 N1). specialize (K2 N2). apply holds_eq in K1, K2. destruct K1 as (v1 & (a & Ia & ->) & P1). destruct K2 as (v2 & (x & y & E & ->) & P2). destruct Ia as [Ia|[]]. injection Ia as <-.
      specialize (P1 0 "c:0" eq_refl ltac:(discriminate)). specialize (P2 0 "f:0" eq_refl ltac:(discriminate)). cbn in P1, P2, E. injection P1 as P1. injection P2 as P2. injection E as E1 E2. cbn. f_equal. lia.
    + exists (fun t => if String.eqb t "f:0" then 6%Z else if String.eqb t "c:0" then 1%Z else 5%Z). cbn [p_nodes p_ins p_inits p_outs]. split; [intros; discriminate|]. split; [|split; [|split; [|reflexivity]]].
      * intros i I _. exact I.
      * intros x a [E|I] _; [injection E as <- <-; reflexivity|destruct I].
      * intros n [<-|[]]. exists [6%Z]. split; [exists 5%Z, 1%Z; auto|]. intros [|[|k]] o Ek _; try discriminate. injection Ek as <-. reflexivity.
Qed.
Print Assumptions C54_shared_default_refuted.
