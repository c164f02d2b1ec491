(** C14, C15: the identity optimizer. *)
From Coq Require Import String List Bool Arith Lia.
From Verif Require Import FGraph FGraphProofs FGraphSpec IdentityModel IdentityProofs ApplyOptProofs.
Import ListNotations.
Local Open Scope string_scope.
Local Open Scope list_scope.

Definition id_shape_node (n : fnode) : Prop := f_op n = "Identity" ->
    exists x y, f_in n = [x] /\ f_out n = [y] /\ x <> "" /\ y <> "" /\ f_bodies n = [].
Definition all_stuck (g : fgraph) : Prop := forall n, In n (f_nodes g) -> f_op n = "Identity" -> stuck g n.

Lemma identity_optimizer_spec V op_rel : @op_ext V op_rel -> identity_meaning op_rel ->
  forall rk g, (forall h, within g h -> good rk h) -> identity_shape g ->
  exists g' rk', identity_optimizer g = Some g' /\ W rk' g' /\ equiv op_rel g g' /\
    f_ins g' = f_ins g /\ f_outs g' = f_outs g /\ forall h, within g' h -> all_stuck h.
Proof.
  intros ext idm rk g Hg Hs.
  destruct (apply_opt_spec V op_rel ext optimize_level id_shape_node all_stuck) with (d := depth g) (rk := rk) (g := g)
    as (g' & rk' & E & [W1 W2] & Eq & Ei & Eo & _ & P).
  - intros n n' (_ & E2 & _ & _ & E5 & E6 & E7) H Hop. rewrite E2 in Hop. destruct (H Hop) as (x & y & A & B & C & D & F).
    exists x, y. rewrite E5, E6. repeat (split; auto). rewrite F in E7. destruct (f_bodies n'); [auto|discriminate].
  - intros ns ns' gi go F H n' Hn' Hop. cbn [f_nodes] in Hn'. destruct (Forall2_in_r _ _ _ _ F Hn') as (n & Hn & (_ & E2 & _ & _ & E5 & E6 & E7)).
    rewrite E2 in Hop. destruct (H n Hn Hop) as (x & y & A & B & C & D). exists x, y. rewrite E5, E6.
    repeat (split; [auto|]). cbn [f_ins f_outs] in *. destruct D as [D|D]; auto. left. intro K. apply D.
    rewrite in_defs in *. cbn [f_ins f_nodes] in *. destruct K as [Nk [K|(m' & Hm' & K)]]; auto. split; auto. right.
    destruct (Forall2_in_r _ _ _ _ F Hm') as (m & Hm & (_ & _ & _ & _ & _ & F6 & _)). exists m. rewrite <- F6. auto.
  - intros rk0 g0 [A B]. destruct (level_spec V op_rel ext idm rk0 g0) as (g1 & rk1 & E & [W1 W2] & Eq & Ei & Eo & Dp & Nr & St).
    { split; [exact A|]. intros h n Hh Hn Hop. exact (B h n Hh Hn Hop). }
    exists g1, rk1. split; auto. split.
    { split; [exact W1|]. intros h n Hh Hn Hop. exact (W2 h n Hh Hn Hop). }
    repeat (split; [auto|]). exact St.
  - lia.
  - split; [exact Hg|]. intros h n Hh Hn Hop. exact (Hs h n Hh Hn Hop).
  - exists g', rk'. split; auto. split; [split; [exact W1|]|auto 6]. intros h n Hh Hn Hop. exact (W2 h n Hh Hn Hop).
Qed.

(** C14.  On every valid model the identity optimizer succeeds; the result is again a valid model, has the
    same inputs and outputs (names, number, order), and computes the same thing for every meaning of the
    other operators, every model input and, for body graphs, every surrounding scope. *)
Theorem C14_identity_elimination_preserves :
  forall V (op_rel : string -> string -> list (string * attr) -> nat -> list V ->
                     list (list V -> list V -> Prop) -> list V -> Prop) g,
    op_ext op_rel -> identity_meaning op_rel -> valid g -> identity_shape g ->
    exists g', identity_optimizer g = Some g' /\ valid g' /\ identity_shape g' /\
      f_ins g' = f_ins g /\ f_outs g' = f_outs g /\
      forall r args res, body_rel op_rel r g args res <-> body_rel op_rel r g' args res.
Proof.
  intros V op_rel g ext idm [rk Hg] Hs.
  destruct (identity_optimizer_spec V op_rel ext idm rk g Hg Hs) as (g' & rk' & E & [W1 W2] & Eq & Ei & Eo & _).
  exists g'. split; auto. split; [exists rk'; exact W1|]. split; auto.
Qed.
Print Assumptions C14_identity_elimination_preserves.

(** C15.  Every Identity that remains, at any depth, produces an output of its graph and reads a tensor that
    comes from outside the graph, or is a graph input, or is itself a graph output; and running the
    optimizer again changes nothing. *)
Theorem C15_identity_elimination_complete :
  forall g, valid g -> identity_shape g ->
    exists g', identity_optimizer g = Some g' /\ identity_optimizer g' = Some g' /\
      forall h n, within g' h -> In n (f_nodes h) -> f_op n = "Identity" ->
        exists x y, f_in n = [x] /\ f_out n = [y] /\ In y (f_outs h) /\
          (~ In x (defs h) \/ In x (f_ins h) \/ In x (f_outs h)).
Proof.
  intros g [rk Hg] Hs.
  pose (op := fun (o d : string) (a : list (string * attr)) (k : nat) (i : list unit) (b : list (list unit -> list unit -> Prop)) (v : list unit) => v = i).
  assert (ext : op_ext op) by (intros o d a k i bs bs' vs _ H; exact H).
  assert (idm : identity_meaning op) by (intros d a v vs; unfold op; tauto).
  destruct (identity_optimizer_spec unit op ext idm rk g Hg Hs) as (g' & rk' & E & [W1 W2] & _ & _ & _ & P).
  exists g'. split; auto. split.
  - apply apply_opt_fix; auto. intros h Hh. apply (level_fix rk').
    + split.
      * intros k Hk. apply W1. eapply within_trans; eauto.
      * intros k n Hk. apply W2. eapply within_trans; eauto.
    + apply (P h Hh).
  - intros h n Hh Hn Hop. exact (P h Hh n Hn Hop).
Qed.
Print Assumptions C15_identity_elimination_complete.

(** ** Witness: an Identity chain to an output and one used inside the body of a Loop *)
Definition ex_body : fgraph :=
  FGraph [FNode "add" "Add" "" [] ["i2"; "bx"] ["by"] []; FNode "bid" "Identity" "" [] ["by"] ["bo"] []] ["bx"] ["bo"].
Definition ex_graph : fgraph :=
  FGraph [FNode "abs" "Abs" "" [] ["x"] ["a"] [];
          FNode "id1" "Identity" "" [] ["a"] ["i1"] [];
          FNode "id2" "Identity" "" [] ["i1"] ["i2"] [];
          FNode "loop" "Loop" "" [] ["x"] ["l"] [ex_body];
          FNode "id3" "Identity" "" [] ["l"] ["out"] [];
          FNode "id4" "Identity" "" [] ["x"] ["out2"] []] ["x"] ["out"; "out2"].
Definition ex_rank (t : string) : nat :=
  match find (fun p => String.eqb (fst p) t) [("x", 1); ("a", 2); ("i1", 3); ("i2", 4); ("bx", 1); ("by", 5); ("bo", 6); ("l", 7); ("out", 8); ("out2", 2)] with
  | Some (_, k) => k | None => 0 end.
Ltac nodup := repeat (constructor; [cbn; intuition discriminate|]); constructor.
Lemma ex_valid : valid ex_graph /\ identity_shape ex_graph.
Proof.
  assert (Hw : forall h, within ex_graph h -> h = ex_graph \/ h = ex_body).
  { intros h H. inversion H as [|n b h0 Hn Hb H']; subst; auto. cbn in Hn.
    repeat (destruct Hn as [<-|Hn]; [cbn in Hb; try contradiction|]); try contradiction.
    destruct Hb as [<-|[]]. inversion H' as [|n b h0 Hn Hb H'']; subst; auto. cbn in Hn.
    repeat (destruct Hn as [<-|Hn]; [cbn in Hb; try contradiction|]); contradiction. }
  split.
  - exists ex_rank. intros h H. apply Hw in H. destruct H as [->| ->]; constructor.
    + intros o Ho. cbn in Ho |- *. intuition (subst; auto 20).
    + vm_compute. nodup.
    + intros t Ht. vm_compute in Ht. contradiction.
    + cbn. nodup.
    + intros n t o Hn Ht Ho No. cbn in Hn.
      repeat (destruct Hn as [<-|Hn]; [vm_compute in Ht; cbn in Ho; repeat (destruct Ht as [<-|Ht]; [repeat (destruct Ho as [<-|Ho]; [vm_compute; lia|]); contradiction|]); contradiction|]); contradiction.
    + cbn. intuition discriminate.
    + intros o Ho. cbn in Ho |- *. intuition (subst; auto 20).
    + vm_compute. nodup.
    + intros t Ht K. vm_compute in Ht. destruct Ht as [<-|[]]. vm_compute in K. intuition discriminate.
    + cbn. nodup.
    + intros n t o Hn Ht Ho No. cbn in Hn.
      repeat (destruct Hn as [<-|Hn]; [vm_compute in Ht; cbn in Ho; repeat (destruct Ht as [<-|Ht]; [repeat (destruct Ho as [<-|Ho]; [vm_compute; lia|]); contradiction|]); contradiction|]); contradiction.
    + cbn. intuition discriminate.
  - intros h n H Hn Hop. apply Hw in H. destruct H as [->| ->]; cbn in Hn;
      repeat (destruct Hn as [<-|Hn]; [cbn in Hop; first [discriminate|do 2 eexists; cbn; repeat split; discriminate]|]); contradiction.
Qed.
Example C14_witness :
  identity_optimizer ex_graph = Some
    (FGraph [FNode "abs" "Abs" "" [] ["x"] ["a"] [];
             FNode "loop" "Loop" "" [] ["x"] ["out"]
               [FGraph [FNode "add" "Add" "" [] ["a"; "bx"] ["bo"] []] ["bx"] ["bo"]];
             FNode "id4" "Identity" "" [] ["x"] ["out2"] []] ["x"] ["out"; "out2"]).
Proof. reflexivity. Qed.
(** the hypotheses on the operators can be met *)
Example C14_ops_witness : exists op_rel : string -> string -> list (string * attr) -> nat -> list nat ->
                     list (list nat -> list nat -> Prop) -> list nat -> Prop,
  op_ext op_rel /\ identity_meaning op_rel /\ op_rel "Add" "" [] 1 [2; 3] [] [5].
Proof.
  exists (fun op _ _ _ ins _ vs => if String.eqb op "Identity" then vs = ins else vs = [fold_right Nat.add 0 ins]).
  split; [|split]; [intros o d a k i bs bs' vs _ H; exact H|intros d a v vs; cbn; tauto|reflexivity].
Qed.
