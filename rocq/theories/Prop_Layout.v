(** C34, C35: the layout options; C51, C52: construction of a graph. *)
From Coq Require Import String List Bool Arith ZArith Lia.
From Verif Require Import FGraph FGraphSpec FGraphProofs IdentityModel IdentityProofs DeadModel Tensor OnnxSpec TensorProofs LayoutModel LayoutSpec LayoutProofs ValidCheck.
Import ListNotations.
Local Open Scope string_scope.
Local Open Scope list_scope.
Notation meaning V := (string -> string -> list (string * attr) -> nat -> list V -> list (list V -> list V -> Prop) -> list V -> Prop).

(** C34.  inputs_as_nchw: for inputs of recorded rank 4 the conversion succeeds, the names and the order of inputs and
    outputs stay, and the new model gives on channel-first images what the old one gave on channel-last images;
    all other inputs and outputs are as before.  Every recorded shape that was right stays right. *)
Theorem C34_inputs_as_nchw :
  forall A (op_rel : meaning (tensor A)) fresh named g sh,
    op_ext op_rel -> transpose_meaning op_rel -> valid g ->
    (forall x, In x named -> In x (f_ins g)) -> (forall x, In x named -> sh x <> None) ->
    let images := filter (rank4 sh) named in
    supply g images fresh (fun x => port0 (fresh x)) ->
    exists g' sh', transpose_inputs fresh named g sh = Some (g', sh') /\ valid g' /\ f_ins g' = f_ins g /\ f_outs g' = f_outs g /\
      (forall r args args' res res', relayout images (f_ins g) args args' -> relayout images (f_outs g) res res' ->
         (body_rel op_rel r g args res <-> body_rel op_rel r g' args' res')) /\
      (forall r r'', run op_rel r r'' g' ->
         exists r', run op_rel r r' g /\ runs_relayout images g r' r'' /\ (shapes_right sh r' g -> shapes_right sh' r'' g')).
Proof.
  intros A op_rel fresh named g sh ext tm V Sub Kn images Su.
  destruct (transpose_inputs_correct A op_rel ext tm fresh named g sh V Sub Su Kn) as (g' & sh' & E & V' & Ach).
  exists g', sh'. split; [exact E|]. split; [exact V'|]. split; [apply Ach|]. split; [apply Ach|]. destruct V as [rk H]. split.
  - intros r args args' res res' Ri Ro. apply (achieved_body A op_rel rk images g sh g' sh' H Ach r); auto.
    intros x Hx. left. apply Sub. apply filter_In in Hx. tauto.
  - apply Ach.
Qed.
Print Assumptions C34_inputs_as_nchw.

(** C34, the other direction of the last clause: every run of the old model on images gives one of the new model. *)
Theorem C34_no_result_is_lost :
  forall A (op_rel : meaning (tensor A)) fresh named g sh g' sh',
    op_ext op_rel -> transpose_meaning op_rel -> valid g ->
    (forall x, In x named -> In x (f_ins g)) -> (forall x, In x named -> sh x <> None) ->
    supply g (filter (rank4 sh) named) fresh (fun x => port0 (fresh x)) ->
    transpose_inputs fresh named g sh = Some (g', sh') ->
    forall r r', run op_rel r r' g -> (forall x, In x named -> rank4 sh x = true -> wf (r' x) /\ length (shape (r' x)) = 4) ->
      exists r'', run op_rel r r'' g' /\ runs_relayout (filter (rank4 sh) named) g r' r''.
Proof.
  intros A op_rel fresh named g sh g' sh' ext tm V Sub Kn Su E r r' R Im.
  destruct (transpose_inputs_correct A op_rel ext tm fresh named g sh V Sub Su Kn) as (g2 & sh2 & E2 & V' & Ach).
  rewrite E in E2. inversion E2; subst g2 sh2. destruct (a_fwd _ _ _ _ _ _ _ Ach r r' R) as (r'' & R' & L & _).
  - intros x Hx. apply filter_In in Hx. apply Im; tauto.
  - exists r''. auto.
Qed.
Print Assumptions C34_no_result_is_lost.

(** C35, what is proved: the outputs in question are private - computed by an Identity that is the only reader of its
    input.  Missing: outputs whose value is also used inside the model (see C35_shared_output_refuted). *)
Theorem C35_outputs_as_nchw_partial :
  forall A (op_rel : meaning (tensor A)) fresh named g sh,
    op_ext op_rel -> transpose_meaning op_rel -> identity_meaning op_rel -> valid g ->
    (forall o, In o named -> In o (f_outs g)) -> (forall o, In o named -> sh o <> None) ->
    (forall o, In o named -> rank4 sh o = true -> private_output g o) ->
    let images := filter (rank4 sh) named in
    supply g images fresh (fun x => port0 (fresh x)) ->
    exists g' sh', transpose_outputs fresh named g sh = Some (g', sh') /\ valid g' /\ f_ins g' = f_ins g /\ f_outs g' = f_outs g /\
      (forall r args args' res res', relayout images (f_ins g) args args' -> relayout images (f_outs g) res res' ->
         (body_rel op_rel r g args res <-> body_rel op_rel r g' args' res')) /\
      (forall r r'', run op_rel r r'' g' ->
         exists r', run op_rel r r' g /\ runs_relayout images g r' r'' /\ (shapes_right sh r' g -> shapes_right sh' r'' g')).
Proof.
  intros A op_rel fresh named g sh ext tm im V Sub Kn Pr images Su.
  destruct (transpose_outputs_correct A op_rel ext tm fresh named g sh im V Sub Pr Su Kn) as (g' & sh' & E & V' & Ach).
  exists g', sh'. split; [exact E|]. split; [exact V'|]. split; [apply Ach|]. split; [apply Ach|]. destruct V as [rk H]. split.
  - intros r args args' res res' Ri Ro. apply (achieved_body A op_rel rk images g sh g' sh' H Ach r); auto.
    intros x Hx. right. apply Sub. apply filter_In in Hx. tauto.
  - apply Ach.
Qed.
Print Assumptions C35_outputs_as_nchw_partial.

(** C51.  Building a graph puts an Identity behind every output that is not an input: inputs and outputs keep their
    names and order, every tensor of the given graph keeps its name and its value, in every run; no node reads a model
    output any more; an output that was not read in the given graph is private. *)
Theorem C51_outputs_keep_names_and_values :
  forall raw nm g, valid g -> NoDup (f_outs g) -> supply g (f_outs g) nm raw ->
    exists g', wrap_outputs raw nm g = Some g' /\ valid g' /\ f_ins g' = f_ins g /\ f_outs g' = f_outs g /\
      (forall V (op_rel : meaning V), op_ext op_rel -> identity_meaning op_rel -> same_values op_rel g g') /\
      (forall o, In o (f_outs g) -> ~ In o (f_ins g) ->
         (exists d, In d (f_nodes g') /\ f_op d = "Identity" /\ f_out d = [o]) /\ (forall m, In m (f_nodes g') -> ~ In o (fv_node m)) /\
         ((forall m, In m (f_nodes g) -> ~ In o (fv_node m)) -> private_output g' o)).
Proof.
  intros raw nm g [rk H] ND Su. destruct (wrap_fold raw nm (f_outs g) rk g H ND (fun _ K => K) Su) as (g' & E & W & I & O & D & S & F & _).
  exists g'. split; [exact E|]. split; [exact W|]. split; [exact I|]. split; [exact O|]. split; [exact S|].
  intros o Ho Ni. destruct (F o Ho Ni) as (d & x & A1 & A2 & A3 & A4 & A5 & A6 & A7 & A8 & A9 & A10). split; [exists d; auto|]. split; [auto|].
  intro U. exists d, x. repeat (split; [auto; fail|]). exact A10.
Qed.
Print Assumptions C51_outputs_keep_names_and_values.

(** C51, results: the model computes the same outputs *)
Theorem C51_same_results :
  forall raw nm g g', valid g -> NoDup (f_outs g) -> supply g (f_outs g) nm raw -> wrap_outputs raw nm g = Some g' ->
    forall V (op_rel : meaning V), op_ext op_rel -> identity_meaning op_rel ->
    forall r args res, body_rel op_rel r g args res <-> body_rel op_rel r g' args res.
Proof.
  intros raw nm g g' Vg ND Su E V op_rel ext im. destruct (C51_outputs_keep_names_and_values raw nm g Vg ND Su) as (g2 & E2 & _ & I & O & S & _).
  rewrite E in E2. inversion E2; subst g2. destruct (S V op_rel ext im) as [F B]. intros r args res. rewrite !body_rel_eq, I, O.
  destruct Vg as [rk H]. assert (G := H g (within_refl _)).
  assert (Ei : forall r1 r2 : string -> V, (forall x, In x (defs g) -> r2 x = r1 x) -> map r2 (f_ins g) = map r1 (f_ins g) /\ map r2 (f_outs g) = map r1 (f_outs g)).
  { intros r1 r2 K. split; apply map_ext_in; intros x Hx; apply K; [|apply (g_outs _ _ G); auto]. apply in_defs. split; auto. intros ->. exact (g_noself _ _ G Hx). }
  split.
  - intros (r' & A1 & A2 & A3 & A4). destruct (F r r' (conj A1 A3)) as (r'' & [B1 B2] & K). destruct (Ei r' r'' K) as [K1 K2]. exists r''. rewrite K1, K2. auto.
  - intros (r'' & A1 & A2 & A3 & A4). destruct (B r r'' (conj A1 A3)) as (r' & [B1 B2] & K). destruct (Ei r' r'' K) as [K1 K2]. exists r'. rewrite <- K1, <- K2. auto.
Qed.
Print Assumptions C51_same_results.

(** C35 with C51: for outputs that the given model does not use inside, building the graph and then outputs_as_nchw
    gives the model with channel-first outputs. *)
Theorem C35_final_outputs_as_nchw_partial :
  forall A (op_rel : meaning (tensor A)) raw nm fresh named g g1 sh,
    op_ext op_rel -> transpose_meaning op_rel -> identity_meaning op_rel -> valid g ->
    NoDup (f_outs g) -> supply g (f_outs g) nm raw -> wrap_outputs raw nm g = Some g1 ->
    (forall o, In o named -> In o (f_outs g) /\ ~ In o (f_ins g) /\ sh o <> None /\ forall m, In m (f_nodes g) -> ~ In o (fv_node m)) ->
    let images := filter (rank4 sh) named in
    supply g1 images fresh (fun x => port0 (fresh x)) ->
    exists g' sh', transpose_outputs fresh named g1 sh = Some (g', sh') /\ valid g' /\ f_ins g' = f_ins g /\ f_outs g' = f_outs g /\
      forall r args args' res res', relayout images (f_ins g) args args' -> relayout images (f_outs g) res res' ->
        (body_rel op_rel r g args res <-> body_rel op_rel r g' args' res').
Proof.
  intros A op_rel raw nm fresh named g g1 sh ext tm im V ND Su E Nm images Su1.
  destruct (C51_outputs_keep_names_and_values raw nm g V ND Su) as (g2 & E2 & V2 & I & O & _ & P).
  rewrite E in E2. inversion E2; subst g2.
  destruct (C35_outputs_as_nchw_partial A op_rel fresh named g1 sh ext tm im V2) as (g' & sh' & Et & V' & I' & O' & B & _); auto.
  - intros o Ho. rewrite O. apply Nm. exact Ho.
  - intros o Ho. apply (Nm o Ho).
  - intros o Ho _. destruct (Nm o Ho) as (K1 & K2 & K3 & K4). apply (P o K1 K2). exact K4.
  - exists g', sh'. split; [exact Et|]. split; [exact V'|]. split; [congruence|]. split; [congruence|].
    intros r args args' res res' Ra Rr. rewrite (C51_same_results raw nm g g1 V ND Su E (tensor A) op_rel ext im). apply B; [now rewrite I|now rewrite O].
Qed.
Print Assumptions C35_final_outputs_as_nchw_partial.

(** C52.  Cutting at intermediate tensors: the listed names become the inputs, in that order, before all others.
    Fed with the values the given graph computes for them, the new graph computes the same value for every tensor; and
    a run of the new graph in which each fed value is the one that is computed for it is a run of the given graph. *)
Theorem C52_cut_at_inputs :
  forall alloc names g, valid g -> NoDup names -> (forall x, In x names -> In x (defs g)) ->
    (forall x, In x names -> unused g (alloc x)) -> (forall x y, In x names -> In y names -> x <> y -> alloc x <> alloc y) ->
    exists g', cut_inputs alloc names g = Some g' /\ valid g' /\ f_outs g' = f_outs g /\
      (exists rest, f_ins g' = names ++ rest /\ forall x, In x rest <-> In x (f_ins g) /\ ~ In x names) /\
      forall V (op_rel : meaning V), op_ext op_rel ->
        (forall r r', run op_rel r r' g -> exists r'', run op_rel r r'' g' /\ (forall x, In x (defs g) -> r'' x = r' x) /\
           (forall x, In x names -> ~ In x (f_ins g) -> r'' (alloc x) = r' x)) /\
        (forall r r'', run op_rel r r'' g' -> (forall x, In x names -> ~ In x (f_ins g) -> r'' (alloc x) = r'' x) ->
           exists r', run op_rel r r' g /\ forall x, In x (defs g) -> r'' x = r' x).
Proof.
  intros alloc names g [rk H] ND Nd Al Inj.
  exists (FGraph (map (cut_node alloc names) (f_nodes g)) (names ++ filter (fun x => negb (mem x names)) (f_ins g)) (f_outs g)).
  split; [|split; [|split; [|split]]].
  - unfold cut_inputs. replace (forallb _ names) with true; auto. symmetry. apply forallb_forall. intros x Hx. apply mem_in.
    apply Nd in Hx. unfold defs in Hx. apply in_nonempty in Hx. tauto.
  - eexists. exact (cut_WW alloc names rk g H ND Nd Al Inj).
  - reflexivity.
  - eexists. split; [reflexivity|]. intro x. rewrite filter_In, negb_true_iff, mem_false. tauto.
  - intros V op_rel ext. split; intros r r' R.
    + exact (cut_fwd alloc names rk g H Nd Al Inj V op_rel ext r r' R).
    + intro K. exact (cut_bwd alloc names rk g H Nd Al V op_rel ext r r' R K).
Qed.
Print Assumptions C52_cut_at_inputs.
(** C52: a name that nothing produces is an error, not a silently wrong model. *)
Theorem C52_unknown_input_is_an_error :
  forall alloc names g x, In x names -> x <> "" -> ~ In x (defs g) -> cut_inputs alloc names g = None.
Proof.
  intros alloc names g x Hx Ne N. unfold cut_inputs. destruct (forallb _ names) eqn:F; auto. rewrite forallb_forall in F. apply F, mem_in in Hx.
  exfalso. apply N. unfold defs. apply in_nonempty. auto.
Qed.
Print Assumptions C52_unknown_input_is_an_error.

(** ** witnesses *)
(** a meaning: Transpose as in ONNX, every other operator copies its first input *)
Definition copying : meaning (tensor nat) := fun op dom at_ k ins bodies vs =>
  if String.eqb op "Transpose" then exists p y v, at_ = [("perm", AInts (map Z.of_nat p))] /\ ins = [v] /\ vs = [y] /\ transpose_rel p v y
  else exists v l, ins = v :: l /\ vs = [v].
Lemma copying_ext : op_ext copying.
Proof. intros op dom at_ k ins b b' vs _ H. exact H. Qed.
Lemma copying_identity : identity_meaning copying.
Proof.
  intros dom at_ v vs. unfold copying. cbn [String.eqb Ascii.eqb Bool.eqb]. split.
  - intros (w & l & E & ->). now inversion E.
  - intros ->. exists v, []. auto.
Qed.
Lemma of_nat_inj p q : map Z.of_nat p = map Z.of_nat q -> p = q.
Proof.
  revert q. induction p as [|a p IH]; intros [|b q] E; cbn in E; inversion E; auto. f_equal; [lia|auto].
Qed.
Lemma copying_transpose : transpose_meaning copying.
Proof.
  intros p v vs. unfold copying. cbn [String.eqb Ascii.eqb Bool.eqb]. split.
  - intros (q & y & w & E & Ei & -> & T). inversion Ei; subst w. inversion E as [E']. apply of_nat_inj in E'. subst q. eauto.
  - intros (y & -> & T). exists p, y, v. auto.
Qed.
(** one image of one point with the two channels 7 and 8 *)
Definition last : tensor nat := {| shape := [1; 1; 1; 2]; data := [7; 8] |}.
Definition first_ : tensor nat := {| shape := [1; 2; 1; 1]; data := [7; 8] |}.
Lemma last_first : nchw_of last first_.
Proof.
  exists 1, 1, 1, 2. do 4 (split; [reflexivity|]). intros n h w c Hn Hh Hw Hc.
  assert (n = 0) by lia. assert (h = 0) by lia. assert (w = 0) by lia. subst. destruct c as [|[|c]]; [reflexivity|reflexivity|lia].
Qed.
(** x -> Relu -> raw; output o is an Identity of raw; a second output p is computed from raw, too *)
Definition shared : fgraph := FGraph
  [FNode "relu" "Relu" "" [] ["x"] ["raw"] []; FNode "id" "Identity" "" [] ["raw"] ["o"] []; FNode "neg" "Neg" "" [] ["raw"] ["p"] []] ["x"] ["o"; "p"].
Definition alone : fgraph := FGraph
  [FNode "relu" "Relu" "" [] ["x"] ["raw"] []; FNode "id" "Identity" "" [] ["raw"] ["o"] []; FNode "neg" "Neg" "" [] ["x"] ["p"] []] ["x"] ["o"; "p"].
Definition given : fgraph := FGraph
  [FNode "relu" "Relu" "" [] ["x"] ["o"] []; FNode "neg" "Neg" "" [] ["x"] ["p"] []] ["x"] ["o"; "p"].
Definition sh4 : shapes := fun t => Some [-1; 1; 1; 2]%Z.
Definition new_name (x : string) : string := String.append x "__7".
Ltac new_names := intros; cbn in *; repeat match goal with K : _ \/ _ |- _ => destruct K; subst end; try contradiction; repeat split; cbn; try (intros [|]); intuition congruence.

(** C35 is false for outputs that the model also uses inside: here p changes its layout although only o was named. *)
Theorem C35_shared_output_refuted :
  exists (g : fgraph) (fresh : string -> string) g' sh', valid g /\ supply g ["o"] fresh (fun x => port0 (fresh x)) /\
    transpose_outputs fresh ["o"] g sh4 = Some (g', sh') /\ op_ext copying /\ transpose_meaning copying /\ identity_meaning copying /\
    exists r args args' res res', relayout ["o"] (f_ins g) args args' /\ relayout ["o"] (f_outs g) res res' /\
      body_rel copying r g args res /\ ~ body_rel copying r g' args' res'.
Proof.
  exists shared, new_name. do 2 eexists. split; [apply (valid_check_spec [("x", 1); ("raw", 2); ("o", 3); ("p", 3)]); vm_compute; reflexivity|].
  split; [|split; [vm_compute; reflexivity|split; [exact copying_ext|split; [exact copying_transpose|split; [exact copying_identity|]]]]].
  - split; new_names.
  - exists (fun _ => last), [last], [last], [last; last], [first_; last]. split; [|split; [|split]].
    + do 2 (split; [reflexivity|]). intros [|[|k]] x a a'; cbn; intros; try discriminate. inversion H; inversion H0; inversion H1; subst. split; [intros [K|[]]; discriminate|auto].
    + do 2 (split; [reflexivity|]). intros [|[|[|k]]] x a a'; cbn; intros; try discriminate; inversion H; inversion H0; inversion H1; subst.
      * split; [intros; apply last_first|tauto].
      * split; [intros [K|[]]; discriminate|auto].
    + apply body_rel_eq. exists (fun _ => last). split; [reflexivity|]. split; [reflexivity|]. split; [|reflexivity].
      intros n Hn. cbn in Hn. destruct Hn as [<-|[<-|[<-|[]]]]; apply holds_eq; exists [last]; (split; [exists last, []; auto|]); intros [|[|k]] o; cbn; intros E N; inversion E; subst; reflexivity.
    + intro B. apply body_rel_eq in B. destruct B as (r' & B1 & B2 & B3 & B4). cbn in B2, B4. inversion B2 as [E1]. inversion B4 as [[E2 E3]]. clear B2 B4.
      assert (Q2 : r' "raw" = r' "x").
      { specialize (B3 (FNode "relu" "Relu" "" [] ["x"] ["raw"] [])). cbn in B3. specialize (B3 (or_introl eq_refl)).
        destruct B3 as (vs & (v & l & Ei & ->) & P). inversion Ei; subst. specialize (P 0 "raw" eq_refl). cbn in P. assert (K : Some (r' "x") = Some (r' "raw")) by (apply P; discriminate). congruence. }
      assert (Q4 : nchw_of (r' "raw") (r' (port0 "o__7"))).
      { specialize (B3 (FNode "o__7" "Transpose" "" [("perm", AInts NHWC_TO_NCHW)] ["raw"] [port0 "o__7"] [])). cbn in B3.
        specialize (B3 (or_intror (or_intror (or_intror (or_introl eq_refl))))). destruct B3 as (vs & O & P).
        apply (copying_transpose [0; 3; 1; 2]) in O. destruct O as (y & -> & T). specialize (P 0 (port0 "o__7") eq_refl). cbn in P.
        assert (K : Some y = Some (r' (port0 "o__7"))) by (apply P; discriminate). inversion K; subst y. now apply nchw_transpose. }
      assert (Q5 : r' "p" = r' (port0 "o__7")).
      { specialize (B3 (FNode "neg" "Neg" "" [] [port0 "o__7"] ["p"] [])). cbn in B3. specialize (B3 (or_intror (or_intror (or_introl eq_refl)))).
        destruct B3 as (vs & (v & l & Ei & ->) & P). inversion Ei; subst. specialize (P 0 "p" eq_refl). cbn in P. assert (K : Some (r' (port0 "o__7")) = Some (r' "p")) by (apply P; discriminate). congruence. }
      rewrite Q2, E1, <- Q5, E3 in Q4. destruct Q4 as (N & H & W & C & S1 & S2 & _). inversion S1; subst. inversion S2.
Qed.
Print Assumptions C35_shared_output_refuted.

(** the hypotheses of the theorems above hold for real models *)
Example C34_witness : exists g' sh', transpose_inputs new_name ["x"] shared sh4 = Some (g', sh') /\
  (valid shared /\ (forall x, In x ["x"] -> In x (f_ins shared)) /\ supply shared (filter (rank4 sh4) ["x"]) new_name (fun x => port0 (new_name x))) /\
  map f_in (f_nodes g') = [["x__7:0"]; ["raw"]; ["raw"]; ["x"]] /\ sh' "x" = Some [-1; 2; 1; 1]%Z.
Proof.
  do 2 eexists. split; [vm_compute; reflexivity|]. split; [|split; reflexivity].
  split; [apply (valid_check_spec [("x", 1); ("raw", 2); ("o", 3); ("p", 3)]); vm_compute; reflexivity|]. split; [cbn; tauto|]. split; new_names.
Qed.
Example C35_witness : valid given /\ NoDup (f_outs given) /\ supply given (f_outs given) (String.append "id") (String.append "raw") /\
  exists g1, wrap_outputs (String.append "raw") (String.append "id") given = Some g1 /\ private_output g1 "o" /\
    supply g1 (filter (rank4 sh4) ["o"]) new_name (fun x => port0 (new_name x)) /\
    exists g' sh', transpose_outputs new_name ["o"] g1 sh4 = Some (g', sh') /\ map f_in (f_nodes g') = [["x"]; ["o__7:0"]; ["x"]; ["rawp"]; ["rawo"]] /\
      body_rel copying (fun _ => last) given [last] [last; last] /\ body_rel copying (fun _ => last) g' [last] [first_; last].
Proof.
  assert (Vg : valid given) by (apply (valid_check_spec [("x", 1); ("o", 2); ("p", 3)]); vm_compute; reflexivity).
  assert (Su : supply given (f_outs given) (String.append "id") (String.append "raw")) by (split; new_names).
  assert (ND : NoDup (f_outs given)) by (repeat constructor; cbn; intuition discriminate).
  assert (B : body_rel copying (fun _ => last) given [last] [last; last]).
  { apply body_rel_eq. exists (fun _ => last). split; [reflexivity|]. split; [reflexivity|]. split; [|reflexivity].
    intros n Hn. cbn in Hn. destruct Hn as [<-|[<-|[]]]; apply holds_eq; exists [last]; (split; [exists last, []; auto|]); intros [|[|k]] o; cbn; intros E N; inversion E; subst; reflexivity. }
  do 3 (split; [assumption|]). eexists. split; [vm_compute; reflexivity|]. split; [|split].
  - destruct (C51_outputs_keep_names_and_values (String.append "raw") (String.append "id") given Vg ND Su) as (g2 & E2 & _ & _ & _ & _ & P).
    vm_compute in E2. inversion E2; subst g2. apply (P "o"); cbn; [auto|intuition discriminate|]. intros m [<-|[<-|[]]]; cbn; intuition discriminate.
  - split; new_names.
  - do 2 eexists. split; [vm_compute; reflexivity|]. split; [reflexivity|]. split; [exact B|].
    destruct (C35_final_outputs_as_nchw_partial nat copying (String.append "raw") (String.append "id") new_name ["o"] given _ sh4 copying_ext copying_transpose copying_identity Vg ND Su eq_refl)
      as (g' & sh' & E & _ & _ & _ & K).
    + intros o [<-|[]]. cbn. repeat split; try tauto; try (intros [K|[]]; discriminate); try discriminate. intros m [<-|[<-|[]]]; cbn; intuition discriminate.
    + split; new_names.
    + vm_compute in E. inversion E; subst g'. apply (K (fun _ => last) [last] [last] [last; last] [first_; last]); auto.
      * do 2 (split; [reflexivity|]). intros [|[|k]] x a a'; cbn; intros J0 J1 J2; try discriminate. inversion J0; inversion J1; inversion J2; subst. split; [intros [Q|[]]; discriminate|auto].
      * do 2 (split; [reflexivity|]). intros [|[|[|k]]] x a a'; cbn; intros J0 J1 J2; try discriminate; inversion J0; inversion J1; inversion J2; subst.
        -- split; [intros; apply last_first|tauto].
        -- split; [intros [Q|[]]; discriminate|auto].
Qed.
Example C52_witness : valid shared /\ (forall x, In x ["raw"] -> In x (defs shared)) /\ (forall x, In x ["raw"] -> unused shared (new_name x)) /\
  exists g', cut_inputs new_name ["raw"] shared = Some g' /\ f_ins g' = ["raw"; "x"] /\ map f_out (f_nodes g') = [["raw__7"]; ["o"]; ["p"]] /\
  cut_inputs new_name ["nothing"] shared = None.
Proof.
  split; [apply (valid_check_spec [("x", 1); ("raw", 2); ("o", 3); ("p", 3)]); vm_compute; reflexivity|]. split; [intros x [<-|[]]; cbn; auto|].
  split; [new_names|]. eexists. split; [vm_compute; reflexivity|]. repeat split.
Qed.
