(** C39: DequantizeLinear/QuantizeLinear pairs are removed, and DequantizeLinear is pushed behind operators that copy. *)
From Coq Require Import String List Arith ZArith Bool Lia Reals Lra.
From Verif Require Import FGraph FGraphSpec FGraphProofs RewriteProofs ExecSpec ExecProofs ValidCheck IdentityProofs Tensor OnnxSpec NNSpec PushSpec SwitchModel SwitchSpec PoolModel QuantSpec QuantProofs QdqSpec QdqModel QdqProofs QdqProofs2 QdqProofs3.
Import ListNotations.
Local Open Scope nat_scope.
Local Open Scope string_scope.
Local Open Scope list_scope.

(** Every value of the quantised type comes back, and nothing else: in exact arithmetic ... *)
Theorem C39_round_trip : forall lo hi s z q q', (0 < s)%R -> (lo <= q <= hi)%Z -> (quantizes lo hi s z (dequantize s z q) q' <-> q' = q).
Proof. exact quant_dequant. Qed.
Print Assumptions C39_round_trip.
(** ... and with the product and the quotient rounded to binary32, subnormal numbers included, overflow excluded. *)
Theorem C39_round_trip_binary32 : forall lo hi s z q q', is_f32 s -> (0 < s)%R -> (lo <= q <= hi)%Z -> (lo <= z <= hi)%Z -> (hi - lo < 2 ^ 21)%Z ->
  (quantizes32 lo hi s z (dequantize32 s z q) q' <-> q' = q).
Proof. exact quant_dequant32. Qed.
Print Assumptions C39_round_trip_binary32.

(** Removing the pair: the model stays valid; every result is kept; and there is no new result in calls in which the removed
    DequantizeLinear was applied to quantised values with valid parameters.  Both nodes have a zero point. *)
Theorem C39_pair_removed_partial : forall ar op_rel g q t s z y, op_ext op_rel -> qdq_means op_rel ar ->
  valid g -> In q (f_nodes g) -> f_op q = "QuantizeLinear" -> f_in q = [t; s; z] -> f_out q = [y] -> f_bodies q = [] -> y <> "" ->
  (forall d, producer t g = Some d -> f_op d = "DequantizeLinear" -> f_out d = [t] /\ t <> "" /\ f_bodies d = [] /\ exists x s' z', f_in d = [x; s'; z'] /\ x <> "") ->
  exists g' changed, remove_pair g q = Some (g', changed) /\ valid g' /\ f_ins g' = f_ins g /\
  forall r0 args res, (body_rel op_rel r0 g args res -> body_rel op_rel r0 g' args res) /\
    ((forall r d, producer t g = Some d -> f_op d = "DequantizeLinear" -> (forall u, ~ In u (defs g') -> r u = r0 u) -> map r (f_ins g') = args -> all_hold op_rel r (f_nodes g') ->
        exists w, holds op_rel (upd (tensor scalar) r t w) d) ->
     body_rel op_rel r0 g' args res -> body_rel op_rel r0 g args res).
Proof. intros ar op_rel g q t s z y ext M. now apply (remove_pair_ok op_rel ext ar M). Qed.
Print Assumptions C39_pair_removed_partial.

(** Pushing DequantizeLinear behind a node that copies elements, for one scale and zero point for the whole tensor. *)
Theorem C39_dequantize_pushed_partial : forall ar op_rel nm y' g dq n x s z t y R, op_ext op_rel -> qdq_means op_rel ar -> valid g ->
  In dq (f_nodes g) -> f_op dq = "DequantizeLinear" -> f_in dq = [x; s; z] -> f_out dq = [t] -> f_bodies dq = [] -> t <> "" ->
  In n (f_nodes g) -> In t (f_in n) -> f_out n = [y] -> f_bodies n = [] -> y <> "" ->
  relates op_rel n R -> (forall idx, carries (f_op n) (length (f_in n)) idx -> copies (length (f_in n)) idx R) ->
  (forall i d, In i (f_in n) -> producer i g = Some d -> f_op d = "DequantizeLinear" -> f_out d = [i] /\ i <> "" /\ f_bodies d = [] /\ exists x s z, f_in d = [x; s; z]) ->
  y' <> "" -> ~ In y' (alldefs g) -> ~ In y' (fv_graph g) -> ~ In nm (map f_name (f_nodes g)) ->
  exists g' changed, push_dequantize nm y' g dq n = Some (g', changed) /\ valid g' /\
  forall (r0 : env (tensor scalar)) args res,
    (forall r : env (tensor scalar), (forall u, ~ In u (defs g) -> u <> y' -> r u = r0 u) -> map r (f_ins g) = args -> (forall h, In h (f_nodes g) -> h <> n -> holds op_rel r h) -> shape (r s) = []) ->
    (body_rel op_rel r0 g args res <-> body_rel op_rel r0 g' args res).
Proof.
  intros ar op_rel nm y' g dq n x s z t y R ext M H1 H2 H3 H4 H5 H6 H7 H8 H9 H10 H11 H12 H13 Cp. apply (push_dequantize_ok op_rel ext ar M) with (R := R) (x := x) (z := z) (t := t) (y := y); auto.
  intros idx outs T. apply Cp. now apply (tensor_op_carries n idx outs).
Qed.
Print Assumptions C39_dequantize_pushed_partial.

(** Operators that copy elements, with their parameters from attributes or from further inputs. *)
Theorem C39_copying_operators : forall A len,
  copies 1 [0] (fun ws (w : tensor A) => match ws with [x] => wf x /\ w = x | _ => False end) /\
  (forall par : list (tensor A) -> option (list nat), copies (S len) [0] (first_rel par transpose_rel)) /\
  (forall par : list (tensor A) -> option (bool * list Z), copies (S len) [0] (first_rel par (fun at_ => reshape_rel (fst at_) (snd at_)))) /\
  (forall par : list (tensor A) -> option (list Z), copies (S len) [0] (first_rel par squeeze_rel)) /\
  (forall par : list (tensor A) -> option (list Z), copies (S len) [0] (first_rel par unsqueeze_rel)) /\
  (forall par : list (tensor A) -> option (list nat), copies (S len) [0] (first_rel par tile_rel)) /\
  (forall par : list (tensor A) -> option (list (Z * (Z * Z * Z))), copies (S len) [0] (first_rel par slice_rel)) /\
  (forall axis, copies len (seq 0 len) (concat_rel (A := A) axis)).
Proof.
  intros A len. split; [apply identity_copies|]. split; [intro; apply transpose_copies|]. split; [intro; apply reshape_copies|]. split; [intro; apply squeeze_copies|].
  split; [intro; apply unsqueeze_copies|]. split; [intro; apply tile_copies|]. split; [intro; apply slice_copies|]. intro. apply concat_copies.
Qed.
Print Assumptions C39_copying_operators.
(** ... and an operator that computes does not: ScatterElements with reduction = "add" is no copy of data and updates *)
Theorem C39_scatter_add_refuted : ~ copies (A := nat) 3 [0; 2] (fun ws w => match ws with [Tensor [1] [a]; Tensor [1] [0]; Tensor [1] [b]] => w = Tensor [1] [a + b] | _ => False end).
Proof.
  intros (plan & from & H). specialize (H [Tensor [1] [1]; Tensor [1] [0]; Tensor [1] [1]] (Tensor [1] [2]) eq_refl). destruct H as [H _].
  destruct (H eq_refl) as (_ & _ & _ & K). destruct (K [0]) as [(k & jx & F) K']; [cbn; lia|]. destruct (K' k jx F) as (x & Hk & E & J & G).
  assert (x = Tensor [1] [1]). { destruct Hk as [<-|[<-|[]]]; cbn in E; inversion E; auto. } subst x. destruct jx as [|j [|]]; cbn in J; try tauto; try lia. destruct J as [J _]. assert (j = 0) by lia. subst j. cbn in G. discriminate.
Qed.
Print Assumptions C39_scatter_add_refuted.

(** a reading of the operators: exact arithmetic; without a zero point DequantizeLinear takes 0 and QuantizeLinear makes uint8 *)
Definition u8 (z : Z) : tensor scalar := Tensor [] [QV 0 255 z].
Definition demo_op (op dom : string) (at_ : list (string * attr)) (k : nat) (ins : list (tensor scalar)) (bs : list (list (tensor scalar) -> list (tensor scalar) -> Prop)) (vs : list (tensor scalar)) : Prop :=
  match ins with
  | [] => False
  | v :: ws => exists w, vs = [w] /\
      ((op = "QuantizeLinear" /\ match ws with [s; z] => qua_rel exact (int_attr "axis" at_ 1) s z v w | [s] => qua_rel exact 1 s (u8 0) v w | _ => False end) \/
       (op = "DequantizeLinear" /\ match ws with [s; z] => deq_rel exact (int_attr "axis" at_ 1) s z v w | [s] => exists lo hi, deq_rel exact 1 s (Tensor [] [QV lo hi 0]) v w | _ => False end) \/
       (op = "Transpose" /\ ws = [] /\ transpose_rel (map Z.to_nat (ints_attr "perm" at_ [])) v w) \/
       (op = "Relu" /\ ws = [] /\ w = v))
  end.
Lemma demo_means : op_ext demo_op /\ qdq_means demo_op exact.
Proof.
  split; [intros op dom at_ k ins bs bs' vs _ H; exact H|]. constructor.
  - exists (fun at_ ws v w => match ws with [s] => qua_rel exact 1 s (u8 0) v w | _ => False end). intros dom at_ v ws vs. cbn [demo_op]. split; intros (w & E & K); exists w; (split; [exact E|]).
    + destruct K as [[_ K]|[[K _]|[[K _]|[K _]]]]; try discriminate. destruct ws as [|s [|z [|]]]; auto.
    + left. split; auto. destruct ws as [|s [|z [|]]]; auto.
  - exists (fun at_ ws v w => match ws with [s] => exists lo hi, deq_rel exact 1 s (Tensor [] [QV lo hi 0]) v w | _ => False end). intros dom at_ v ws vs. cbn [demo_op]. split; intros (w & E & K); exists w; (split; [exact E|]).
    + destruct K as [[K _]|[[_ K]|[[K _]|[K _]]]]; try discriminate. destruct ws as [|s [|z [|]]]; auto.
    + right. left. split; auto. destruct ws as [|s [|z [|]]]; auto.
Qed.

Lemma demo_holds (r : env (tensor scalar)) nm op dom at_ x ws y : y <> "" ->
  (holds demo_op r (FNode nm op dom at_ (x :: ws) [y] []) <-> demo_op op dom at_ 1 (r x :: map r ws) [] [r y]).
Proof.
  intro Ny. rewrite holds_eq. cbn [f_op f_dom f_attrs f_in f_out f_bodies map length]. split.
  - intros (vs & H & P). assert (H' := H). cbn [demo_op] in H'. destruct H' as (w & -> & _). specialize (P 0 y eq_refl Ny). cbn in P. injection P as ->. exact H.
  - intro K. exists [r y]. split; auto. intros [|j] o E _; cbn in *; [now inversion E|destruct j; discriminate].
Qed.
Definition env_of (l : list (string * tensor scalar)) (s : string) : tensor scalar :=
  match find (fun p => String.eqb (fst p) s) l with Some p => snd p | None => u8 0 end.
Definition real (x : R) : tensor scalar := Tensor [] [RV x].
(** nearest_even at an integer *)
Lemma at_integer n : nearest_even (IZR n) n.
Proof. unfold nearest_even. rewrite Rminus_diag_eq, Rabs_R0 by reflexivity. split; lra. Qed.

Definition pair_graph : fgraph :=
  FGraph [FNode "d" "DequantizeLinear" "" [] ["x"; "s"; "z"] ["t"] []; FNode "q" "QuantizeLinear" "" [] ["t"; "s"; "z"] ["y"] []; FNode "r" "Relu" "" [] ["y"] ["w"] []] ["x"; "s"; "z"] ["w"].
Example C39_pair_witness :
  valid pair_graph /\ remove_pair pair_graph (FNode "q" "QuantizeLinear" "" [] ["t"; "s"; "z"] ["y"] []) = Some (FGraph [FNode "r" "Relu" "" [] ["x"] ["w"] []] ["x"; "s"; "z"] ["w"], true) /\
  body_rel demo_op (fun _ => u8 0) pair_graph [Tensor [2] [QV 0 255 7; QV 0 255 3]; real 2; u8 5] [Tensor [2] [QV 0 255 7; QV 0 255 3]].
Proof.
  split; [apply (valid_check_spec [("x", 0); ("s", 0); ("z", 0); ("t", 1); ("y", 2); ("w", 3)]); reflexivity|]. split; [reflexivity|].
  rewrite body_rel_eq. exists (env_of [("x", Tensor [2] [QV 0 255 7; QV 0 255 3]); ("s", real 2); ("z", u8 5); ("t", Tensor [2] [RV (dequantize 2 5 7); RV (dequantize 2 5 3)]);
     ("y", Tensor [2] [QV 0 255 7; QV 0 255 3]); ("w", Tensor [2] [QV 0 255 7; QV 0 255 3])]).
  assert (D : deq_rel exact 1 (real 2) (u8 5) (Tensor [2] [QV 0 255 7; QV 0 255 3]) (Tensor [2] [RV (dequantize 2 5 7); RV (dequantize 2 5 3)])).
  { exists 0. repeat split; auto. intros [|i [|]] I; cbn in I; try tauto. destruct I as [I _]. destruct i as [|[|i]]; [| |lia].
    - exists 0%Z, 255%Z, 2%R, 5%Z, 7%Z. cbn. repeat split; auto; try lia; lra.
    - exists 0%Z, 255%Z, 2%R, 5%Z, 3%Z. cbn. repeat split; auto; try lia; lra. }
  split; [|split; [|split]]; try reflexivity.
  - intros t Ht. unfold env_of. destruct (find _ _) as [[k v]|] eqn:E; auto. exfalso. apply find_some in E. destruct E as [E1 E2]. apply String.eqb_eq in E2. cbn [fst] in E2. subst k. apply Ht. cbn in E1 |- *.
    repeat (destruct E1 as [E1|E1]; [injection E1 as <- _; tauto|]). tauto.
  - intros h [<-|[<-|[<-|[]]]]; apply demo_holds; try discriminate; eexists; (split; [reflexivity|]).
    + right. left. split; auto.
    + left. split; auto. cbn. apply (deq_qua_rel exact 1 _ _ _ _ _ D). reflexivity.
    + right. right. right. auto.
Qed.

(** Without zero points the optimizer removes a pair from int8 through float to uint8. *)
Definition int8_graph : fgraph :=
  FGraph [FNode "d" "DequantizeLinear" "" [] ["x"; "s"] ["t"] []; FNode "q" "QuantizeLinear" "" [] ["t"; "s"] ["y"] []; FNode "r" "Relu" "" [] ["y"] ["w"] []] ["x"; "s"] ["w"].
Theorem C39_no_zero_point_refuted : exists g', valid int8_graph /\ remove_pair int8_graph (FNode "q" "QuantizeLinear" "" [] ["t"; "s"] ["y"] []) = Some (g', true) /\
  exists r0 args res, body_rel demo_op r0 int8_graph args res /\ ~ body_rel demo_op r0 g' args res.
Proof.
  eexists. split; [apply (valid_check_spec [("x", 0); ("s", 0); ("t", 1); ("y", 2); ("w", 3)]); reflexivity|]. split; [reflexivity|].
  exists (fun _ => u8 0), [Tensor [] [QV (-128) 127 (-1)]; real 1], [u8 0]. split.
  - rewrite body_rel_eq. exists (env_of [("x", Tensor [] [QV (-128) 127 (-1)]); ("s", real 1); ("t", Tensor [] [RV (dequantize 1 0 (-1))]); ("y", u8 0); ("w", u8 0)]).
    split; [|split; [|split]]; try reflexivity.
    + intros t Ht. unfold env_of. destruct (find _ _) as [[k v]|] eqn:E; auto. exfalso. apply find_some in E. destruct E as [E1 E2]. apply String.eqb_eq in E2. cbn [fst] in E2. subst k. apply Ht. cbn in E1 |- *.
      repeat (destruct E1 as [E1|E1]; [injection E1 as <- _; tauto|]). tauto.
    + intros h [<-|[<-|[<-|[]]]]; apply demo_holds; try discriminate; eexists; (split; [reflexivity|]).
      * right. left. split; auto. cbn. exists (-128)%Z, 127%Z. exists 0. repeat split; auto. intros [|] I; cbn in I; try tauto. exists (-128)%Z, 127%Z, 1%R, 0%Z, (-1)%Z. cbn. repeat split; auto; try lia; lra.
      * left. split; auto. cbn. exists 0. repeat split; auto. intros [|] I; cbn in I; try tauto. exists 0%Z, 255%Z, 1%R, 0%Z, (dequantize 1 0 (-1)), 0%Z. cbn. repeat split; auto; try lra.
        exists (-1)%Z. split; [|reflexivity]. unfold dequantize. cbn [Z.sub Z.add Z.opp]. replace (-1 * 1 / 1)%R with (IZR (-1)) by lra. apply at_integer.
      * right. right. right. auto.
  - rewrite body_rel_eq. intros (r & _ & B & C & D). cbn in B, D. injection B as Bx Bs. injection D as Dw.
    assert (K := C _ (or_introl eq_refl)). apply demo_holds in K; [|discriminate]. cbn in K. destruct K as (w & E & K). injection E as <-.
    destruct K as [[K _]|[[K _]|[[K _]|(_ & _ & K)]]]; try discriminate. rewrite Dw, Bx in K. discriminate.
Qed.
Print Assumptions C39_no_zero_point_refuted.

(** A scale for each position along the default axis 1 does not move through a Transpose. *)
Definition mat (a b c d : scalar) : tensor scalar := Tensor [2; 2] [a; b; c; d].
Definition axis_graph : fgraph :=
  FGraph [FNode "d" "DequantizeLinear" "" [] ["x"; "s"; "z"] ["t"] []; FNode "p" "Transpose" "" [("perm", AInts [1; 0]%Z)] ["t"] ["y"] []; FNode "r" "Relu" "" [] ["y"] ["w"] []] ["x"; "s"; "z"] ["w"].
Theorem C39_default_axis_refuted : exists g', valid axis_graph /\
  push_dequantize "m" "y'" axis_graph (FNode "d" "DequantizeLinear" "" [] ["x"; "s"; "z"] ["t"] []) (FNode "p" "Transpose" "" [("perm", AInts [1; 0]%Z)] ["t"] ["y"] []) = Some (g', true) /\
  exists r0 args res, body_rel demo_op r0 axis_graph args res /\ ~ body_rel demo_op r0 g' args res.
Proof.
  eexists. split; [apply (valid_check_spec [("x", 0); ("s", 0); ("z", 0); ("t", 1); ("y", 2); ("w", 3)]); reflexivity|]. split; [reflexivity|].
  set (X := mat (QV 0 255 1) (QV 0 255 1) (QV 0 255 1) (QV 0 255 1)). set (s := Tensor [2] [RV 1; RV 2]). set (z := Tensor [2] [QV 0 255 0; QV 0 255 0]).
  set (Y := mat (RV (dequantize 1 0 1)) (RV (dequantize 1 0 1)) (RV (dequantize 2 0 1)) (RV (dequantize 2 0 1))).
  exists (fun _ => u8 0), [X; s; z], [Y]. split.
  - rewrite body_rel_eq. exists (env_of [("x", X); ("s", s); ("z", z); ("t", mat (RV (dequantize 1 0 1)) (RV (dequantize 2 0 1)) (RV (dequantize 1 0 1)) (RV (dequantize 2 0 1))); ("y", Y); ("w", Y)]).
    split; [|split; [|split]]; try reflexivity.
    + intros t Ht. unfold env_of. destruct (find _ _) as [[k v]|] eqn:E; auto. exfalso. apply find_some in E. destruct E as [E1 E2]. apply String.eqb_eq in E2. cbn [fst] in E2. subst k. apply Ht. cbn in E1 |- *.
      repeat (destruct E1 as [E1|E1]; [injection E1 as <- _; tauto|]). tauto.
    + intros h [<-|[<-|[<-|[]]]]; apply demo_holds; try discriminate; eexists; (split; [reflexivity|]).
      * right. left. split; auto. cbn. exists 1. repeat split; auto. intros [|i [|j [|]]] I; cbn in I; try tauto. destruct I as (I & J & _).
        destruct i as [|[|i]]; try lia; destruct j as [|[|j]]; try lia; [exists 0%Z, 255%Z, 1%R|exists 0%Z, 255%Z, 2%R|exists 0%Z, 255%Z, 1%R|exists 0%Z, 255%Z, 2%R]; exists 0%Z, 1%Z; cbn; repeat split; auto; try lia; lra.
      * right. right. left. split; auto. split; auto. cbn. split; [unfold is_perm; apply Permutation.perm_swap|]. repeat split; auto. intros [|i [|j [|]]] I; cbn in I; try tauto. destruct I as (I & J & _).
        destruct i as [|[|i]]; try lia; destruct j as [|[|j]]; try lia; reflexivity.
      * right. right. right. auto.
  - rewrite body_rel_eq. intros (r & _ & B & C & D). cbn in B, D. injection B as Bx Bs Bz. injection D as Dw.
    assert (K1 := C _ (or_intror (or_introl eq_refl))). assert (K2 := C _ (or_intror (or_intror (or_introl eq_refl)))). assert (K3 := C _ (or_intror (or_intror (or_intror (or_introl eq_refl))))).
    apply demo_holds in K1; [|discriminate]. apply demo_holds in K2; [|discriminate]. apply demo_holds in K3; [|discriminate]. cbn in K1, K2, K3.
    destruct K1 as (w1 & E1 & K1), K2 as (w2 & E2 & K2), K3 as (w3 & E3 & K3). injection E1 as <-. injection E2 as <-. injection E3 as <-.
    destruct K1 as [[K1 _]|[[K1 _]|[(_ & _ & K1)|[K1 _]]]]; try discriminate. destruct K2 as [[K2 _]|[[K2 _]|[[K2 _]|(_ & _ & K2)]]]; try discriminate. destruct K3 as [[K3 _]|[[_ K3]|[[K3 _]|(K3 & _ & _)]]]; try discriminate.
    rewrite Dw in K2. rewrite <- K2 in K3. rewrite Bs, Bz in K3. destruct K3 as (ax & (_ & _ & _ & [P|[P _]]) & _ & _ & Sy & G); [discriminate|].
    destruct K1 as (_ & _ & _ & Sp & _). rewrite Bx in Sp. unfold X in Sp. vm_compute in Sp. change (shape (r "y") = [2; 2]) in Sp. rewrite Sp in P. cbn in P. injection P as <-.
    destruct (G [0; 1]) as (lo & hi & sv & zv & q & A1 & A2 & A3 & A4 & A5 & A6); [rewrite Sp; cbn; repeat split; lia|]. cbn in A1, A6. injection A1 as <-. injection A2 as <- <- <-. injection A6 as A6.
    unfold dequantize in A6. rewrite !Z.sub_0_r in A6. assert (E : (IZR 1 = IZR (q * 2))%R) by (rewrite mult_IZR; lra). apply eq_IZR in E. lia.
Qed.
Print Assumptions C39_default_axis_refuted.

(** A reader in a body graph: the DequantizeLinear made for it is put into the outer graph, and reads a tensor of the body. *)
Definition nested_reader : fnode := FNode "p" "Transpose" "" [("perm", AInts [1; 0]%Z)] ["t"] ["y"] [].
Definition nested_graph : fgraph :=
  FGraph [FNode "d" "DequantizeLinear" "" [] ["x"; "s"; "z"] ["t"] []; FNode "i" "If" "" [] ["c"] ["v"] [FGraph [nested_reader; FNode "r" "Relu" "" [] ["y"] ["w"] []] [] ["w"]]] ["x"; "s"; "z"; "c"] ["v"].
Theorem C39_nested_reader_refuted : exists g', valid nested_graph /\ In nested_reader (consumers "t" nested_graph) /\
  push_dequantize_nested "m" "y'" nested_graph (FNode "d" "DequantizeLinear" "" [] ["x"; "s"; "z"] ["t"] []) nested_reader = Some (g', true) /\
  fv_graph nested_graph = [] /\ In "y" (fv_graph g') /\ ~ valid g'.
Proof.
  eexists. split; [apply (valid_check_spec [("x", 0); ("s", 0); ("z", 0); ("c", 0); ("t", 1); ("y", 2); ("w", 3); ("v", 4)]); reflexivity|]. split; [cbn; auto|]. split; [reflexivity|]. split; [reflexivity|].
  split; [cbn; auto|]. intros [rk W]. assert (G := W _ (within_refl _)). apply (g_scope _ _ G "y"); cbn; tauto.
Qed.
Print Assumptions C39_nested_reader_refuted.

(** the hypotheses of the theorem about pushing, with a scale for the whole tensor *)
Example C39_push_witness : let n := FNode "p" "Transpose" "" [("perm", AInts [1; 0]%Z)] ["t"] ["y"] [] in
  let R := first_rel (fun ws : list (tensor scalar) => match ws with [] => Some [1; 0] | _ => None end) transpose_rel in
  valid axis_graph /\ In n (f_nodes axis_graph) /\ relates demo_op n R /\ (forall idx outs, tensor_op n = Some (idx, outs) -> copies (length (f_in n)) idx R) /\
  exists X Y : tensor scalar, body_rel demo_op (fun _ => u8 0) axis_graph [X; real 2; u8 0] [Y].
Proof.
  cbv zeta. split; [apply (valid_check_spec [("x", 0); ("s", 0); ("z", 0); ("t", 1); ("y", 2); ("w", 3)]); reflexivity|]. split; [cbn; auto|]. split.
  { intros ws vs. destruct ws as [|x ws]; cbn [f_op f_dom f_attrs first_rel demo_op]; [split; [intros []|intros (w & _ & [])]|]. split; intros (w & E & K); exists w; (split; [exact E|]).
    - destruct K as [[K _]|[[K _]|[(_ & -> & K)|[K _]]]]; try discriminate. exists [1; 0]. split; auto.
    - destruct K as (p & Ep & K). destruct ws; [|discriminate]. injection Ep as <-. right. right. left. auto. }
  split. { intros idx outs E. cbn in E. injection E as <- <-. apply (transpose_copies 0). }
  exists (mat (QV 0 255 1) (QV 0 255 2) (QV 0 255 3) (QV 0 255 4)), (mat (RV (dequantize 2 0 1)) (RV (dequantize 2 0 3)) (RV (dequantize 2 0 2)) (RV (dequantize 2 0 4))).
  rewrite body_rel_eq. exists (env_of [("x", mat (QV 0 255 1) (QV 0 255 2) (QV 0 255 3) (QV 0 255 4)); ("s", real 2); ("z", u8 0); ("t", mat (RV (dequantize 2 0 1)) (RV (dequantize 2 0 2)) (RV (dequantize 2 0 3)) (RV (dequantize 2 0 4)));
    ("y", mat (RV (dequantize 2 0 1)) (RV (dequantize 2 0 3)) (RV (dequantize 2 0 2)) (RV (dequantize 2 0 4))); ("w", mat (RV (dequantize 2 0 1)) (RV (dequantize 2 0 3)) (RV (dequantize 2 0 2)) (RV (dequantize 2 0 4)))]).
  split; [|split; [|split]]; try reflexivity.
  - intros t Ht. unfold env_of. destruct (find _ _) as [[k v]|] eqn:E; auto. exfalso. apply find_some in E. destruct E as [E1 E2]. apply String.eqb_eq in E2. cbn [fst] in E2. subst k. apply Ht. cbn in E1 |- *.
    repeat (destruct E1 as [E1|E1]; [injection E1 as <- _; tauto|]). tauto.
  - intros h [<-|[<-|[<-|[]]]]; apply demo_holds; try discriminate; eexists; (split; [reflexivity|]).
    + right. left. split; auto. cbn. exists 1. repeat split; auto. intros [|i [|j [|]]] I; cbn in I; try tauto. destruct I as (I & J & _).
      destruct i as [|[|i]]; try lia; destruct j as [|[|j]]; try lia; exists 0%Z, 255%Z, 2%R, 0%Z; [exists 1%Z|exists 2%Z|exists 3%Z|exists 4%Z]; cbn; repeat split; auto; try lia; lra.
    + right. right. left. split; auto. split; auto. cbn. split; [unfold is_perm; apply Permutation.perm_swap|]. repeat split; auto. intros [|i [|j [|]]] I; cbn in I; try tauto. destruct I as (I & J & _).
      destruct i as [|[|i]]; try lia; destruct j as [|[|j]]; try lia; reflexivity.
    + right. right. right. auto.
Qed.
