(** C17: constant folding. *)
From Coq Require Import String List Bool Arith ZArith Lia.
From Verif Require Import FGraph FGraphSpec FGraphProofs RewriteProofs MergeModel MergeSpec Tensor OnnxSpec FoldModel FoldOnnxSpec FoldMapModel
  FoldMapProofs FoldGraphModel FoldGraphSpec FoldGraphProofs ValidCheck.
Import ListNotations.
Local Open Scope string_scope.
Local Open Scope list_scope.

(** Every folding function of the code: when it returns values for constant inputs, these are the values the
    ONNX operator gives, and the only ones; for every element type, opset, attributes, shapes and contents.
    ([covered] excludes Reshape with allowzero, see below.) *)
Theorem C17_folding_functions_agree_with_onnx :
  forall A (ival : A -> Z) cast add mul sub opset op f at_ nout ins vs,
    func_map A ival cast add mul sub opset op = Some f -> covered op at_ nout ->
    f at_ nout ins = Some vs ->
    forall vs', onnx_rel A ival cast add mul sub opset op at_ nout ins vs' <-> vs' = vs.
Proof.
  intros A ival cast add mul sub opset op f at_ nout ins vs Hf Cv Ef vs'.
  set (op_rel := fun (o dom : string) a (k : nat) (i : list (tensor A)) (b : list (list (tensor A) -> list (tensor A) -> Prop)) v =>
     onnx_rel A ival cast add mul sub opset o a k i v).
  apply (fold_functions_agree A ival cast add mul sub opset op_rel) with (f := f) (dom := ""); auto.
  intros o d a k i v _ _. unfold op_rel. tauto.
Qed.
Print Assumptions C17_folding_functions_agree_with_onnx.

(** With allowzero set the folded value is not ONNX's: reshaping an empty tensor of shape [2;0] to the target
    [0;0] gives shape [0;0] in ONNX, and the folding function returns shape [2;0]. *)
Theorem C17_reshape_allowzero_refuted :
  exists f y y', func_map Z (fun z => z) (fun _ z => z) Z.add Z.mul Z.sub 14 "Reshape" = Some f /\
    f [("allowzero", AInt 1)] 1 [Tensor [2; 0] []; Tensor [2] [0%Z; 0%Z]] = Some [y] /\
    onnx_rel Z (fun z => z) (fun _ z => z) Z.add Z.mul Z.sub 14 "Reshape" [("allowzero", AInt 1)] 1
      [Tensor [2; 0] []; Tensor [2] [0%Z; 0%Z]] [y'] /\ shape y = [2; 0] /\ shape y' = [0; 0].
Proof.
  eexists _, (Tensor [2; 0] []), (Tensor [0; 0] []). split; [reflexivity|]. split; [reflexivity|]. split; [|auto].
  apply R_reshape with [0%Z; 0%Z]; [split; reflexivity|]. split; [reflexivity|]. split; [reflexivity|]. split; [cbn; lia|]. split; [reflexivity|].
  split; [|split; [reflexivity|]].
  - intros k t d Ht Hd. right. left. cbn. destruct k as [|[|[|k]]]; cbn in Ht, Hd; try discriminate; split; congruence.
  - intros ix jx I J. cbn in J. destruct jx as [|j jx]; [destruct J|]. destruct J as [J _]. lia.
Qed.
Print Assumptions C17_reshape_allowzero_refuted.

(** The whole pass on one graph, with the code's table of functions: if it returns, then the result is valid, has
    the same inputs and outputs, computes exactly what the graph computed, and holds nothing more to fold.
    Partial: constants captured from an enclosing graph count as unknown, and only one graph level is treated. *)
Theorem C17_fold_graph_partial :
  forall A (ival : A -> Z) cast add mul sub opset
    (op_rel : string -> string -> list (string * attr) -> nat -> list (tensor A) ->
              list (list (tensor A) -> list (tensor A) -> Prop) -> list (tensor A) -> Prop)
    cval enc mk_name fuel g c g' c',
    op_ext op_rel -> const_meaning (tensor A) op_rel cval enc -> onnx_semantics A ival cast add mul sub opset op_rel ->
    valid g -> foldable_shape (tensor A) (func_map A ival cast add mul sub opset) covered g -> fresh_names mk_name g c ->
    fold_graph (tensor A) cval enc (func_map A ival cast add mul sub opset) mk_name fuel (g, c) = Some (g', c') ->
    valid g' /\ f_ins g' = f_ins g /\ f_outs g' = f_outs g /\
    (forall r args res, body_rel op_rel r g args res <-> body_rel op_rel r g' args res) /\
    forall n, In n (f_nodes g') -> f_dom n = "" \/ f_dom n = "ai.onnx" -> evaluates (f_op n) = true ->
      (forall t, In t (f_in n) -> t <> "" -> exists k, In k (f_nodes g') /\ constant k /\ f_out k = [t]) ->
      exists o, In o (f_out n) /\ In o (f_outs g').
Proof.
  intros A ival cast add mul sub opset op_rel cval enc mk_name fuel g c g' c' ext cm sem [rk W] Sh Fr E.
  assert (fa := fold_functions_agree A ival cast add mul sub opset op_rel sem).
  destruct (fold_graph_spec (tensor A) op_rel cval enc _ mk_name covered ext cm fa fuel rk (g, c) (g', c')) as (rk' & (W' & Sh' & _) & Q & Ei & Eo & F); auto.
  { split; [exact W|split; [exact Sh|exact Fr]]. }
  cbn [fst snd] in *. split; [exists rk'; exact W'|]. split; [exact Ei|]. split; [exact Eo|]. split; [exact Q|].
  intros n Hn Hd Ev Hin.
  destruct (existsb (fun o => mem o (f_outs g')) (f_out n)) eqn:X.
  { apply existsb_exists in X. destruct X as (o & Ho & M). exists o. split; auto. now apply mem_in. }
  exfalso. apply (F n Hn). unfold evaluates in Ev. apply existsb_exists in Ev. destruct Ev as (op & Hop & Eop). apply String.eqb_eq in Eop. subst op.
  split; [|split; [|split]].
  - unfold should_skip. rewrite !orb_false_iff, negb_false_iff, orb_true_iff, !String.eqb_eq. unfold is_const.
    assert (K : f_op n <> "Const" /\ f_op n <> "ConstV2" /\ f_op n <> "Identity" /\ f_op n <> "DequantizeLinear").
    { cbn in Hop. repeat split; intro K; rewrite K in Hop; repeat destruct Hop as [Hop|Hop]; try discriminate; destruct Hop. }
    destruct K as (K1 & K2 & K3 & K4). rewrite !orb_false_iff. rewrite <- !String.eqb_neq in *. auto.
  - intros t Ht. unfold input_is_const. destruct (String.eqb_spec t ""); [reflexivity|]. destruct (Hin t Ht n0) as (k & Hk & Ck & Ok).
    cbn [orb]. rewrite (DeadProofs.producer_some rk' g' k t); auto.
    + apply is_const_spec. exact Ck.
    + apply W'. constructor.
    + rewrite Ok. cbn. auto.
  - intros o Ho K. assert (Y : existsb (fun o => mem o (f_outs g')) (f_out n) = true); [|congruence]. apply existsb_exists. exists o. split; auto. now apply mem_in.
  - unfold func_map. cbn in Hop. repeat destruct Hop as [Hop|Hop]; try (rewrite <- Hop; discriminate). destruct Hop.
Qed.
Print Assumptions C17_fold_graph_partial.

(** And it does return, after at most as many rounds as there are nodes, unless a folding function raises: for
    every table of functions that give one value per output, every decodable constant, no omitted inputs. *)
Theorem C17_fold_terminates :
  forall V (op_rel : string -> string -> list (string * attr) -> nat -> list V ->
                     list (list V -> list V -> Prop) -> list V -> Prop) cval enc table mk_name ok g c,
    op_ext op_rel -> const_meaning V op_rel cval enc -> fold_agrees V op_rel table ok ->
    valid g -> foldable_shape V table ok g -> fresh_names mk_name g c ->
    (forall op f at_ k ins, table op = Some f -> exists vs, f at_ k ins = Some vs /\ length vs = k) ->
    (forall n, In n (f_nodes g) -> constant n -> cval (f_attrs n) <> None) ->
    (forall n, In n (f_nodes g) -> table (f_op n) <> None -> ~ In "" (f_in n)) ->
    exists st, fold_graph V cval enc table mk_name (S (length (f_nodes g))) (g, c) = Some st.
Proof.
  intros V op_rel cval enc table mk_name ok g c ext cm fa [rk W] Sh Fr T C1 C2.
  apply (fold_graph_total V op_rel cval enc table mk_name ok ext cm fa T _ rk).
  - split; [exact W|split; [exact Sh|exact Fr]].
  - split; assumption.
  - cbn [fst]. unfold nonconst. apply Nat.lt_succ_r. clear. induction (f_nodes g) as [|n l IH]; cbn; auto. destruct (is_const n); cbn [negb length]; [lia|apply le_n_S; exact IH].
Qed.
Print Assumptions C17_fold_terminates.

(** the hypotheses are met: a graph whose Transpose and Unsqueeze chain is folded to one constant *)
Definition w_enc (t : tensor Z) : list (string * attr) := [("shape", AInts (map Z.of_nat (shape t))); ("data", AInts (data t))].
Definition w_cval (at_ : list (string * attr)) : option (tensor Z) :=
  match at_ with [("shape", AInts s); ("data", AInts d)] => Some (Tensor (map Z.to_nat s) d) | _ => None end.
Definition w_rel (op dom : string) (at_ : list (string * attr)) (k : nat) (ins : list (tensor Z))
  (bs : list (list (tensor Z) -> list (tensor Z) -> Prop)) (vs : list (tensor Z)) : Prop :=
  if String.eqb op "Const" || String.eqb op "ConstV2" then exists v, w_cval at_ = Some v /\ vs = [v]
  else onnx_rel Z (fun z => z) (fun _ z => z) Z.add Z.mul Z.sub 11 op at_ k ins vs.
Definition w_name (k : nat) : string := "const_fold_opt__" ++ String.concat "" (repeat "I" k).
Definition w_graph : fgraph :=
  FGraph [ FNode "c" "Const" "" (w_enc (Tensor [2; 3] [1; 2; 3; 4; 5; 6]%Z)) [] ["c"] [];
           FNode "t" "Transpose" "" [("perm", AInts [1; 0]%Z)] ["c"] ["t"] [];
           FNode "u" "Unsqueeze" "" [("axes", AInts [0]%Z)] ["t"] ["u"] [];
           FNode "a" "Add" "" [] ["u"; "x"] ["a"] [] ] ["x"] ["a"].
Example C17_witness_hypotheses :
  op_ext w_rel /\ const_meaning (tensor Z) w_rel w_cval w_enc /\
  onnx_semantics Z (fun z => z) (fun _ z => z) Z.add Z.mul Z.sub 11 w_rel /\ valid w_graph /\
  foldable_shape (tensor Z) (func_map Z (fun z => z) (fun _ z => z) Z.add Z.mul Z.sub 11) covered w_graph /\
  fresh_names w_name w_graph 0.
Proof.
  split; [|split; [|split; [|split; [|split]]]].
  - intros op dom at_ k ins bs bs' vs _. unfold w_rel. tauto.
  - split.
    + intros op dom at_ vs [->| ->]; unfold w_rel; cbn; tauto.
    + intro v. destruct v as [sh d]. cbn. rewrite map_map. do 2 f_equal. induction sh as [|x sh IH]; cbn; auto. rewrite Nat2Z.id. f_equal. exact IH.
  - intros op dom at_ k ins vs Ev _. unfold w_rel. replace (String.eqb op "Const" || String.eqb op "ConstV2") with false; [tauto|].
    symmetry. apply orb_false_iff. rewrite !String.eqb_neq. split; intros ->; discriminate.
  - apply (valid_check_spec [("c", 1); ("t", 2); ("u", 3); ("x", 0); ("a", 4)]). vm_compute. reflexivity.
  - constructor; intros n Hn; cbn in Hn; destruct Hn as [<-|[<-|[<-|[<-|[]]]]].
    1-4: cbn; intros [K|[]]; discriminate.
    1: intros _; cbn; eauto.
    1-3: intros [K|K]; discriminate.
    1: intros Nc; exfalso; apply Nc; left; reflexivity.
    all: intros _ _; split; [reflexivity|]; split; [reflexivity|intro K; discriminate].
  - split; [|split].
    + intros k k' E. unfold w_name in E. apply (f_equal String.length) in E. cbn in E. repeat apply Nat.succ_inj in E.
      assert (L : forall n, String.length (String.concat "" (repeat "I" n)) = n).
      { induction n as [|[|n] IH]; auto. cbn in *. rewrite IH. reflexivity. }
      now rewrite !L in E.
    + intros k E. discriminate.
    + intros k _. cbn. intuition discriminate.
Qed.
Example C17_witness_run :
  fold_graph (tensor Z) w_cval w_enc (func_map Z (fun z => z) (fun _ z => z) Z.add Z.mul Z.sub 11) w_name 5 (w_graph, 0) =
  Some (FGraph [ FNode "c" "Const" "" (w_enc (Tensor [2; 3] [1; 2; 3; 4; 5; 6]%Z)) [] ["c"] [];
                 FNode "a" "Add" "" [] ["const_fold_opt__I"; "x"] ["a"] [];
                 FNode "const_fold_opt__" "Const" "" (w_enc (Tensor [3; 2] [1; 4; 2; 5; 3; 6]%Z)) [] ["const_fold_opt__"] [];
                 FNode "const_fold_opt__I" "Const" "" (w_enc (Tensor [1; 3; 2] [1; 4; 2; 5; 3; 6]%Z)) [] ["const_fold_opt__I"] [] ]
              ["x"] ["a"], 2).
Proof. vm_compute. reflexivity. Qed.
