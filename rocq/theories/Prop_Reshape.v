(** C24: the reshape optimizer. *)
From Coq Require Import String List Arith ZArith Bool Lia.
From Verif Require Import Tensor FGraph OnnxSpec PushSpec NNSpec FoldModel TensorProofs FoldProofs FoldFunProofs ReshapeSpec ReshapeModel ReshapeProofs ReshapeProofs2 ReshapeProofs3 ReshapeProofs4 ReshapeProofs5.
Import ListNotations.
Local Open Scope string_scope.
Local Open Scope list_scope.

(** What the symbolic executor computes is right in every execution: under the actual dimensions of the input it
    evaluates to the tensor the graph computes.  Missing for the full claim: Squeeze with negative axes, ReduceProd with
    no axes, Cast to types that change the value, Slice with a negative step from before the start, omitted inputs, Shape
    with attributes (see the refutations below). *)
Theorem C24_symbolic_execution_partial :
  forall A (num : Z -> A) opset cval cast op_rel nodes (r : string -> tensor A) x known fuel t res,
    shape_semantics num opset cval cast op_rel -> all_hold op_rel r nodes ->
    (forall n, In n nodes -> In (f_op n) shape_ops -> simple_node n) ->
    (forall n xs, In n nodes -> In (f_op n) shape_ops -> map r (f_in n) = map (retype num) xs -> plain opset cast (forall i, In i (f_in n) -> constant_tensor nodes i) (f_op n) (f_attrs n) xs) ->
    (forall n, In n nodes -> f_op n = "Shape" -> In x (f_in n) -> f_in n = [x] /\ f_attrs n = [] /\ f_bodies n = [] /\ exists o, f_out n = [o] /\ o <> "") ->
    has_shape known (r x) ->
    compute_output opset cval cast nodes fuel t (feed_of nodes x known) = Some res ->
    r t = retype num (Tensor (shape res)
            (map (fun s => constant s * product (map (fun i => Z.of_nat (nth i (shape (r x)) 0%nat)) (terms s)))%Z (data res))).
Proof.
  intros A num opset cval cast op_rel nodes r x known fuel t res Sem H1 H2 H3 H4 H5 H6.
  exact (symbolic_target num opset cval cast op_rel Sem nodes r x known fuel t res H1 H2 H3 H4 H5 H6 _ (fun i _ => eq_refl)).
Qed.
Print Assumptions C24_symbolic_execution_partial.

(** Replacing the computed shape of a Reshape by the constant one the optimizer chooses, with the Squeeze or Unsqueeze it
    inserts, gives the same tensor, and only that one, in every execution in which the input has the known shape and at
    least one element.  Missing: as above, and a computed shape with an entry 0 when dimensions are shifted. *)
Theorem C24_reshape_optimizer_partial :
  forall A (num : Z -> A) opset cval cast op_rel nodes (r : string -> tensor A) nm dom at_ x t y known fuel shift new,
    shape_semantics num opset cval cast op_rel -> all_hold op_rel r nodes ->
    (forall n, In n nodes -> In (f_op n) shape_ops -> simple_node n) ->
    (forall n xs, In n nodes -> In (f_op n) shape_ops -> map r (f_in n) = map (retype num) xs -> plain opset cast (forall i, In i (f_in n) -> constant_tensor nodes i) (f_op n) (f_attrs n) xs) ->
    (forall n, In n nodes -> f_op n = "Shape" -> In x (f_in n) -> f_in n = [x] /\ f_attrs n = [] /\ f_bodies n = [] /\ exists o, f_out n = [o] /\ o <> "") ->
    has_shape known (r x) -> 0 < size (shape (r x)) ->
    holds op_rel r (FNode nm "Reshape" dom at_ [x; t] [y] []) -> y <> "" -> attr_int "allowzero" at_ 0 = 0%Z ->
    optimize_reshape opset cval cast nodes fuel x t known = Some (shift, new) ->
    (shift <> 0%Z -> forall target, r t = retype num (Tensor [length target] target) -> ~ In 0%Z target) ->
    forall z, optimised shift new (r x) z <-> z = r y.
Proof.
  intros A num opset cval cast op_rel nodes r nm dom at_ x t y known fuel shift new Sem. apply (optimize_reshape_ok num opset cval cast op_rel Sem).
Qed.
Print Assumptions C24_reshape_optimizer_partial.

(** ** executions for the examples: an interpretation that satisfies the semantics *)
Definition ref_rel (opset : nat) (cval : list (string * attr) -> option (tensor Z)) (cast : Z -> Z -> Z)
  (op dom : string) (at_ : list (string * attr)) (k : nat) (ins : list (tensor Z)) (bodies : list (list (tensor Z) -> list (tensor Z) -> Prop)) (vs : list (tensor Z)) : Prop :=
  (In op shape_ops /\ exists y, vs = [y] /\ shape_op opset cval cast at_ op ins y) \/
  (op = "Shape" /\ at_ = [] /\ exists x, ins = [x] /\ vs = [dims_of x]) \/
  (op = "Reshape" /\ exists x target y, ins = [x; Tensor [length target] target] /\ vs = [y] /\ reshape_rel false target x y).
Lemma retype_id t : retype (fun z : Z => z) t = t.
Proof. unfold retype. rewrite map_id. destruct t; reflexivity. Qed.
Lemma ref_semantics opset cval cast : shape_semantics (fun z => z) opset cval cast (ref_rel opset cval cast).
Proof.
  constructor.
  - auto.
  - intros op dom at_ xs vs I [[_ (y & -> & H)]|[(-> & _)|(-> & _)]].
    + exists y. rewrite retype_id. split; auto. rewrite (map_ext _ (fun t => t) retype_id), map_id in H. exact H.
    + exfalso. cbn in I. repeat (destruct I as [I|I]; [discriminate|]). exact I.
    + exfalso. cbn in I. repeat (destruct I as [I|I]; [discriminate|]). exact I.
  - intros dom x vs [[I _]|[(_ & _ & x' & E & ->)|(E & _)]].
    + exfalso. cbn in I. repeat (destruct I as [I|I]; [discriminate|]). exact I.
    + injection E as <-. now rewrite retype_id.
    + discriminate.
  - intros dom at_ x t vs [[I _]|[(E & _)|(_ & x' & target & y & E & -> & R)]] _.
    + exfalso. cbn in I. repeat (destruct I as [I|I]; [discriminate|]). exact I.
    + discriminate.
    + injection E as <- ->. exists target, y. rewrite retype_id. auto.
Qed.
Lemma holds_ref opset cval cast (r : string -> tensor Z) nm op dom at_ ins o :
  ref_rel opset cval cast op dom at_ 1 (map r ins) [] [r o] -> holds (ref_rel opset cval cast) r (FNode nm op dom at_ ins [o] []).
Proof. intro H. exists [r o]. split; [exact H|]. intros [|[|k]] o' E N; try discriminate. cbn in E. injection E as <-. reflexivity. Qed.
Definition valuation (l : list (string * tensor Z)) (t : string) : tensor Z :=
  match find (fun p => String.eqb (fst p) t) l with Some (_, v) => v | None => Tensor [] [0%Z] end.
(** ONNX element type 9 is bool *)
Definition to_type (to z : Z) : Z := if (to =? 9)%Z then (if (z =? 0)%Z then 0%Z else 1%Z) else z.
Definition vec (l : list Z) : tensor Z := Tensor [length l] l.
Definition const_val (at_ : list (string * attr)) : option (tensor Z) := match at_ with [("value", AInts l)] => Some (vec l) | _ => None end.
Definition constant_node (o : string) (l : list Z) : fnode := FNode o "Const" "" [("value", AInts l)] [] [o] [].
Definition node (op : string) (at_ : list (string * attr)) (ins : list string) (o : string) : fnode := FNode o op "" at_ ins [o] [].
Definition iota (sh : list nat) : tensor Z := Tensor sh (map Z.of_nat (seq 0 (size sh))).

(** decisions of the reference operators on concrete tensors, through the functions proved above *)
Lemma gather_now axis (x idx y : tensor Z) : wf x -> wf idx -> np_take x idx axis = Some y -> gather_axis_rel axis x idx y.
Proof. apply take_ok. Qed.
Lemma concat_now axis (xs : list (tensor Z)) y : (forall t, In t xs -> wf t) -> fold_concat xs axis = Some [y] -> concat_rel axis xs y.
Proof. intros W E. destruct (fold_concat_spec xs axis [y] W E) as (z & [=<-] & R). exact R. Qed.
Ltac solve_dims := intros [|[|[|[|k]]]] t d; cbn; intros Ht Hd; try discriminate; try (destruct k; discriminate); injection Ht as <-; injection Hd as <-; unfold dim_ok; cbn; first [lia | intuition lia | auto].

(** a shape with two of three dimensions taken from the input, in another place *)
Definition g1 : list fnode :=
  [node "Shape" [] ["x"] "s"; constant_node "i2" [2%Z]; constant_node "c" [2%Z]; constant_node "i1" [1%Z];
   node "Gather" [] ["s"; "i1"] "d1"; node "Gather" [] ["s"; "i2"] "d2"; node "Concat" [("axis", AInt 0)] ["d1"; "d2"; "c"] "t"].
Definition r1 := valuation [("x", iota [2; 3; 5]); ("s", vec [2; 3; 5]%Z); ("i2", vec [2%Z]); ("i1", vec [1%Z]); ("c", vec [2%Z]); ("d1", vec [3%Z]); ("d2", vec [5%Z]);
  ("t", vec [3; 5; 2]%Z); ("y", Tensor [3; 5; 2] (map Z.of_nat (seq 0 30)))].
Example C24_witness :
  exists shift new, optimize_reshape 13 const_val to_type g1 20 "x" "t" [-1; 3; -1]%Z = Some (shift, new) /\ shift = 0%Z /\ new = [3; -1; 2]%Z /\
    all_hold (ref_rel 13 const_val to_type) r1 g1 /\ holds (ref_rel 13 const_val to_type) r1 (node "Reshape" [] ["x"; "t"] "y") /\
    has_shape [-1; 3; -1]%Z (r1 "x") /\
    optimize_reshape 13 const_val to_type g1 20 "x" "t" [-1; -1; -1]%Z = Some (1%Z, [1; 0; 0; 2]%Z).
Proof.
  eexists _, _. split; [vm_compute; reflexivity|]. split; [reflexivity|]. split; [reflexivity|]. split; [|split; [|split; [|vm_compute; reflexivity]]].
  - intros n I. cbn [g1 In] in I. repeat (destruct I as [<-|I]); try destruct I; apply holds_ref.
    + right. left. split; auto. split; auto. eexists. split; reflexivity.
    + left. split; [cbn; tauto|]. eexists. split; [reflexivity|]. apply S_const; reflexivity.
    + left. split; [cbn; tauto|]. eexists. split; [reflexivity|]. apply S_const; reflexivity.
    + left. split; [cbn; tauto|]. eexists. split; [reflexivity|]. apply S_const; reflexivity.
    + left. split; [cbn; tauto|]. eexists. split; [reflexivity|]. apply S_gather. apply gather_now; reflexivity.
    + left. split; [cbn; tauto|]. eexists. split; [reflexivity|]. apply S_gather. apply gather_now; reflexivity.
    + left. split; [cbn; tauto|]. eexists. split; [reflexivity|]. apply S_concat. apply concat_now; [|reflexivity].
      intros t I. cbn in I. repeat (destruct I as [<-|I]; [reflexivity|]). destruct I.
  - apply holds_ref. right. right. split; auto. exists (r1 "x"), [3; 5; 2]%Z, (r1 "y"). split; [reflexivity|]. split; [reflexivity|].
    eapply reshape_data; [reflexivity|reflexivity|reflexivity|reflexivity|reflexivity|cbn; lia|reflexivity|]. solve_dims.
  - split; [reflexivity|]. cbn. repeat (apply Forall2_cons; [lia|]). apply Forall2_nil.
Qed.

(** the conditions of the theorems on the nodes hold for a graph whose operators are all plain *)
Example C24_witness_conditions :
  (forall n, In n g1 -> In (f_op n) shape_ops -> simple_node n) /\
  (forall n xs, In n g1 -> In (f_op n) shape_ops -> map r1 (f_in n) = map (retype (fun z => z)) xs -> plain 13 to_type (forall i, In i (f_in n) -> constant_tensor g1 i) (f_op n) (f_attrs n) xs) /\
  (forall n, In n g1 -> f_op n = "Shape" -> In "x" (f_in n) -> f_in n = ["x"] /\ f_attrs n = [] /\ f_bodies n = [] /\ exists o, f_out n = [o] /\ o <> "").
Proof.
  split; [|split].
  - intros n I _. cbn [g1 In] in I. repeat (destruct I as [<-|I]); try destruct I; (split; [reflexivity|]; split; [eexists; split; [reflexivity|discriminate]|cbn; intuition discriminate]).
  - intros n xs I _ _. cbn [g1 In] in I. repeat (destruct I as [<-|I]); try destruct I; repeat split; intro; discriminate.
  - intros n I E _. cbn [g1 In] in I. repeat (destruct I as [<-|I]); try destruct I; try discriminate. repeat split. eexists. split; [reflexivity|discriminate].
Qed.

(** ** A computed shape with an entry 0 (copy the dimension) and shifted dimensions: the 0 then copies another dimension.
    Input [2; 1; 3], computed shape [0; 3; 1]. *)
Definition g2 : list fnode :=
  [node "Shape" [] ["x"] "s"; constant_node "i2" [2%Z]; constant_node "i1" [1%Z]; constant_node "zero" [0%Z];
   node "Gather" [] ["s"; "i1"] "d1"; node "Gather" [] ["s"; "i2"] "d2"; node "Concat" [("axis", AInt 0)] ["zero"; "d2"; "d1"] "t"].
Definition r2 := valuation [("x", iota [2; 1; 3]); ("s", vec [2; 1; 3]%Z); ("i2", vec [2%Z]); ("i1", vec [1%Z]); ("zero", vec [0%Z]); ("d1", vec [1%Z]); ("d2", vec [3%Z]);
  ("t", vec [0; 3; 1]%Z); ("y", iota [2; 3; 1])].
Theorem C24_zero_with_shift_refuted :
  exists nodes (r : string -> tensor Z) known shift new z,
    all_hold (ref_rel 13 const_val to_type) r nodes /\ holds (ref_rel 13 const_val to_type) r (node "Reshape" [] ["x"; "t"] "y") /\
    has_shape known (r "x") /\ 0 < size (shape (r "x")) /\
    optimize_reshape 13 const_val to_type nodes 20 "x" "t" known = Some (shift, new) /\
    optimised shift new (r "x") z /\ shape (r "y") = [2; 3; 1] /\ shape z = [1; 3; 2].
Proof.
  exists g2, r2, [-1; -1; -1]%Z, 1%Z, [1; 0; 0; -1]%Z, (iota [1; 3; 2]). split; [|split; [|split; [|split; [|split; [|split; [|split; reflexivity]]]]]].
  - intros n I. cbn [g2 In] in I. repeat (destruct I as [<-|I]); try destruct I; apply holds_ref.
    + right. left. split; auto. split; auto. eexists. split; reflexivity.
    + left. split; [cbn; tauto|]. eexists. split; [reflexivity|]. apply S_const; reflexivity.
    + left. split; [cbn; tauto|]. eexists. split; [reflexivity|]. apply S_const; reflexivity.
    + left. split; [cbn; tauto|]. eexists. split; [reflexivity|]. apply S_const; reflexivity.
    + left. split; [cbn; tauto|]. eexists. split; [reflexivity|]. apply S_gather. apply gather_now; reflexivity.
    + left. split; [cbn; tauto|]. eexists. split; [reflexivity|]. apply S_gather. apply gather_now; reflexivity.
    + left. split; [cbn; tauto|]. eexists. split; [reflexivity|]. apply S_concat. apply concat_now; [|reflexivity].
      intros t I. cbn in I. repeat (destruct I as [<-|I]; [reflexivity|]). destruct I.
  - apply holds_ref. right. right. split; auto. exists (r2 "x"), [0; 3; 1]%Z, (r2 "y"). split; [reflexivity|]. split; [reflexivity|].
    eapply reshape_data; [reflexivity|reflexivity|reflexivity|reflexivity|reflexivity|cbn; lia|reflexivity|]. solve_dims.
  - split; [reflexivity|]. cbn. repeat (apply Forall2_cons; [lia|]). apply Forall2_nil.
  - cbn. lia.
  - vm_compute. reflexivity.
  - exists (r2 "x"), (Tensor [1; 1; 3; 2] (map Z.of_nat (seq 0 6))). split; [reflexivity|]. split.
    + eapply reshape_data; [reflexivity|reflexivity|reflexivity|reflexivity|reflexivity|cbn; lia|reflexivity|].
      intros [|[|[|[|k]]]] t d; cbn; intros Ht Hd; try discriminate; try (destruct k; discriminate); injection Ht as <-; injection Hd as <-; unfold dim_ok; cbn; (lia || auto).
    + exact (squeeze_front 1 (iota [1; 3; 2]) eq_refl).
Qed.
Print Assumptions C24_zero_with_shift_refuted.

(** ** Squeeze with a negative axis is shifted by the number of axes instead of the rank: the executor then removes another
    dimension of size 1 and the optimizer flattens a tensor that is not to be flattened. *)
Definition g3 : list fnode :=
  [node "Shape" [] ["x"] "s"; constant_node "i" [0%Z]; node "Unsqueeze" [("axes", AInts [0; 2]%Z)] ["s"] "u"; node "Squeeze" [("axes", AInts [-1]%Z)] ["u"] "q";
   node "Gather" [] ["q"; "i"] "g"; node "Squeeze" [("axes", AInts [0]%Z)] ["g"] "t"].
Definition r3 := valuation [("x", iota [2; 1; 3]); ("s", vec [2; 1; 3]%Z); ("i", vec [0%Z]); ("u", Tensor [1; 3; 1] [2; 1; 3]%Z); ("q", Tensor [1; 3] [2; 1; 3]%Z);
  ("g", Tensor [1; 3] [2; 1; 3]%Z); ("t", vec [2; 1; 3]%Z); ("y", iota [2; 1; 3])].
Theorem C24_negative_squeeze_axis_refuted :
  exists nodes (r : string -> tensor Z) known shift new z,
    all_hold (ref_rel 11 const_val to_type) r nodes /\ holds (ref_rel 11 const_val to_type) r (node "Reshape" [] ["x"; "t"] "y") /\
    has_shape known (r "x") /\ 0 < size (shape (r "x")) /\
    optimize_reshape 11 const_val to_type nodes 20 "x" "t" known = Some (shift, new) /\
    optimised shift new (r "x") z /\ shape (r "y") = [2; 1; 3] /\ shape z = [6].
Proof.
  exists g3, r3, [-1; -1; -1]%Z, 0%Z, [-1]%Z, (iota [6]). split; [|split; [|split; [|split; [|split; [|split; [|split; reflexivity]]]]]].
  - assert (U : unsqueeze_rel [0; 2]%Z (r3 "s") (r3 "u")).
    { destruct (fold_unsqueeze_spec (r3 "s") [0; 2]%Z [r3 "u"]) as (z & [=<-] & R); [reflexivity|discriminate|reflexivity|exact R]. }
    assert (Q : forall a ax x y, wf x -> norm_axes (length (shape x)) [a] = Some [ax] -> nth ax (shape x) 0 = 1 -> size (drop_axes [ax] (shape x)) = size (shape x) ->
       y = Tensor (drop_axes [ax] (shape x)) (data x) -> squeeze_rel (A := Z) [a] x y).
    { intros a ax x y W E O Sz ->. apply squeeze_by_data; auto; [repeat constructor; intros []|]. intros b [<-|[]]. exact O. }
    intros n I. cbn [g3 In] in I. repeat (destruct I as [<-|I]); try destruct I; apply holds_ref.
    + right. left. split; auto. split; auto. eexists. split; reflexivity.
    + left. split; [cbn; tauto|]. eexists. split; [reflexivity|]. apply S_const; reflexivity.
    + left. split; [cbn; tauto|]. eexists. split; [reflexivity|]. apply (S_unsqueeze_attr _ _ _ _ _ [0; 2]%Z); [lia|reflexivity|exact U].
    + left. split; [cbn; tauto|]. eexists. split; [reflexivity|]. apply (S_squeeze_attr _ _ _ _ _ [-1]%Z); [lia|reflexivity|]. apply (Q _ 2); reflexivity.
    + left. split; [cbn; tauto|]. eexists. split; [reflexivity|]. apply S_gather. apply gather_now; reflexivity.
    + left. split; [cbn; tauto|]. eexists. split; [reflexivity|]. apply (S_squeeze_attr _ _ _ _ _ [0]%Z); [lia|reflexivity|]. apply (Q _ 0); reflexivity.
  - apply holds_ref. right. right. split; auto. exists (r3 "x"), [2; 1; 3]%Z, (r3 "y"). split; [reflexivity|]. split; [reflexivity|].
    eapply reshape_data; [reflexivity|reflexivity|reflexivity|reflexivity|reflexivity|cbn; lia|reflexivity|]. solve_dims.
  - split; [reflexivity|]. cbn. repeat (apply Forall2_cons; [lia|]). apply Forall2_nil.
  - cbn. lia.
  - vm_compute. reflexivity.
  - exists (r3 "x"), (iota [6]). split; [reflexivity|]. split; [|reflexivity].
    eapply reshape_data; [reflexivity|reflexivity|reflexivity|reflexivity|reflexivity|cbn; lia|reflexivity|]. solve_dims.
Qed.
Print Assumptions C24_negative_squeeze_axis_refuted.

(** ** Cast of a symbolic value is ignored, also to a type that changes the value. *)
Definition g4 : list fnode :=
  [node "Shape" [] ["x"] "s"; constant_node "i" [0%Z]; node "Gather" [] ["s"; "i"] "d"; node "Cast" [("to", AInt 9)] ["d"] "b";
   node "ReduceProd" [("axes", AInts [0]%Z)] ["s"] "p"; node "Concat" [("axis", AInt 0)] ["b"; "p"] "t"].
Definition r4 := valuation [("x", iota [2; 3]); ("s", vec [2; 3]%Z); ("i", vec [0%Z]); ("d", vec [2%Z]); ("b", vec [1%Z]); ("p", vec [6%Z]); ("t", vec [1; 6]%Z); ("y", iota [1; 6])].
Theorem C24_cast_refuted :
  exists nodes (r : string -> tensor Z) known shift new z,
    all_hold (ref_rel 11 const_val to_type) r nodes /\ holds (ref_rel 11 const_val to_type) r (node "Reshape" [] ["x"; "t"] "y") /\
    has_shape known (r "x") /\ 0 < size (shape (r "x")) /\
    optimize_reshape 11 const_val to_type nodes 20 "x" "t" known = Some (shift, new) /\
    optimised shift new (r "x") z /\ shape (r "y") = [1; 6] /\ shape z = [2; 3].
Proof.
  exists g4, r4, [-1; -1]%Z, 0%Z, [0; -1]%Z, (iota [2; 3]). split; [|split; [|split; [|split; [|split; [|split; [|split; reflexivity]]]]]].
  - intros n I. cbn [g4 In] in I. repeat (destruct I as [<-|I]); try destruct I; apply holds_ref.
    + right. left. split; auto. split; auto. eexists. split; reflexivity.
    + left. split; [cbn; tauto|]. eexists. split; [reflexivity|]. apply S_const; reflexivity.
    + left. split; [cbn; tauto|]. eexists. split; [reflexivity|]. apply S_gather. apply gather_now; reflexivity.
    + left. split; [cbn; tauto|]. eexists. split; [reflexivity|]. apply S_cast. split; [reflexivity|]. split; [reflexivity|]. split; [reflexivity|].
      intros [|i [|j ix]] H; try destruct H; [|contradiction]. assert (i = 0) by (cbn in *; lia). subst i. reflexivity.
    + left. split; [cbn; tauto|]. eexists. split; [reflexivity|]. apply (S_reduceprod_attr _ _ _ _ _ [0]%Z); [lia|reflexivity|].
      exact (prod_ok (fun _ => 0%Z) (tmap Raw (vec [2; 3]%Z)) [0%Z] true (tmap Raw (vec [6%Z])) eq_refl eq_refl).
    + left. split; [cbn; tauto|]. eexists. split; [reflexivity|]. apply S_concat. apply concat_now; [|reflexivity].
      intros t I. cbn in I. repeat (destruct I as [<-|I]; [reflexivity|]). destruct I.
  - apply holds_ref. right. right. split; auto. exists (r4 "x"), [1; 6]%Z, (r4 "y"). split; [reflexivity|]. split; [reflexivity|].
    eapply reshape_data; [reflexivity|reflexivity|reflexivity|reflexivity|reflexivity|cbn; lia|reflexivity|]. solve_dims.
  - split; [reflexivity|]. cbn. repeat (apply Forall2_cons; [lia|]). apply Forall2_nil.
  - cbn. lia.
  - vm_compute. reflexivity.
  - exists (r4 "x"), (iota [2; 3]). split; [reflexivity|]. split; [|reflexivity].
    eapply reshape_data; [reflexivity|reflexivity|reflexivity|reflexivity|reflexivity|cbn; lia|reflexivity|]. solve_dims.
Qed.
Print Assumptions C24_cast_refuted.

(** A Cast of a constant that changes its value is computed, and meets the conditions of the theorems. *)
Definition g5 : list fnode :=
  [node "Shape" [] ["x"] "s"; constant_node "i" [0%Z]; node "Gather" [] ["s"; "i"] "d"; constant_node "c" [7%Z]; node "Cast" [("to", AInt 9)] ["c"] "b"; node "Concat" [("axis", AInt 0)] ["b"; "d"] "t"].
Example C24_witness_cast :
  compute_output 11 const_val to_type g5 20 "t" (feed_of g5 "x" [-1; 3]%Z) = Some (Tensor [2] [Sym [] 1; Sym [0] 1]) /\
  (forall n xs, In n g5 -> In (f_op n) shape_ops -> plain 11 to_type (forall i, In i (f_in n) -> constant_tensor g5 i) (f_op n) (f_attrs n) xs) /\
  exists z, to_type 9 z <> z.
Proof.
  split; [vm_compute; reflexivity|]. split; [|exists 7%Z; discriminate].
  intros n xs I _. cbn [g5 In] in I. repeat (destruct I as [<-|I]); try destruct I; repeat split; try (intro; discriminate).
  intros _. left. intros i [<-|[]]. constructor. intros n I O. cbn [g5 In] in I. repeat (destruct I as [<-|I]); try destruct I; cbn in O; destruct O as [O|[]]; try discriminate.
  split; [cbn; tauto|]. intros i [].
Qed.
