(** C23: the transpose optimizer moves Transpose behind other operators without changing what the model computes. *)
From Coq Require Import String List Arith ZArith Bool Reals Lia Lra.
From Verif Require Import FGraph FGraphSpec ValidCheck Tensor OnnxSpec NNSpec NNModel FoldModel PushSpec PushConvSpec SwitchSpec.
From Verif Require Import PushModel PushConvModel SwitchModel PushProofs PushProofs2 PushProofs3 PushProofs4 PushProofs5 PushConvProofs SwitchProofs3.
Import ListNotations.
Local Open Scope nat_scope.
Local Open Scope string_scope.
Local Open Scope list_scope.

(** ** operators: Transpose p, then the operator = the operator with new attributes, then Transpose q *)
Theorem C23_elementwise {A B} (f : A -> B) p n : is_perm p n -> moves p (map_rel f) (fun x u => map_rel f x u /\ length (shape x) = n) p.
Proof. apply map_moves. Qed.
Theorem C23_pad {A} m p n pads (c : A) : is_perm p n -> length pads = 2 * n ->
  moves p (pad_rel m pads c) (fun x u => pad_rel m (permute_pads p pads) c x u /\ length (shape x) = n) p.
Proof. apply pad_moves. Qed.
Theorem C23_tile {A} p n reps : is_perm p n -> length reps = n ->
  moves p (@tile_rel A reps) (fun x u => tile_rel (permute_repeats p reps) x u /\ length (shape x) = n) p.
Proof. apply tile_moves. Qed.
Theorem C23_slice {A} p n params new : is_perm p n -> moved_axes p (map fst params) = Some new ->
  moves p (@slice_rel A params) (fun x u => slice_rel (combine (map Z.of_nat new) (map snd params)) x u /\ length (shape x) = n) p.
Proof. apply slice_moves. Qed.
Theorem C23_quantize {A S B} (f : A -> S -> B) p n axis new (s : tensor S) : is_perm p n -> moved_axis p axis = Some new ->
  moves p (quantize_rel f axis s) (fun x u => quantize_rel f (Z.of_nat new) s x u /\ length (shape x) = n) p.
Proof. apply quantize_moves. Qed.
Theorem C23_softmax {A} (h : list A -> list A) p n axis ax new : is_perm p n -> n <> 0 ->
  norm_axis n (match axis with Some a => a | None => (-1)%Z end) = Some ax -> moved_softmax_axis p axis = Some new ->
  moves p (softmax_rel h (match axis with Some a => a | None => (-1)%Z end)) (fun x u => softmax_rel h (Z.of_nat new) x u /\ length (shape x) = n) p.
Proof.
  intros P N0 N M. apply softmax_moves; auto. apply (py_get_spec p n _ P). exists ax. split; auto.
  assert (K := plus_rank_axis p n _ ax P N). unfold moved_softmax_axis in K, M. destruct axis; congruence.
Qed.
(** before opset 13, for an axis that is not negative *)
Theorem C23_softmax12_partial {A} (h : A -> list A -> A) p n axis : (forall v, order_free (h v)) -> is_perm p n ->
  (0 <= match axis with Some a => a | None => 1 end)%Z -> softmax12_movable p axis = true ->
  let a := match axis with Some a => a | None => 1%Z end in
  moves p (softmax12_rel h a) (fun x u => softmax12_rel h a x u /\ length (shape x) = n) p.
Proof. apply softmax12_moves. Qed.
Theorem C23_arg {A B} (g : list A -> B) p n axis ax keepdims new : is_perm p n -> norm_axis n axis = Some ax -> moved_reduce_axes p (Some [axis]) = Some [new] ->
  moves p (arg_rel g axis keepdims) (fun x u => arg_rel g (Z.of_nat new) keepdims x u /\ length (shape x) = n) (if keepdims then p else reduce_new_perm p [new]).
Proof. apply arg_moves. Qed.
Theorem C23_reduce {A} (agg : list A -> A) p n axes ax keepdims new : order_free agg -> is_perm p n -> norm_axes n axes = Some ax -> NoDup ax ->
  moved_reduce_axes p (Some axes) = Some new ->
  moves p (reduce_rel agg axes keepdims) (fun x u => reduce_rel agg (map Z.of_nat new) keepdims x u /\ length (shape x) = n) (if keepdims then p else reduce_new_perm p new).
Proof. apply reduce_moves. Qed.
(** axes as an input: only with keepdims *)
Theorem C23_reduce_latest {A} (agg : list A -> A) p n axes new : order_free agg -> is_perm p n -> moved_axes p axes = Some new ->
  moves p (reduce_rel agg axes true) (fun x u => reduce_rel agg (map Z.of_nat new) true x u /\ length (shape x) = n) p.
Proof. apply reduce_keep_moves. Qed.
Theorem C23_squeeze {A} p n axes ax q new : is_perm p n -> norm_axes n axes = Some ax -> NoDup ax -> squeeze_new_attr p axes = Some (q, new) ->
  moves p (@squeeze_rel A axes) (fun x u => squeeze_rel (map Z.of_nat new) x u /\ length (shape x) = n) q.
Proof. apply squeeze_moves. Qed.
Theorem C23_unsqueeze {A} p n axes ax q new : is_perm p n -> norm_axes (n + length axes) axes = Some ax -> NoDup ax -> unsqueeze_new_attr p axes = (q, new) ->
  is_perm q (n + length axes) /\ moves p (@unsqueeze_rel A axes) (fun x u => unsqueeze_rel (map Z.of_nat new) x u /\ length (shape x) = n) q.
Proof. apply unsqueeze_moves. Qed.
Theorem C23_shape {A} p n (x : tensor A) y : is_perm p n -> length (shape x) = n -> wf x ->
  ((exists t, transpose_rel p x t /\ shape_rel t y) <-> exists s, shape_rel x s /\ gather_rel p s y).
Proof. apply shape_gather. Qed.
Theorem C23_concat {A} p n axis new (xs ts : list (tensor A)) : is_perm p n -> moved_axis p axis = Some new -> Forall2 (transpose_rel p) xs ts ->
  forall y, concat_rel axis ts y <-> exists u, concat_rel (Z.of_nat new) xs u /\ transpose_rel p u y.
Proof. apply concat_moves. Qed.
Theorem C23_split {A} p n axis new lens : is_perm p n -> moved_axis p axis = Some new ->
  moves p (fun x y : tensor A => split_rel axis lens x [y]) (fun x u => split_rel (Z.of_nat new) lens x [u] /\ length (shape x) = n) p.
Proof. apply split_moves. Qed.
(** Add, Sub, Mul, Max, Min, Sum: every input is replaced by one it is carried by ... *)
Theorem C23_broadcast {A} (f : list A -> A) p n ts xs : is_perm p n -> Forall2 (carried p n) ts xs ->
  (exists t, In t ts /\ length (shape t) = n) -> (exists x, In x xs /\ length (shape x) = n) ->
  forall y, nary_rel f ts y <-> exists u, nary_rel f xs u /\ transpose_rel p u y.
Proof. apply nary_moves. Qed.
Theorem C23_prelu {A} (f : list A -> A) p n (t s x s' : tensor A) : is_perm p n -> length (shape t) = n -> length (shape x) = n -> carried p n t x -> carried p n s s' ->
  forall y, prelu_rel f t s y <-> exists u, prelu_rel f x s' u /\ transpose_rel p u y.
Proof. apply prelu_moves. Qed.
(** ... which are: the input of a Transpose, a tensor that is expanded and transposed back, a scalar, and the reshaped
    multiplier of Mul *)
Theorem C23_broadcast_inputs {A} p n (c t e x : tensor A) m N : is_perm p n ->
  (transpose_rel p x t -> carried p n t x) /\
  (expands n t e -> transpose_rel (invert_perm p) e x -> carried p n t x) /\
  (wf c -> shape c = repeat 1 (length (shape c)) -> length (shape c) <= n -> carried p n c c) /\
  (wf c -> shape c = repeat 1 m ++ [N] -> S m <= n -> carried p n c (Tensor (mul_new_shape p N) (data c))).
Proof.
  intro P. repeat split; intros.
  - now apply carried_transpose.
  - now apply (carried_pair p n t e x).
  - now apply carried_scalar.
  - now apply (carried_multiplier p n c m N).
Qed.
(** Sum of Transposes and constants, as the handler does it: the constants are overwritten in place.  Each constant is an input once. *)
Theorem C23_sum_partial {A} (f : list A -> A) p n (st st' : nat -> tensor A) inputs ts x0 : is_perm p n -> (forall c, wf (st c)) ->
  sum_movable p st inputs = true -> NoDup (const_ids inputs) -> In (FromTranspose p x0) inputs ->
  Forall2 (sum_before st) inputs ts -> sum_store p st inputs = Some st' ->
  forall y, nary_rel f ts y <-> exists u, nary_rel f (sum_inputs st' inputs) u /\ transpose_rel p u y.
Proof. apply sum_moves. Qed.
(** two Transposes that undo each other *)
Theorem C23_pair {A} p n (x t y : tensor A) : is_perm p n -> transpose_rel p x t -> transpose_rel (invert_perm p) t y -> y = x.
Proof. apply pair_cancels. Qed.
(** Transpose that only moves dimensions 1 becomes Reshape *)
Theorem C23_reshape {A} s p n (x y : tensor A) : is_perm p n -> length (shape x) = n -> describes s (shape x) -> wf x ->
  match reshape_instead s p with
  | Some (Some target) => ~ In 0%Z s -> (transpose_rel p x y <-> reshape_rel false target x y)
  | Some None => ~ In 0 (shape x) -> (transpose_rel p x y <-> exists sx target, shape_rel x sx /\ gather_rel p sx target /\ reshape_rel false (map Z.of_nat (data target)) x y)
  | None => True
  end.
Proof.
  intros P L D W. destruct (reshape_instead s p) as [[target|]|] eqn:E; auto; intro N.
  - now apply (reshape_static s p n target).
  - now apply (reshape_dynamic s p n).
Qed.
(** Conv, Transpose, Mul by a constant = Conv with scaled weights, Transpose *)
Theorem C23_conv_mul_partial g ks p ss ds (x w c w' y t z : tensor R) : length (shape w) = 4 -> wf c -> multiplier_ok c = true -> fold_multiplier w c = Some w' ->
  (forall d, last (shape c) 1 = d -> d = 1 \/ d = nth 0 (shape w) 0) ->
  onnx_conv_rel g ks p ss ds x w y -> transpose_rel [0; 2; 3; 1] y t -> elementwise_rel Rmult t c z ->
  exists y', onnx_conv_rel g ks p ss ds x w' y' /\ transpose_rel [0; 2; 3; 1] y' z.
Proof. apply conv_multiplier. Qed.
(** Conv, Transpose, Add of a constant whose last dimension is the channels = Conv with a bias, Transpose *)
Theorem C23_conv_add_partial g ks p ss ds (x w c b y t z : tensor R) : length (shape y) = 4 -> wf c -> multiplier_ok c = true -> length (shape c) <= 4 -> shape c <> [] ->
  bias_of c (nth 0 (shape w) 0) = Some b -> 0 < nth 0 (shape w) 0 ->
  onnx_conv_rel g ks p ss ds x w y -> transpose_rel [0; 2; 3; 1] y t -> elementwise_rel Rplus t c z ->
  exists y', onnx_conv_bias_rel g ks p ss ds x w b y' /\ transpose_rel [0; 2; 3; 1] y' z.
Proof. apply conv_bias. Qed.

Ltac each_index H := apply in_indices in H; cbn in H; repeat (destruct H as [<-|H]; [|]); [..|destruct H].
(** *** the hypotheses are met: NHWC and NDHWC attribute values, and a transposition of numbers with each operator *)
Example attrs_meet :
  moved_axes [0; 2; 3; 1] [1; -1]%Z = Some [2; 1] /\ moved_softmax_axis [0; 2; 3; 1] None = Some 1 /\ softmax12_movable [1; 0; 3; 2] (Some 2%Z) = true /\
  softmax12_movable [0; 2; 3; 1] None = true /\ softmax12_movable [0; 2; 3; 1] (Some 2%Z) = false /\
  moved_reduce_axes [0; 2; 3; 1] (Some [3; -3]%Z) = Some [1; 2] /\ reduce_new_perm [0; 2; 3; 1] [1; 2] = [0; 1] /\ reduce_new_perm [0; 2; 3; 1] [2] = [0; 2; 1] /\
  squeeze_new_attr [0; 2; 3; 1] [1; -2]%Z = Some ([0; 1], [2; 3]) /\ squeeze_new_attr [0; 2; 3; 1] [0]%Z = Some ([1; 2; 0], [0]) /\
  unsqueeze_new_attr [0; 2; 1] [1; -1]%Z = ([0; 2; 3; 1; 4], [2; 4]).
Proof. repeat split; reflexivity. Qed.
Example operators_meet :
  map_rel S (Tensor [2; 1] [1; 2]) (Tensor [2; 1] [2; 3]) /\
  pad_rel PadConstant [0; 1; 0; 0]%Z 9 (Tensor [2; 1] [1; 2]) (Tensor [2; 2] [9; 1; 9; 2]) /\
  transpose_rel [1; 0] (Tensor [1; 2] [1; 2]) (Tensor [2; 1] [1; 2]) /\ permute_pads [1; 0] [0; 1; 0; 0]%Z = [1; 0; 0; 0]%Z.
Proof.
  split; [|split; [|split; [|reflexivity]]].
  - unfold map_rel, wf. repeat split; try reflexivity. intros ix H. each_index H; reflexivity.
  - unfold pad_rel, wf. cbv zeta. cbn [shape data length]. repeat (split; [reflexivity|]). split; [|split].
    + intros [|[|k]] H; [reflexivity|reflexivity|lia].
    + intros ix jx I J H. each_index I; each_index J; try reflexivity; exfalso; assert (H0 := H 0 ltac:(cbn; lia)); assert (H1 := H 1 ltac:(cbn; lia)); cbn in H0, H1; lia.
    + intros ix I H. each_index I; try reflexivity; exfalso; [apply (H [0; 0])|apply (H [1; 0])]; try (cbn; lia); intros [|[|k]] Hk; cbn in *; lia.
  - unfold transpose_rel, wf. repeat split; try reflexivity; [apply Permutation.perm_swap|]. intros ix H. each_index H; reflexivity.
Qed.
(** ** the step on a graph: the handlers that rewrite attributes only *)
Theorem C23_push_in_graph_partial {A} op_rel opset g tr x t p n : op_ext op_rel -> @onnx_means A op_rel opset -> valid g ->
  In tr (f_nodes g) -> f_op tr = "Transpose" -> f_in tr = [x] -> f_out tr = [t] -> f_bodies tr = [] -> t <> "" -> perm_of tr = Some p -> is_perm p n ->
  (forall nd, consumers t g = [nd] -> In nd (f_nodes g) /\ f_bodies nd = [] /\ valid_attrs opset n (f_op nd) (f_attrs nd) /\
     exists y ws, f_in nd = t :: ws /\ ~ In t ws /\ f_out nd = [y] /\ y <> "") ->
  exists g' changed, handle_transpose opset g tr = Some (g', changed) /\ valid g' /\ equiv op_rel g g'.
Proof. apply handle_transpose_ok. Qed.

(** *** a graph that meets the hypotheses, and is changed *)
Definition push_tr := FNode "tr" "Transpose" "" [("perm", perm_attr [0; 2; 3; 1])] ["x"] ["t"] [].
Definition push_nd := FNode "nd" "ReduceMean" "" [("keepdims", AInt 0); ("axes", AInts [1; -2]%Z)] ["t"] ["y"] [].
Definition push_graph := FGraph [push_tr; push_nd; FNode "out" "Relu" "" [] ["y"] ["z"] []] ["x"] ["z"].
Example push_graph_meets : valid push_graph /\ is_perm [0; 2; 3; 1] 4 /\ consumers "t" push_graph = [push_nd] /\ valid_attrs 11 4 "ReduceMean" (f_attrs push_nd) /\
  handle_transpose 11 push_graph push_tr =
    Some (FGraph [FNode "tr" "Transpose" "" [("perm", perm_attr [0; 1])] ["y"] ["t"] [];
                  FNode "nd" "ReduceMean" "" [("axes", AInts [2; 3]%Z); ("keepdims", AInt 0)] ["x"] ["y"] [];
                  FNode "out" "Relu" "" [] ["t"] ["z"] []] ["x"] ["z"], true).
Proof.
  split; [apply (valid_check_spec [("x", 0); ("t", 1); ("y", 2); ("z", 3)]); reflexivity|]. split.
  { unfold is_perm. cbn. change [0; 2; 3; 1] with ([0; 2; 3] ++ [1]). apply Permutation.perm_skip. apply (Permutation.Permutation_app_comm [2; 3] [1]). }
  split; [reflexivity|]. split; [|reflexivity].
  unfold valid_attrs. cbn [f_attrs push_nd]. repeat split; try (intros [H|H]; discriminate); try discriminate.
  intros _. exists [1; 2]. split; [reflexivity|]. repeat constructor; cbn; intuition discriminate.
Qed.
(** operators on natural numbers that mean what is assumed *)
Definition sum_of (l : list nat) : nat := fold_right Nat.add 0 l.
Definition sample_rel (opset : nat) (op : string) (at_ : list (string * attr)) (ws : list (tensor nat)) (v w : tensor nat) : Prop :=
  let keep := negb (int_attr "keepdims" at_ 1 =? 0)%Z in
  if existsb (String.eqb op) simple_ops then map_rel S v w
  else ws = [] /\
    if String.eqb op "Transpose" then transpose_rel (map Z.to_nat (ints_attr "perm" at_ [])) v w
    else if existsb (String.eqb op) ["Softmax"; "LogSoftmax"] then
      (if Nat.leb 13 opset then softmax_rel (fun l => map (fun a => sum_of l) l) (int_attr "axis" at_ (-1)) v w else softmax12_rel (fun a l => sum_of l + a) (int_attr "axis" at_ 1) v w)
    else if existsb (String.eqb op) ["ArgMax"; "ArgMin"] then arg_rel (fun l => hd 0 l) (int_attr "axis" at_ 0) keep v w
    else if String.eqb op "Squeeze" then squeeze_rel (ints_attr "axes" at_ []) v w
    else if String.eqb op "Unsqueeze" then unsqueeze_rel (ints_attr "axes" at_ []) v w
    else reduce_rel sum_of (ints_attr "axes" at_ (map Z.of_nat (seq 0 (length (shape v))))) keep v w.
Definition sample_op_rel (opset : nat) : string -> string -> list (string * attr) -> nat -> list (tensor nat) -> list (list (tensor nat) -> list (tensor nat) -> Prop) -> list (tensor nat) -> Prop :=
  fun op dom at_ k ins bs vs => match ins with v :: ws => exists w, vs = [w] /\ sample_rel opset op at_ ws v w | [] => False end.
Lemma sum_of_free : order_free sum_of.
Proof. intros l l' H. unfold sum_of. induction H; cbn; lia. Qed.
Example sample_meets opset : op_ext (sample_op_rel opset) /\ onnx_means (sample_op_rel opset) opset.
Proof.
  split. { intros op dom at_ k ins bs bs' vs _ H. exact H. }
  assert (M : forall op, means (sample_op_rel opset) op (sample_rel opset op)) by (intros op dom at_ v ws vs; reflexivity).
  assert (E : forall op rel, (forall at_ ws v w, sample_rel opset op at_ ws v w <-> rel at_ ws v w) -> means (sample_op_rel opset) op rel).
  { intros op rel H dom at_ v ws vs. rewrite (M op dom at_ v ws vs). split; intros (w & E & K); exists w; (split; [exact E|]); now apply H. }
  constructor.
  - apply M.
  - intros op H. exists (fun _ _ => True), (fun _ _ => S). apply E. intros. unfold sample_rel. replace (existsb (String.eqb op) simple_ops) with true; [tauto|].
    symmetry. apply existsb_exists. exists op. split; auto. apply String.eqb_refl.
  - intros op [<-|[<-|[]]]; destruct (Nat.leb 13 opset) eqn:O.
    + exists (fun l => map (fun a => sum_of l) l). apply E. intros. unfold sample_rel. rewrite O. reflexivity.
    + exists (fun a l => sum_of l + a). split; [intros v l l' H; f_equal; now apply sum_of_free|]. apply E. intros. unfold sample_rel. rewrite O. reflexivity.
    + exists (fun l => map (fun a => sum_of l) l). apply E. intros. unfold sample_rel. rewrite O. reflexivity.
    + exists (fun a l => sum_of l + a). split; [intros v l l' H; f_equal; now apply sum_of_free|]. apply E. intros. unfold sample_rel. rewrite O. reflexivity.
  - intros op [<-|[<-|[]]]; exists (fun _ l => hd 0 l); apply E; reflexivity.
  - intros op H. exists sum_of. split; [apply sum_of_free|]. apply E. intros. destruct H as [[H _]|[-> _]]; [|reflexivity].
    cbn [In] in H. repeat (destruct H as [<-|H]; [reflexivity|]). destruct H.
  - intros _. exists (fun v w => squeeze_rel [] v w). apply E. intros. unfold sample_rel. cbn [existsb simple_ops String.eqb Ascii.eqb Bool.eqb orb].
    destruct (existsb (fun p => String.eqb (fst p) "axes") at_) eqn:X; [tauto|].
    assert (Z : ints_attr "axes" at_ [] = []); [|now rewrite Z]. unfold ints_attr. destruct (find _ at_) as [e|] eqn:F; auto. apply find_some in F. exfalso. assert (Y : existsb (fun p => String.eqb (fst p) "axes") at_ = true) by (apply existsb_exists; eauto). congruence.
  - intros _. apply E. reflexivity.
Qed.

(** ** where the property fails *)
(** Softmax before opset 13 with a negative axis: the test compares the axis as it is, so it never sees a crossing *)
Theorem C23_softmax12_negative_refuted :
  softmax12_movable [1; 0] (Some (-1)%Z) = true /\
  ~ moves [1; 0] (softmax12_rel (fun a l => sum_of l) (-1)) (fun x u => softmax12_rel (fun a l => sum_of l) (-1) x u /\ length (shape x) = 2) [1; 0].
Proof.
  split; [reflexivity|]. intro M.
  destruct (proj1 (M (Tensor [1; 2] [1; 2]) (Tensor [2; 1] [1; 2]))) as (u & (U1 & _) & U2).
  - exists (Tensor [2; 1] [1; 2]). split.
    + unfold transpose_rel, wf. repeat split; try reflexivity; [apply Permutation.perm_swap|]. intros ix H. each_index H; reflexivity.
    + unfold softmax12_rel, wf. repeat split; try reflexivity. exists 1. split; [left; reflexivity|]. intros ix H. each_index H; [exists 1, [1]|exists 2, [2]]; auto.
  - destruct U1 as (_ & _ & Su & ax & Hax & Hu). cbn [shape length] in *. assert (ax = 1) by (destruct Hax as [Hax|[Hax _]]; [now inversion Hax|discriminate]). subst ax.
    destruct (Hu [0; 0]) as (v & vs & _ & Gu & E); [cbn; lia|]. cbn in E. destruct vs as [|a [|b [|]]]; try discriminate. inversion E; subst a b.
    destruct U2 as (_ & _ & _ & _ & K). rewrite Su in K. specialize (K [0; 0] ltac:(cbn; lia)). rewrite Gu in K. discriminate.
Qed.
(** QuantizeLinear with a scale for each position of the axis and no axis attribute: the default 1 is not moved *)
Theorem C23_quantize_default_axis_refuted :
  ~ moves [1; 0] (quantize_rel Nat.add 1 (Tensor [2] [10; 20])) (fun x u => quantize_rel Nat.add 1 (Tensor [2] [10; 20]) x u /\ length (shape x) = 2) [1; 0].
Proof.
  intro M. destruct (proj1 (M (Tensor [2; 2] [1; 2; 3; 4]) (Tensor [2; 2] [11; 23; 12; 24]))) as (u & (U1 & _) & U2).
  - exists (Tensor [2; 2] [1; 3; 2; 4]). split.
    + unfold transpose_rel, wf. repeat split; try reflexivity; [apply Permutation.perm_swap|]. intros ix H. each_index H; reflexivity.
    + unfold quantize_rel, wf. repeat split; try reflexivity. right. exists 1. repeat split; try reflexivity. intros ix H. each_index H; [exists 1, 10|exists 3, 20|exists 2, 10|exists 4, 20]; auto.
  - destruct U1 as (_ & _ & _ & Su & [[Bad _]|(ax & Hax & _ & Hu)]); [discriminate|]. inversion Hax; subst ax. destruct (Hu [0; 1]) as (a & b & G1 & G2 & G3); [cbn; lia|]. cbn in G1, G2. inversion G1; subst a. inversion G2; subst b.
    destruct U2 as (_ & _ & _ & _ & K). rewrite Su in K. specialize (K [0; 1] ltac:(cbn; lia)). rewrite G3 in K. discriminate.
Qed.
(** Shape with start/end (opset 15): the new Shape and Gather know nothing of them *)
Theorem C23_shape_range_refuted : exists (x : tensor nat) y, (exists t, transpose_rel [1; 0] x t /\ shape_range_rel 0 1 t y) /\
  ~ exists s, shape_rel x s /\ gather_rel [1; 0] s y.
Proof.
  exists (Tensor [1; 2] [1; 2]), (Tensor [1] [2]). split.
  - exists (Tensor [2; 1] [1; 2]). split; [|reflexivity]. unfold transpose_rel, wf. repeat split; try reflexivity; [apply Permutation.perm_swap|]. intros ix H. each_index H; reflexivity.
  - intros (s & -> & _ & _ & _ & E). discriminate.
Qed.
(** Add of a constant that varies along another dimension of the same size: it becomes the bias of the channels *)
Theorem C23_conv_add_refuted : exists c b : tensor R, wf c /\ bias_of c 2 = Some b /\
  exists (y t z : tensor R), wf y /\ shape y = [1; 2; 2; 1] /\ transpose_rel [0; 2; 3; 1] y t /\ elementwise_rel Rplus t c z /\
  forall y', shape y' = shape y -> (forall ix, inb ix (shape y) -> get y' ix = Some (value y ix + value b [nth 1 ix 0%nat])%R) -> ~ transpose_rel [0; 2; 3; 1] y' z.
Proof.
  exists (Tensor [2; 1; 1] [0; 1]%R), (Tensor [2] [0; 1]%R). split; [reflexivity|]. split; [reflexivity|].
  exists (Tensor [1; 2; 2; 1] [0; 0; 0; 0]%R), (Tensor [1; 2; 1; 2] [0; 0; 0; 0]%R), (Tensor [1; 2; 1; 2] [0 + 0; 0 + 0; 0 + 1; 0 + 1]%R).
  split; [reflexivity|]. split; [reflexivity|]. split.
  { unfold transpose_rel, wf. repeat split; try reflexivity.
    - apply Permutation.perm_skip. apply (Permutation.Permutation_app_comm [2; 3] [1]).
    - intros ix H. each_index H; reflexivity. }
  split.
  { unfold elementwise_rel, wf. cbn [shape data length Nat.max size]. repeat (split; [reflexivity|]). split.
    - intros k Hk. destruct k as [|[|[|[|k]]]]; [..|lia]; cbn; auto.
    - intros ix H. each_index H; cbn; eauto. }
  intros y' Sh H (_ & _ & _ & _ & K). rewrite Sh in K. specialize (K [0; 0; 1; 0] ltac:(cbn; lia)). rewrite H in K by (cbn; lia).
  cbn in K. inversion K. lra.
Qed.

(** Sum with the same constant twice: it is transposed twice *)
Theorem C23_sum_same_constant_refuted : exists (st st' : nat -> tensor nat) inputs ts y,
  sum_movable [1; 0] st inputs = true /\ (forall c, wf (st c)) /\ Forall2 (sum_before st) inputs ts /\ sum_store [1; 0] st inputs = Some st' /\
  nary_rel sum_of ts y /\ ~ exists u, nary_rel sum_of (sum_inputs st' inputs) u /\ transpose_rel [1; 0] u y.
Proof.
  pose (c := Tensor [2; 2] [0; 1; 0; 0]). pose (z := Tensor [2; 2] [0; 0; 0; 0]).
  exists (fun _ => c), (fun d => if Nat.eqb d 0 then c else if Nat.eqb d 0 then Tensor [2; 2] [0; 0; 1; 0] else c), [FromTranspose [1; 0] z; FromConst 0; FromConst 0], [z; c; c], (Tensor [2; 2] [0; 2; 0; 0]).
  split; [reflexivity|]. split; [intros; reflexivity|]. split.
  { constructor; [|repeat constructor]. cbn [sum_before]. unfold transpose_rel, wf. repeat split; try reflexivity; [apply Permutation.perm_swap|]. intros ix H. each_index H; reflexivity. }
  split; [reflexivity|]. split.
  { unfold nary_rel, wf. cbn [shape data length size]. split; [reflexivity|]. split; [intros x Hx; cbn in Hx; intuition (subst; cbn; auto)|]. split; [exists z; cbn; auto|]. split.
    - intros k Hk. destruct k as [|[|k]]; [| |lia]; cbn; intuition.
    - intros ix H. each_index H; [exists [0; 0; 0]|exists [0; 1; 1]|exists [0; 0; 0]|exists [0; 0; 0]]; (split; [repeat constructor|reflexivity]). }
  intros (u & (Wu & Hr & (x & Hx & Lx) & Dm & Gu) & T). cbn [sum_inputs map Nat.eqb] in *.
  assert (Lu : length (shape u) = 2) by (destruct T as (Pp & _); apply Permutation.Permutation_length in Pp; cbn in Pp; rewrite seq_length in Pp; lia).
  assert (Su : shape u = [2; 2]). { destruct T as (_ & _ & _ & E & _). destruct (shape u) as [|a [|b [|]]]; try discriminate. cbn in E. inversion E. reflexivity. }
  destruct T as (_ & _ & _ & _ & K). rewrite Su in *. destruct (Gu [1; 0]) as (vs & F & Gv); [cbn; lia|]. specialize (K [1; 0] ltac:(cbn; lia)). rewrite Gv in K. cbn in K.
  inversion F as [|? v0 ? ? H0 F1]; subst. inversion F1 as [|? v1 ? ? H1 F2]; subst. inversion F2 as [|? v2 ? ? H2 F3]; subst. inversion F3; subst. cbn in H0, H1, H2. inversion H0; inversion H1; inversion H2; subst. discriminate.
Qed.
(** the single consumer is in the body of another node: the Transpose leaves for where its new input does not exist *)
Definition nested_tr := FNode "tr" "Transpose" "" [("perm", perm_attr [1; 0])] ["x"] ["t"] [].
Definition nested_graph := FGraph
  [nested_tr; FNode "if" "If" "" [] ["c"] ["z"] [FGraph [FNode "nd" "Relu" "" [] ["t"] ["y"] []; FNode "out" "Neg" "" [] ["y"] ["b"] []] [] ["b"]]] ["x"; "c"] ["z"].
Theorem C23_nested_consumer_refuted : valid nested_graph /\ exists g', handle_transpose 11 nested_graph nested_tr = Some (g', true) /\ ~ valid g'.
Proof.
  split; [apply (valid_check_spec [("x", 0); ("c", 0); ("t", 1); ("y", 2); ("b", 3); ("z", 4)]); reflexivity|].
  eexists. split; [reflexivity|]. intros [rk W]. assert (G := W _ (within_refl _)). apply (g_scope _ _ G "y"); cbn; tauto.
Qed.

Print Assumptions C23_push_in_graph_partial.
Print Assumptions C23_reduce.
Print Assumptions C23_unsqueeze.
Print Assumptions C23_sum_partial.
Print Assumptions C23_conv_add_partial.
Print Assumptions C23_conv_add_refuted.
