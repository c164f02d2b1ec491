(** C40: ReduceMean/ReduceMax over all spatial axes become GlobalAveragePool/GlobalMaxPool. *)
From Coq Require Import String List Arith ZArith Bool.
From Verif Require Import FGraph FGraphSpec FGraphProofs RewriteProofs ExecSpec ExecProofs ValidCheck Tensor OnnxSpec NNSpec PushSpec SwitchSpec PoolSpec PoolModel PoolProofs.
Import ListNotations.
Local Open Scope string_scope.
Local Open Scope list_scope.

(** The reduction over the axes 2, 3, ..., r-1 is the global pooling followed, without kept dimensions, by a Squeeze. *)
Theorem C40_reduction_is_pooling : forall A (agg : list A -> A) keep (x y : tensor A) r, length (shape x) = r -> 2 <= r ->
  (reduce_rel agg (map Z.of_nat (seq 2 (r - 2))) keep x y <->
   exists z, global_pool_rel agg x z /\ if keep then y = z else squeeze_rel (map Z.of_nat (seq 2 (r - 2))) z y).
Proof. exact @reduce_rel_pool. Qed.
Print Assumptions C40_reduction_is_pooling.

(** The rewriting of one node of a model: the model stays valid, and it computes the same in every call for which the
    recorded rank of the reduced tensor is its rank. *)
Theorem C40_replacement_preserves : forall A op_rel opset ints of_ints isf rank sq y' cn c g n g' x y k,
  @op_ext (tensor A) op_rel -> pool_means op_rel opset ints of_ints ->
  valid g -> In n (f_nodes g) -> f_in n = [x] -> f_out n = [y] -> f_bodies n = [] -> y <> "" -> x <> "" ->
  rank x = Some k -> 2 <= k ->
  (y' <> "" /\ c <> "" /\ y' <> c /\ sq <> cn) ->
  (forall t, In t [y'; c] -> ~ In t (alldefs g) /\ ~ In t (fv_graph g)) -> (forall t, In t [sq; cn] -> ~ In t (map f_name (f_nodes g))) ->
  optimize_reduce opset isf rank sq y' cn c g n = Some (g', true) ->
  valid g' /\
  forall (r0 : env (tensor A)) args res,
    (forall r : env (tensor A), (forall t, ~ In t (defs g) -> t <> y' -> t <> c -> r t = r0 t) -> map r (f_ins g) = args ->
       (forall h, In h (f_nodes g) -> h <> n -> holds op_rel r h) -> length (shape (r x)) = k) ->
    (body_rel op_rel r0 g args res <-> body_rel op_rel r0 g' args res).
Proof.
  intros A op_rel opset ints of_ints isf rank sq y' cn c g n g' x y k ext M (rk & W) Hn Ei Eo Eb Ny Nx Ek Lk F1 F2 F3 H.
  destruct (optimize_reduce_ok op_rel ext opset ints of_ints M isf rank sq y' cn c g n g' x y rk k W Hn Ei Eo Eb Ny Nx Ek Lk F1 F2 F3 H) as [(rk' & W' & _) Q].
  split; [exists rk'; exact W'|exact Q].
Qed.
Print Assumptions C40_replacement_preserves.

(** a reading of the operators that meets the hypotheses, with the maximum (0 for no elements) for both reductions *)
Definition demo_op (op dom : string) (at_ : list (string * attr)) (k : nat) (ins : list (tensor Z)) (bs : list (list (tensor Z) -> list (tensor Z) -> Prop)) (vs : list (tensor Z)) : Prop :=
  let agg := fun l : list Z => fold_right Z.max 0%Z l in
  match ins with
  | [] => op = "Const" /\ exists l, at_ = [("value", AInts l)] /\ vs = [Tensor [length l] l]
  | v :: ws => exists w, vs = [w] /\
      (((op = "ReduceMean" \/ op = "ReduceMax") /\ ws = [] /\ reduce_rel agg (ints_attr "axes" at_ (map Z.of_nat (seq 0 (length (shape v))))) (negb (int_attr "keepdims" at_ 1 =? 0)%Z) v w) \/
       ((op = "GlobalAveragePool" \/ op = "GlobalMaxPool") /\ ws = [] /\ global_pool_rel agg v w) \/
       (op = "Squeeze" /\ exists a l, ws = [a] /\ Some (data a) = Some l /\ squeeze_rel l v w))
  end.
Lemma demo_means : op_ext demo_op /\ pool_means demo_op 13 (fun t => Some (data t)) (fun l => Tensor [length l] l).
Proof.
  split; [intros op dom at_ k ins bs bs' vs _ H; exact H|]. constructor.
  - intros red pool H. exists (fun l : list Z => fold_right Z.max 0%Z l). destruct H as [H|[H|[]]]; injection H as <- <-;
    (split; intros dom at_ v ws vs; cbn [demo_op]; split; intros (w & E & K); exists w; (split; [exact E|]));
    try (destruct K as [([K|K] & K')|[([K|K] & K')|(K & _)]]; try discriminate; exact K'); auto 6.
  - cbn [Nat.ltb Nat.leb]. intros dom at_ v ws vs. cbn [demo_op]. split; intros (w & E & K); exists w; (split; [exact E|]); auto 6.
    destruct K as [([K|K] & K')|[([K|K] & K')|(_ & K)]]; try discriminate. exact K.
  - reflexivity.
  - intros l dom vs. cbn [demo_op]. split; [intros (_ & l' & E & ->); injection E as <-; reflexivity|]. intros ->. split; auto. exists l. auto.
Qed.
(** a graph whose reduced tensor has rank 4 in every call with an argument of rank 4 *)
Definition demo_graph : fgraph :=
  FGraph [FNode "m" "ReduceMax" "" [("axes", AInts [2; 3]%Z); ("keepdims", AInt 0)] ["x"] ["y"] []; FNode "r" "Relu" "" [] ["y"] ["z"] []] ["x"] ["z"].
Example C40_witness :
  valid demo_graph /\
  optimize_reduce 13 (fun _ => true) (fun _ => Some 4) "sq" "sq:0" "cst" "cst:0" demo_graph (nth 0 (f_nodes demo_graph) (FNode "" "" "" [] [] [] [])) =
    Some (FGraph [FNode "m" "GlobalMaxPool" "" [] ["x"] ["y"] []; FNode "r" "Relu" "" [] ["sq:0"] ["z"] [];
                  FNode "cst" "Const" "" [("value", AInts [2; 3]%Z)] [] ["cst:0"] []; FNode "sq" "Squeeze" "" [] ["y"; "cst:0"] ["sq:0"] []] ["x"] ["z"], true) /\
  (forall (r0 r : env (tensor Z)) v, length (shape v) = 4 -> map r (f_ins demo_graph) = [v] -> length (shape (r "x")) = 4).
Proof.
  split; [apply (valid_check_spec [("x", 0); ("y", 1); ("z", 2)]); reflexivity|]. split; [reflexivity|].
  intros r0 r v L E. cbn in E. injection E as ->. exact L.
Qed.
