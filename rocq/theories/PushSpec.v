(** The operators the transpose optimizer knows, on tensors, from the ONNX operator documentation; and what it means
    to move a Transpose from before an operator to behind it.  Independent of the code under study. *)
From Coq Require Import List Arith ZArith Bool Permutation.
From Verif Require Import Tensor OnnxSpec NNSpec.
Import ListNotations.
Local Open Scope list_scope.

(** Transpose p followed by F computes the same as G followed by Transpose q *)
Definition moves {A B} (p : list nat) (F : tensor A -> tensor B -> Prop) (G : tensor A -> tensor B -> Prop) (q : list nat) : Prop :=
  forall x y, (exists t, transpose_rel p x t /\ F t y) <-> (exists u, G x u /\ transpose_rel q u y).

(** Relu, Exp, Cast, Clip, ...: each element on its own *)
Definition map_rel {A B} (f : A -> B) (x : tensor A) (y : tensor B) : Prop :=
  wf x /\ wf y /\ shape y = shape x /\ forall ix, inb ix (shape x) -> get y ix = option_map f (get x ix).

(** Add, Mul, Max, Sum, ...: any number of inputs with multidirectional broadcasting *)
Definition nary_rel {A} (f : list A -> A) (xs : list (tensor A)) (y : tensor A) : Prop :=
  let r := length (shape y) in
  wf y /\ (forall x, In x xs -> wf x /\ length (shape x) <= r) /\ (exists x, In x xs /\ length (shape x) = r) /\
  (forall k, k < r -> let dims := map (fun x => nth k (repeat 1 (r - length (shape x)) ++ shape x) 0) xs in
     In (nth k (shape y) 0) dims /\ forall d, In d dims -> d = 1 \/ d = nth k (shape y) 0) /\
  forall ix, inb ix (shape y) -> exists vs, Forall2 (fun x v => get x (bcast_ix r (shape x) ix) = Some v) xs vs /\ get y ix = Some (f vs).
(** PRelu: the slope is broadcast to the data, not the other way round *)
Definition prelu_rel {A} (f : list A -> A) (x slope y : tensor A) : Prop := nary_rel f [x; slope] y /\ shape y = shape x.

(** the same elements with leading dimensions 1 up to rank n *)
Definition expands {A} (n : nat) (x e : tensor A) : Prop :=
  wf x /\ length (shape x) <= n /\ e = Tensor (repeat 1 (n - length (shape x)) ++ shape x) (data x).
(** x can be read where t was read once the Transpose is moved behind the operator *)
Definition carried {A} (p : list nat) (n : nat) (t x : tensor A) : Prop :=
  exists e e', expands n t e /\ expands n x e' /\ transpose_rel p e' e.

(** output element ix is input element jx whenever they are related along every axis *)
Definition placed {A} (P : nat -> nat -> nat -> Prop) (x y : tensor A) : Prop :=
  forall ix jx, inb ix (shape y) -> inb jx (shape x) ->
    (forall k, k < length (shape x) -> P k (nth k ix 0) (nth k jx 0)) -> get y ix = get x jx.

(** Pad: position i of the padded axis (0 = first element of the data) shows element j of d *)
Inductive pad_mode := PadConstant | PadEdge | PadReflect | PadWrap.
Definition pad_shows (m : pad_mode) (d : nat) (i : Z) (j : nat) : Prop :=
  match m with
  | PadConstant => i = Z.of_nat j
  | PadEdge => Z.of_nat j = Z.max 0 (Z.min i (Z.of_nat d - 1))
  | PadReflect => i = Z.of_nat j \/ i = (- Z.of_nat j)%Z \/ i = (2 * (Z.of_nat d - 1) - Z.of_nat j)%Z
  | PadWrap => (i mod Z.of_nat d = Z.of_nat j)%Z
  end.
Definition pad_rel {A} (m : pad_mode) (pads : list Z) (c : A) (x y : tensor A) : Prop :=
  let r := length (shape x) in
  let shows := fun k i j => pad_shows m (nth k (shape x) 0) (Z.of_nat i - nth k pads 0%Z) j in
  wf x /\ wf y /\ length pads = 2 * r /\ length (shape y) = r /\
  (forall k, k < r -> Z.of_nat (nth k (shape y) 0%nat) = (nth k pads 0%Z + Z.of_nat (nth k (shape x) 0%nat) + nth (r + k) pads 0%Z)%Z) /\
  placed shows x y /\
  forall ix, inb ix (shape y) -> (forall jx, inb jx (shape x) -> ~ forall k, k < r -> shows k (nth k ix 0) (nth k jx 0)) -> get y ix = Some c.

(** Tile *)
Definition tile_rel {A} (repeats : list nat) (x y : tensor A) : Prop :=
  let r := length (shape x) in
  wf x /\ wf y /\ length repeats = r /\ length (shape y) = r /\
  (forall k, k < r -> nth k (shape y) 0 = nth k (shape x) 0 * nth k repeats 0) /\
  placed (fun k i j => j = i mod nth k (shape x) 0) x y.

(** Slice along one axis of length d: first element and number of elements *)
Definition slice_axis (d : nat) (start stop step : Z) : Z * nat :=
  let n := Z.of_nat d in
  let s := if (start <? 0)%Z then (start + n)%Z else start in
  let e := if (stop <? 0)%Z then (stop + n)%Z else stop in
  let clamp := fun lo hi v => Z.max lo (Z.min hi v) in
  if Nat.eqb d 0 then (0%Z, 0)
  else if (0 <? step)%Z then let s := clamp 0%Z n s in let e := clamp 0%Z n e in (s, Z.to_nat ((e - s + step - 1) / step))
  else let s := clamp 0%Z (n - 1)%Z s in let e := clamp (-1)%Z (n - 1)%Z e in (s, Z.to_nat ((s - e + - step - 1) / - step)).
(** axes, starts, ends, steps in parallel; axes that are not listed are not sliced *)
Definition slice_rel {A} (params : list (Z * (Z * Z * Z))) (x y : tensor A) : Prop :=
  let r := length (shape x) in
  wf x /\ wf y /\ length (shape y) = r /\ (forall a s e st, In (a, (s, e, st)) params -> st <> 0%Z) /\
  exists ax, norm_axes r (map fst params) = Some ax /\ NoDup ax /\
    (forall q k s e st, nth_error ax q = Some k -> nth_error (map snd params) q = Some (s, e, st) ->
       nth k (shape y) 0 = snd (slice_axis (nth k (shape x) 0) s e st)) /\
    (forall k, k < r -> ~ In k ax -> nth k (shape y) 0 = nth k (shape x) 0) /\
    placed (fun k i j => (~ In k ax -> j = i) /\
              forall q s e st, nth_error ax q = Some k -> nth_error (map snd params) q = Some (s, e, st) ->
                Z.of_nat j = (fst (slice_axis (nth k (shape x) 0%nat) s e st) + Z.of_nat i * st)%Z) x y.

(** the elements along one axis *)
Definition lane {A} (x : tensor A) (ax : nat) (ix : list nat) : list (option A) :=
  map (fun j => get x (set_dim ax j ix)) (seq 0 (nth ax (shape x) 0)).
(** Softmax, LogSoftmax from opset 13: along one axis *)
Definition softmax_rel {A} (h : list A -> list A) (axis : Z) (x y : tensor A) : Prop :=
  wf x /\ wf y /\ shape y = shape x /\ exists ax, norm_axis (length (shape x)) axis = Some ax /\
  forall ix, inb ix (shape x) -> exists vs, lane x ax ix = map Some vs /\ get y ix = nth_error (h vs) (nth ax ix 0).
(** Softmax, LogSoftmax before opset 13: over all elements with the same indices before the axis.  [h v vs] is the
    result for value v among vs; the order of vs does not matter. *)
Definition softmax12_rel {A} (h : A -> list A -> A) (axis : Z) (x y : tensor A) : Prop :=
  wf x /\ wf y /\ shape y = shape x /\ exists ax, (norm_axis (length (shape x)) axis = Some ax \/ (axis = Z.of_nat (length (shape x)) /\ ax = length (shape x))) /\
  forall ix, inb ix (shape x) -> exists v vs, get x ix = Some v /\ get y ix = Some (h v vs) /\
    map (get x) (filter (fun jx => if list_eq_dec Nat.eq_dec (firstn ax jx) (firstn ax ix) then true else false) (indices (shape x))) = map Some vs.
(** ArgMax, ArgMin *)
Definition arg_rel {A B} (g : list A -> B) (axis : Z) (keepdims : bool) (x : tensor A) (y : tensor B) : Prop :=
  exists z, (wf x /\ wf z /\ exists ax, norm_axis (length (shape x)) axis = Some ax /\ shape z = set_dim ax 1 (shape x) /\
              forall ix, inb ix (shape z) -> exists vs, lane x ax ix = map Some vs /\ get z ix = Some (g vs)) /\
            if keepdims then y = z else squeeze_rel [axis] z y.
(** ReduceSum, ReduceMax, ...: [agg] of all elements that agree with the output index outside the axes *)
Definition agrees (ax ix jx : list nat) : bool :=
  forallb (fun k => existsb (Nat.eqb k) ax || Nat.eqb (nth k ix 0) (nth k jx 0)) (seq 0 (length jx)).
Definition reduce_keep {A} (agg : list A -> A) (ax : list nat) (x z : tensor A) : Prop :=
  wf x /\ wf z /\ length (shape z) = length (shape x) /\
  (forall k, k < length (shape x) -> nth k (shape z) 0 = if existsb (Nat.eqb k) ax then 1 else nth k (shape x) 0) /\
  forall ix, inb ix (shape z) -> exists vs, map (get x) (filter (agrees ax ix) (indices (shape x))) = map Some vs /\ get z ix = Some (agg vs).
Definition reduce_rel {A} (agg : list A -> A) (axes : list Z) (keepdims : bool) (x y : tensor A) : Prop :=
  exists ax z, norm_axes (length (shape x)) axes = Some ax /\ NoDup ax /\ reduce_keep agg ax x z /\
               if keepdims then y = z else squeeze_rel axes z y.
Definition order_free {A B} (agg : list A -> B) : Prop := forall l l', Permutation l l' -> agg l = agg l'.

(** QuantizeLinear, DequantizeLinear: one parameter for all elements, or one for each position along the axis *)
Definition quantize_rel {A S B} (q : A -> S -> B) (axis : Z) (s : tensor S) (x : tensor A) (y : tensor B) : Prop :=
  wf x /\ wf y /\ wf s /\ shape y = shape x /\
  ((shape s = [] /\ forall ix, inb ix (shape x) -> exists a b, get x ix = Some a /\ get s [] = Some b /\ get y ix = Some (q a b)) \/
   exists ax, norm_axis (length (shape x)) axis = Some ax /\ shape s = [nth ax (shape x) 0] /\
     forall ix, inb ix (shape x) -> exists a b, get x ix = Some a /\ get s [nth ax ix 0] = Some b /\ get y ix = Some (q a b)).

(** Shape (with the optional attributes of opset 15), Gather from a vector *)
Definition shape_rel {A} (x : tensor A) (y : tensor nat) : Prop := y = Tensor [length (shape x)] (shape x).
Definition shape_range_rel {A} (start stop : nat) (x : tensor A) (y : tensor nat) : Prop :=
  let l := firstn (stop - start) (skipn start (shape x)) in y = Tensor [length l] l.
Definition gather_rel (idx : list nat) (x y : tensor nat) : Prop :=
  wf x /\ length (shape x) = 1 /\ (forall i, In i idx -> i < length (data x)) /\ y = Tensor [length idx] (map (fun i => nth i (data x) 0) idx).
