(** Reductions: tf.reduce_sum / mean / max / min / prod / all / any, tf.argmax / argmin, and the ONNX operators Reduce*,
    ArgMax, ArgMin, from their documentation.  A reduction is given by a relation between the list of the elements that
    are reduced together and the result, so that the order of the additions may be left open. *)
From Coq Require Import List Arith ZArith Bool String Permutation.
From Flocq Require Import Core BinarySingleNaN.
From Verif Require Import Tensor OnnxSpec.
From Verif Require ElemSpec RangeSpec.
Import ListNotations.
Local Open Scope list_scope.
Local Notation length := List.length.

Definition indices (sh : list nat) : list (list nat) := map (unravel sh) (seq 0 (size sh)).
(** the same index, except along the axes [ax] *)
Definition matches (ax ix jx : list nat) : bool :=
  forallb (fun k => existsb (Nat.eqb k) ax || Nat.eqb (nth k ix 0) (nth k jx 0)) (seq 0 (length jx)).
(** the elements that are reduced to the element ix of the result, in row-major order *)
Definition lane {A} (x : tensor A) (ax ix : list nat) : list (option A) := map (get x) (filter (matches ax ix) (indices (shape x))).
(** the reduced dimensions are 1 *)
Definition kept (ax sh : list nat) : list nat := map (fun k => if existsb (Nat.eqb k) ax then 1 else nth k sh 0) (seq 0 (length sh)).
Definition reduces {A B} (R : list A -> B -> Prop) (ax : list nat) (keep : bool) (x : tensor A) (y : tensor B) : Prop :=
  wf x /\ wf y /\ shape y = (if keep then kept ax (shape x) else drop_axes ax (shape x)) /\
  forall ix, inb ix (kept ax (shape x)) -> exists vs v, lane x ax ix = map Some vs /\ get y (if keep then ix else drop_axes ax ix) = Some v /\ R vs v.

(** a tensor of axes: int32 or int64, a scalar or a vector *)
Record axes_tensor := AxesTensor { a_type : ElemSpec.ity; a_value : tensor Z }.
Definition axes_ok (a : axes_tensor) : Prop :=
  (a_type a = ElemSpec.I32 \/ a_type a = ElemSpec.I64) /\ wf (a_value a) /\ (length (shape (a_value a)) <= 1).
(** TensorFlow: every axis in [-rank, rank), no axis twice; no axes: nothing is reduced *)
Definition tf_reduce {A B} (R : list A -> B -> Prop) (a : axes_tensor) (keep : bool) (x : tensor A) (y : tensor B) : Prop :=
  exists ax, norm_axes (length (shape x)) (data (a_value a)) = Some ax /\ NoDup ax /\ reduces R ax keep x y.

(** ** ONNX *)
(** the axes as an attribute, or as an input after some Cast to int64, Unsqueeze (axis 0), Reshape (to [-1]) *)
Inductive axes_step := CastI64 | UnsqueezeZero | ReshapeFlat.
Inductive axes_form := AxAttr (l : list Z) | AxInput (steps : list axes_step).
Record reduce_node := ReduceNode { r_op : string; r_axes : axes_form; r_keep : bool; r_noop : bool }.
Definition axes_run1 (a : axes_tensor) (s : axes_step) : axes_tensor :=
  match s with
  | CastI64 => AxesTensor ElemSpec.I64 (a_value a)
  | UnsqueezeZero => AxesTensor (a_type a) (Tensor (1 :: shape (a_value a)) (data (a_value a)))
  | ReshapeFlat => AxesTensor (a_type a) (Tensor [length (data (a_value a))] (data (a_value a)))
  end.
Definition axes_run (a : axes_tensor) (l : list axes_step) : axes_tensor := fold_left axes_run1 l a.
(** the first opset in which the axes are an input *)
Definition input_since (op : string) : nat := if String.eqb op "ReduceSum" then 13 else 18.
Definition reduce_ops : list string := ["ReduceSum"; "ReduceMean"; "ReduceMax"; "ReduceMin"; "ReduceProd"]%string.
(** the operators of TensorFlow and of ONNX that reduce in the same way *)
Definition same_reduction : list (string * string) :=
  [("Sum", "ReduceSum"); ("Mean", "ReduceMean"); ("Max", "ReduceMax"); ("Min", "ReduceMin"); ("Prod", "ReduceProd")]%string.
(** an empty list of axes as an attribute has no defined meaning *)
Definition onnx_reduce {A} (opset : nat) (R : list A -> A -> Prop) (n : reduce_node) (a : axes_tensor) (x y : tensor A) : Prop :=
  In (r_op n) reduce_ops /\
  match r_axes n with
  | AxAttr l => opset < input_since (r_op n) /\ r_noop n = false /\ l <> [] /\ (opset < 11 -> Forall (fun z => (0 <= z)%Z) l) /\
                exists ax, norm_axes (length (shape x)) l = Some ax /\ NoDup ax /\ reduces R ax (r_keep n) x y
  | AxInput steps =>
      let a' := axes_run a steps in
      input_since (r_op n) <= opset /\ a_type a' = ElemSpec.I64 /\ length (shape (a_value a')) = 1 /\
      match data (a_value a') with
      | [] => if r_noop n then wf x /\ y = x else reduces R (seq 0 (length (shape x))) (r_keep n) x y
      | l => exists ax, norm_axes (length (shape x)) l = Some ax /\ NoDup ax /\ reduces R ax (r_keep n) x y
      end
  end.

(** ** sums and minima of floats in any order *)
Inductive tree_of {A} (f : A -> A -> A) : list A -> A -> Prop :=
| tree_leaf x : tree_of f [x] x
| tree_node l r x y : tree_of f l x -> tree_of f r y -> tree_of f (l ++ r) (f x y)
| tree_perm l l' x : Permutation l l' -> tree_of f l x -> tree_of f l' x.
Definition f32 := ElemSpec.fl ElemSpec.F32.
Definition sum_of (l : list f32) (x : f32) : Prop := match l with [] => x = ElemSpec.fzero | _ => tree_of (@ElemSpec.add ElemSpec.F32) l x end.
Definition min_of (l : list f32) (x : f32) : Prop := match l with [] => False | _ => tree_of (@ElemSpec.fmin ElemSpec.F32) l x end.
(** an elementwise sequence of nodes *)
Definition each {A B} (f : A -> option B) (x : tensor A) (y : tensor B) : Prop :=
  shape y = shape x /\ wf x /\ wf y /\ forall ix, inb ix (shape x) -> exists v w, get x ix = Some v /\ f v = Some w /\ get y ix = Some w.

(** ** argmax: the index of the first best element *)
Definition first_best {A} (better : A -> A -> bool) (l : list A) (i : nat) : Prop :=
  exists v, nth_error l i = Some v /\ forall j w, nth_error l j = Some w -> better w v = false /\ (j < i -> better v w = true).
Record arg_node := ArgNode { g_op : string; g_axis : Z; g_keep : bool; g_cast : option ElemSpec.ity }.
Definition tf_arg {A} (better : A -> A -> bool) (axis : Z) (t : ElemSpec.ity) (x : tensor A) (y : tensor (ElemSpec.ity * Z)) : Prop :=
  exists ax, norm_axis (length (shape x)) axis = Some ax /\ reduces (fun vs v => exists i, first_best better vs i /\ v = (t, Z.of_nat i)) [ax] false x y.
Definition onnx_arg {A} (opset : nat) (better : A -> A -> bool) (n : arg_node) (x : tensor A) (y : tensor (ElemSpec.ity * Z)) : Prop :=
  (opset < 11 -> (0 <= g_axis n)%Z) /\
  exists ax z, norm_axis (length (shape x)) (g_axis n) = Some ax /\
    reduces (fun vs v => exists i, first_best better vs i /\ v = (ElemSpec.I64, Z.of_nat i)) [ax] (g_keep n) x z /\
    match g_cast n with None => y = z | Some t => each (fun v => Some (t, ElemSpec.wrap t (snd v))) z y end.
