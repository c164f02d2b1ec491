(** tf.math.top_k and ONNX TopK (last axis, the largest elements, sorted), and tf.math.invert_permutation, from their
    documentation: the k largest elements in descending order, of equal elements the one with the lower index first. *)
From Coq Require Import ZArith Reals List Bool String Sorted.
From Flocq Require Import Core BinarySingleNaN.
From Verif Require Import ElemSpec RangeSpec.
Import ListNotations.
Local Open Scope list_scope.

(** v is larger than w *)
Definition larger (v w : val) : bool :=
  match both no_bool (fun _ a b => Some (Z.ltb b a)) (fun f a b => Some (Bltb b a)) v w with Some b => b | None => false end.
(** element i of the row comes before element j *)
Definition before (xs : list val) (i j : nat) : Prop :=
  exists v w, nth_error xs i = Some v /\ nth_error xs j = Some w /\ (larger v w = true \/ (larger w v = false /\ i < j)).
(** [is]: the indices of the k largest elements of the row, in order *)
Record top (xs : list val) (k : nat) (is : list nat) : Prop := {
  top_length : List.length is = k;
  top_in : Forall (fun i => i < List.length xs) is;
  top_sorted : StronglySorted (before xs) is;
  top_largest : forall i j, In i is -> j < List.length xs -> ~ In j is -> before xs i j }.

(** along the last axis of a tensor *)
Definition row (x : ten) (p : list nat) (n : nat) : option (list val) := all_vals (map (fun i => telem x (p ++ [i])) (seq 0 n)).
Definition top_tensor (index : ity) (x : ten) (k : nat) (values indices : ten) : Prop :=
  exists d n, tshape x = d ++ [n] /\ k <= n /\ tshape values = d ++ [k] /\ tshape indices = d ++ [k] /\
    forall p, inb p d -> exists xs is, row x p n = Some xs /\ top xs k is /\
      forall r i, nth_error is r = Some i -> telem values (p ++ [r]) = nth_error xs i /\ telem indices (p ++ [r]) = Some (VI index (Z.of_nat i)).
(** TensorFlow: k is an int32 scalar, the indices are int32 *)
Definition tf_top_k (x k values indices : ten) : Prop :=
  exists z, k = scalar (VI I32 z) /\ in_range I32 z /\ (0 <= z)%Z /\ (forall d n, tshape x = d ++ [n] -> (Z.of_nat n <= hi I32)%Z) /\
    top_tensor I32 x (Z.to_nat z) values indices.
(** ONNX TopK: k is an attribute before opset 10, later a tensor of shape [1] of int64; floats only before opset 11 *)
Definition topk_type (opset : nat) (d : dtype) : bool := match d with BOOL => false | INT _ => Nat.leb 11 opset | FLT _ => true end.
Definition onnx_topk_attr (opset : nat) (x : ten) (k : Z) (values indices : ten) : Prop :=
  opset < 10 /\ (0 <= k)%Z /\ (exists d, typed d x /\ topk_type opset d = true) /\ top_tensor I64 x (Z.to_nat k) values indices.
Definition onnx_topk (opset : nat) (x k values indices : ten) : Prop :=
  10 <= opset /\ tshape k = [1] /\ exists z, telem k [0] = Some (VI I64 z) /\ (0 <= z)%Z /\
    (exists d, typed d x /\ topk_type opset d = true) /\ top_tensor I64 x (Z.to_nat z) values indices.
(** Unsqueeze of a scalar (axis 0, the only one that gives one dimension) *)
Definition unsqueezed (axes : list Z) (t : ten) : option ten :=
  match tshape t, axes with [], [0%Z] => Some (Ten [1] (fun _ => telem t [])) | _, _ => None end.
(** Shape of a vector *)
Definition shape_of (x : ten) : ten := Ten [List.length (tshape x)] (fun ix => match ix with [i] => option_map (fun d => VI I64 (Z.of_nat d)) (nth_error (tshape x) i) | _ => None end).
(** Neg: signed integers and floats *)
Definition neg (v : val) : option val :=
  match v with
  | VI t z => if signed t then Some (VI t (wrap t (- z))) else None
  | VF f x => Some (VF f (Bopp x))
  | VB _ => None
  end.

(** values that float32 represents exactly *)
Definition exact32 (v : val) : Prop :=
  match v with
  | VB _ => False
  | VI _ z => (Z.abs z <= 2 ^ 24)%Z
  | VF f x => is_nan x = false /\ match f with F64 => is_finite x = true -> exists y : fl F32, is_finite y = true /\ B2R y = B2R x | _ => True end
  end.
(** every element of a tensor *)
Definition elements (Q : val -> Prop) (t : ten) : Prop := forall ix v, inb ix (tshape t) -> telem t ix = Some v -> Q v.
(** ys is the inverse of the permutation xs of 0 .. n-1 *)
Definition permutation (xs : list Z) : Prop := NoDup xs /\ Forall (fun z => (0 <= z < Z.of_nat (List.length xs))%Z) xs.
Definition inverse (xs ys : list Z) : Prop :=
  List.length ys = List.length xs /\ forall i z, nth_error xs i = Some z -> nth_error ys (Z.to_nat z) = Some (Z.of_nat i).
Definition vector (t : ity) (l : list Z) : ten := Ten [List.length l] (fun ix => match ix with [i] => option_map (VI t) (nth_error l i) | _ => None end).
