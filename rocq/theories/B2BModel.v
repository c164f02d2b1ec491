(** Model of the decisions of tf2onnx/optimizer/back_to_back_optimizer.py (which pairs of nodes are fused and
    into what), node by node. *)
From Coq Require Import String List Arith ZArith Bool Reals.
Import ListNotations.
Local Open Scope list_scope.

(** lines 139-166 _optimize_transpose, for one consumer: t1 = perm of the node, t2 = perm of the consumer.
    [None] = IndexError; [Some None] = both nodes are dropped; [Some (Some p)] = the consumer gets perm p. *)
Fixpoint index_all (l idx : list nat) : option (list nat) :=
  match idx with
  | [] => Some []
  | i :: idx' => match nth_error l i, index_all l idx' with Some x, Some xs => Some (x :: xs) | _, _ => None end
  end.
Definition fuse_transpose (t1 t2 : list nat) : option (option (list nat)) :=
  match index_all t1 t2 with
  | None => None
  | Some p => Some (if list_eq_dec Nat.eq_dec p (seq 0 (length t2)) then None else Some p)
  end.

(** lines 168-204 _optimize_squeeze_unsqueeze: the pair is dropped iff the axes agree.  [axes1]: the axes of the
    Squeeze as far as they are known (attribute, or constant input), [same]: both read the same tensor. *)
Definition cancel_squeeze (opset : nat) (same : bool) (axes1 axes2 : option (list Z)) : bool :=
  if Nat.leb opset 12
  then match axes1, axes2 with Some a, Some b => if list_eq_dec Z.eq_dec a b then true else false | _, _ => false end
  else same || match axes1, axes2 with Some a, Some b => if list_eq_dec Z.eq_dec a b then true else false | _, _ => false end.

(** lines 86-137 _optimize_cast: ONNX element types by their names in constants.py / utils.ONNX_DTYPE_NAMES *)
Inductive dtype := TFloat16 | TBFloat16 | TFloat | TDouble | TInt8 | TInt16 | TInt32 | TInt64
                 | TUint8 | TUint16 | TUint32 | TUint64 | TBool | TString | TComplex64 | TComplex128.
Definition dtype_dec (a b : dtype) : {a = b} + {a <> b}. Proof. decide equality. Defined.
(** 'float' in name or name == 'double' (float16, float; bfloat16 contains 'float' too, but has no entry in
    ONNX_DTYPE_NAMES and so the empty name) *)
Definition is_floaty (t : dtype) : bool := match t with TFloat16 | TFloat | TDouble => true | _ => false end.
Definition is_inty (t : dtype) : bool :=
  match t with TInt8 | TInt16 | TInt32 | TInt64 | TUint8 | TUint16 | TUint32 | TUint64 => true | _ => false end.
(** lines 108-131: may the first cast (to t1) be bypassed for a consumer casting to t2? *)
Definition can_reduce (t1 t2 : dtype) : bool :=
  if is_floaty t1 then true
  else if is_inty t1 then (if dtype_dec t1 t2 then true else if dtype_dec t2 TBool then true else false)
  else if dtype_dec t1 TBool then (if dtype_dec t1 t2 then true else false)
  else if dtype_dec t1 TString then true
  else false.

(** lines 206-272 _optimize_conv_batchnorm_fusion, over the reals; tensors as functions of their indices.
    weights.transpose(2,3,1,0) has index order [h,w,c,o]; scale_new broadcasts along the last axis (o). *)
Local Open Scope R_scope.
Definition weights_t (w : nat -> nat -> nat -> nat -> R) : nat -> nat -> nat -> nat -> R := fun h' w' c o => w o c h' w'.
Definition back_t (u : nat -> nat -> nat -> nat -> R) : nat -> nat -> nat -> nat -> R := fun o c h' w' => u h' w' c o.
Definition scale_new (scale var : nat -> R) (eps : R) : nat -> R := fun o => scale o / sqrt (var o + eps).
Definition weights_new w scale var eps : nat -> nat -> nat -> nat -> R :=
  back_t (fun h' w' c o => weights_t w h' w' c o * scale_new scale var eps o).
(** the bias is optional; without it the scalar 0 broadcasts *)
Definition bias_of (b : option (nat -> R)) : nat -> R := match b with Some f => f | None => fun _ => 0 end.
Definition bias_new b scale offset mean var eps : nat -> R :=
  fun o => (bias_of b o - mean o) * scale_new scale var eps o + offset o.
