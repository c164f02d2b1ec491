(** Specification for C30 and C31: how TFLite string tensors and TF.js weights are written. *)
From Coq Require Import String ZArith List.
From Verif Require Import FlexModel FlexSpec WeightsModel.
Import ListNotations.
Local Open Scope Z_scope.

Definition u32 (n : Z) : list Z := uint_bytes 4 n.
(** TFLite DynamicBuffer: the number of strings, the offset of each string, the total size, then the strings *)
Fixpoint string_offsets (start : Z) (ss : list (list Z)) : list Z :=
  match ss with [] => [start] | s :: ss' => start :: string_offsets (start + Z.of_nat (length s)) ss' end.
Definition tflite_strings (ss : list (list Z)) : list Z :=
  u32 (Z.of_nat (length ss)) ++ concat (map u32 (string_offsets (4 * (Z.of_nat (length ss) + 2)) ss)) ++ concat ss.

(** TF.js: each string with its length in front; each other weight as its elements one after the other *)
Definition content_bytes (c : content) : list Z :=
  match c with
  | CStrings l => concat (map (fun s => u32 (Z.of_nat (length s)) ++ s) l)
  | CFixed l => concat l
  end.
(** the content has the shape and the element size the manifest says *)
Definition conforms (w : weight) (c : content) : Prop :=
  match wstore w, c with
  | SString, CStrings l => length l = fold_right Nat.mul 1%nat (wshape w) /\ Forall (fun s => Z.of_nat (length s) < 2 ^ 32) l
  | SFixed k, CFixed l => length l = fold_right Nat.mul 1%nat (wshape w) /\ Forall (fun e => length e = k) l
  | _, _ => False
  end.
(** a string without trailing NUL bytes, and the string [s] with its trailing NUL bytes removed *)
Definition no_trailing_nul (s : list Z) : Prop := forall p, s <> p ++ [0].
Definition without_nuls (s s' : list Z) : Prop := no_trailing_nul s' /\ exists n, s = s' ++ repeat 0 n.
Definition nul_clean (c : content) : Prop := match c with CStrings l => Forall no_trailing_nul l | CFixed _ => True end.
Definition same_up_to_nuls (c c' : content) : Prop :=
  match c, c' with
  | CStrings l, CStrings l' => Forall2 without_nuls l l'
  | CFixed l, CFixed l' => l = l'
  | _, _ => False
  end.
