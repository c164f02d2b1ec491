(** tf.reverse, from the TensorFlow documentation: the given axes, all different, are reversed. *)
From Coq Require Import List Arith ZArith Bool.
From Verif Require Import Tensor FoldModel OnnxSpec.
Import ListNotations.
Local Open Scope list_scope.

Definition mirrored (ax sh ix : list nat) : list nat :=
  map (fun '(k, (d, i)) => if existsb (Nat.eqb k) ax then d - 1 - i else i) (combine (seq 0 (length sh)) (combine sh ix)).
Fixpoint distinct (l : list nat) : bool := match l with [] => true | x :: l' => negb (existsb (Nat.eqb x) l') && distinct l' end.
Definition tf_reverse {A} (axes : list Z) (x : tensor A) : option (tensor A) :=
  match norm_axes (length (shape x)) axes with
  | Some ax => if distinct ax then build (shape x) (fun ix => get x (mirrored ax (shape x) ix)) else None
  | None => None
  end.
