(** C87: operations on sets, tf2onnx/onnx_opset/tensor.py:2989-3080 (model: SetModel, specification: SetSpec). *)
From Coq Require Import String List Arith ZArith Bool Lia Sorted.
From Verif Require Import Tensor SetSpec SetModel SetProofs.
Import ListNotations.
Local Open Scope list_scope.

(** For any number of dimensions and any sizes, for each of the four operations: if some row has members left, the graph outputs TensorFlow's
    sparse tensor: indices, values in increasing order and dense shape *)
Theorem C87_set_operation_partial op prefix n m a b res : wf a -> wf b -> shape a = prefix ++ [n] -> shape b = prefix ++ [m] -> operation op ->
  set_result op prefix n m a b res -> (exists ix, inb ix prefix /\ res ix <> []) ->
  dense_to_dense op a b = Some (sparse_of prefix res).
Proof.
  intros Wa Wb Sa Sb Op H (ix & Hix & N). destruct (dense_to_dense_ok op prefix n m a b Wa Wb Sa Sb Op) as (res' & H' & ->).
  destruct (sparse_of_ext prefix res' res (set_result_unique _ _ _ _ _ _ _ _ H' H)) as [-> ->]. rewrite (proj2 (Nat.ltb_lt _ _)); [reflexivity|].
  apply in_row_major in Hix. destruct (flat_map res (row_major prefix)) eqn:E; [|cbn; lia]. exfalso. destruct (res ix) as [|v l] eqn:Er; [auto|].
  assert (K : In v (flat_map res (row_major prefix))) by (apply in_flat_map; exists ix; split; [auto|]; rewrite Er; now left). rewrite E in K. destruct K.
Qed.
Print Assumptions C87_set_operation_partial.
(** there always are such sets, one for each row and no other *)
Theorem C87_sets_exist op prefix n m a b : wf a -> wf b -> shape a = prefix ++ [n] -> shape b = prefix ++ [m] -> operation op ->
  exists res, set_result op prefix n m a b res /\ forall res', set_result op prefix n m a b res' -> forall ix, inb ix prefix -> res' ix = res ix.
Proof.
  intros Wa Wb Sa Sb Op. destruct (dense_to_dense_ok op prefix n m a b Wa Wb Sa Sb Op) as (res & H & _). exists res. split; [exact H|].
  intros res' H' ix Hix. exact (set_result_unique _ _ _ _ _ _ _ _ H' H ix Hix).
Qed.
Print Assumptions C87_sets_exist.

(** two rows: {3, 1} and {4}, {2, 2} -> {1} and {2} with duplicates *)
Definition ta : tensor Z := Tensor [2; 3] [3; 1; 3; 4; 4; 2]%Z.
Definition tb : tensor Z := Tensor [2; 2] [1; 5; 4; 7]%Z.
Example minus_case : dense_to_dense "a-b" ta tb = Some (Sparse [[0; 0]; [1; 0]] [3; 2] [2; 1])%Z.
Proof. reflexivity. Qed.
Example minus_swapped : dense_to_dense "b-a" ta tb = Some (Sparse [[0; 0]; [1; 0]] [5; 7] [2; 1])%Z.
Proof. reflexivity. Qed.
Example union_case : dense_to_dense "union" ta tb = Some (Sparse [[0; 0]; [0; 1]; [0; 2]; [1; 0]; [1; 1]; [1; 2]] [1; 3; 5; 2; 4; 7] [2; 3])%Z.
Proof. reflexivity. Qed.
Example intersection_case : exists res, set_result "intersection" [2] 3 2 ta tb res /\ (exists ix, inb ix [2] /\ res ix <> []) /\
  dense_to_dense "intersection" ta tb = Some (sparse_of [2] res) /\ res [0] = [1]%Z.
Proof.
  destruct (C87_sets_exist "intersection" [2] 3 2 ta tb eq_refl eq_refl eq_refl eq_refl ltac:(cbn; auto)) as (res & H & _). exists res. split; [exact H|].
  assert (E : res [0] = [1]%Z).
  { destruct (H [0] ltac:(cbn; auto)) as [S1 M1]. assert (M : forall v, In v (res [0]) <-> In v [1]%Z).
    { intro v. rewrite M1. unfold member, in_row. cbn [String.eqb Ascii.eqb Bool.eqb]. split.
      - intros [(k & Hk & G) (j & Hj & G')]. assert (Q : get ta ([0] ++ [k]) = get tb ([0] ++ [j])) by (now rewrite G, G'). destruct k as [|[|[|k]]]; [| | |lia]; destruct j as [|[|j]]; try lia; try discriminate Q. cbn in G. injection G as <-. now left.
      - intros [<-|[]]. split; [exists 1|exists 0]; split; auto; lia. }
    apply zsorted_same; auto. repeat constructor. }
  split; [exists [0]; split; [cbn; auto|rewrite E; discriminate]|]. split; [|exact E].
  apply (C87_set_operation_partial "intersection" [2] 3 2); try reflexivity; [cbn; auto 6|exact H|]. exists [0]. split; [cbn; auto|rewrite E; discriminate].
Qed.

(** If no row has members left, the graph takes the maximum of no counts: it has no result, where TensorFlow has an empty sparse tensor *)
Theorem C87_no_members_refuted op prefix n m a b res : wf a -> wf b -> shape a = prefix ++ [n] -> shape b = prefix ++ [m] -> operation op ->
  set_result op prefix n m a b res -> (forall ix, inb ix prefix -> res ix = []) ->
  dense_to_dense op a b = None /\ sp_indices (sparse_of prefix res) = [].
Proof.
  intros Wa Wb Sa Sb Op H N. destruct (dense_to_dense_ok op prefix n m a b Wa Wb Sa Sb Op) as (res' & H' & ->).
  destruct (sparse_of_ext prefix res' (fun _ => [])) as [E1 E2].
  { intros ix Hix. rewrite (set_result_unique _ _ _ _ _ _ _ _ H' H) by auto. auto. }
  destruct (sparse_of_ext prefix res (fun _ => []) N) as [-> _]. rewrite E2.
  assert (Z0 : forall {A B} (l : list A), flat_map (fun _ => @nil B) l = []) by (intros A B l; induction l; auto). split; [now rewrite Z0|].
  cbn [sp_indices sparse_of length seq map]. apply Z0.
Qed.
Print Assumptions C87_no_members_refuted.
(** such inputs: [1] without [1] *)
Example nothing_left : dense_to_dense "a-b" (Tensor [1; 1] [1%Z]) (Tensor [1; 1] [1%Z]) = None.
Proof. reflexivity. Qed.
