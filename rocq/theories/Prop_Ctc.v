(** C86: the greedy CTC decoder, tf2onnx/onnx_opset/nn.py:2000-2094 (model: CtcModel, specification: CtcSpec). *)
From Coq Require Import Reals List Arith ZArith Bool Lia Lra.
From Verif Require Import CtcSpec CtcModel CtcProofs.
Import ListNotations.
Local Open Scope R_scope.
Local Open Scope list_scope.

(** All four outputs, for any batch, sequence lengths and scores (ties included), with and without merging, if at least one sequence decodes to
    something and the blank is the last class *)
Theorem C86_ctc_partial max_time batch classes inputs len merge : good_input max_time batch classes inputs len ->
  (exists b, (b < batch)%nat /\ decode merge (classes - 1) None (rows_of inputs len b) <> []) ->
  ctc_greedy max_time batch classes inputs len merge = Some (tf_ctc batch inputs len merge (classes - 1)).
Proof.
  intros G (b & Hb & N). rewrite graph_is by exact G. rewrite (proj2 (Nat.ltb_lt _ _)); [reflexivity|].
  rewrite decode_ok in N. assert (A := max_len_ge (fun b => length (seqk classes inputs len merge b)) (seq 0 batch) b ltac:(apply in_seq; lia)). unfold longest.
  destruct (seqk classes inputs len merge b) eqn:E; [cbn in N; congruence|]. cbn beta in A. rewrite E in A. cbn [length] in A. lia.
Qed.
Print Assumptions C86_ctc_partial.

(** a batch of two: the first sequence is blank, 0, 0; the second has one time *)
Definition scores (t b : nat) : list R :=
  match t, b with
  | 0%nat, 0%nat => [1; 2; 3]
  | _, 0%nat => [5; 2; 3]
  | _, _ => [1; 4; 2]
  end.
Definition lengths (b : nat) : nat := match b with O => 3%nat | _ => 1%nat end.
Lemma scores_good : good_input 3 2 3 scores lengths.
Proof. split; [lia|]. intros b Hb. split; [destruct b as [|[|b]]; cbn [lengths]; lia|]. intros t _. destruct t, b; reflexivity. Qed.
Ltac rowmax := unfold RowMax, row_max; repeat match goal with |- context [Rlt_dec ?u ?v] => destruct (Rlt_dec u v); try lra end; cbn [snd Nat.eqb negb andb app].
Example ctc_case : ctc_greedy 3 2 3 scores lengths true = Some (tf_ctc 2 scores lengths true 2).
Proof.
  apply (C86_ctc_partial 3 2 3); [exact scores_good|]. exists 1%nat. split; [lia|]. unfold rows_of. cbn [lengths seq map scores decode]. rowmax. discriminate.
Qed.

(** If no sequence decodes to anything, the graph takes the maximum of no rows: it has no result, where TensorFlow gives empty sequences *)
Theorem C86_nothing_decoded_refuted max_time batch classes inputs len merge : good_input max_time batch classes inputs len ->
  (forall b, (b < batch)%nat -> decode merge (classes - 1) None (rows_of inputs len b) = []) ->
  ctc_greedy max_time batch classes inputs len merge = None /\ indices (tf_ctc batch inputs len merge (classes - 1)) = [].
Proof.
  intros G N. rewrite graph_is by exact G. split.
  - replace (longest batch classes inputs len merge) with 0%nat; [reflexivity|]. symmetry. unfold longest.
    destruct (Nat.eq_dec (fold_right Nat.max 0%nat (map (fun b => length (seqk classes inputs len merge b)) (seq 0 batch))) 0) as [E|E]; [exact E|].
    destruct (max_len_in (fun b => length (seqk classes inputs len merge b)) (seq 0 batch) ltac:(lia)) as (b & I & L). apply in_seq in I. specialize (N b ltac:(lia)). rewrite decode_ok in N. apply map_eq_nil in N. rewrite N in L. cbn in L. lia.
  - cbn [indices tf_ctc]. assert (A : forall l, (forall b, In b l -> (b < batch)%nat) -> flat_map (fun b => map (fun p => (Z.of_nat b, Z.of_nat p)) (seq 0 (length (decode merge (classes - 1) None (rows_of inputs len b))))) l = []).
    { induction l as [|b l IH]; intro A; [reflexivity|]. cbn [flat_map]. rewrite N by (apply A; now left). cbn [length seq map app]. apply IH. intros; apply A; now right. }
    apply A. intros b I. apply in_seq in I. lia.
Qed.
Print Assumptions C86_nothing_decoded_refuted.
(** such inputs: everything is blank *)
Example blank_case : good_input 1 1 2 (fun _ _ => [0; 1]) (fun _ => 1%nat) /\ decode false 1 None (rows_of (fun _ _ => [0; 1]) (fun _ => 1%nat) 0) = [].
Proof. split; [repeat split; auto; lia|]. unfold rows_of. cbn [seq map decode]. rowmax. reflexivity. Qed.

(** The attribute blank_index is not read: the graph drops the last class whatever it says *)
Theorem C86_blank_index_refuted : exists max_time batch classes inputs len blank, good_input max_time batch classes inputs len /\ (blank < classes)%nat /\
  exists y, ctc_greedy max_time batch classes inputs len false = Some y /\ values y = [0%Z] /\ values (tf_ctc batch inputs len false blank) = [].
Proof.
  exists 1%nat, 1%nat, 2%nat, (fun _ _ => [1; 0]), (fun _ => 1%nat), 0%nat. assert (G : good_input 1 1 2 (fun _ _ => [1; 0]) (fun _ => 1%nat)) by (repeat split; auto; lia). split; [exact G|]. split; [lia|].
  exists (tf_ctc 1 (fun _ _ => [1; 0]) (fun _ => 1%nat) false 1). split; [|split].
  - apply (C86_ctc_partial 1 1 2); [exact G|]. exists 0%nat. split; [lia|]. unfold rows_of. cbn [seq map decode]. rowmax. discriminate.
  - cbn [values tf_ctc seq flat_map app]. unfold rows_of. cbn [seq map decode]. rowmax. reflexivity.
  - cbn [values tf_ctc seq flat_map app]. unfold rows_of. cbn [seq map decode]. rowmax. reflexivity.
Qed.
Print Assumptions C86_blank_index_refuted.
