(** C90: MatrixDiagPart, tf2onnx/onnx_opset/tensor.py:3166-3216 (model: MdpModel, specification: MdpSpec). *)
From Coq Require Import List Arith ZArith Bool Lia.
From Verif Require Import Tensor TensorProofs FoldModel OnnxSpec TOps TOpsProofs MdpSpec MdpModel MdpProofs.
Import ListNotations.
Local Open Scope list_scope.

(** For tensors of three dimensions, and for those of more dimensions whose second (and, from five on, third) dimension is no larger than the diagonal:
    the graph outputs the diagonal of every matrix.  The graph cuts axes 1 and 2 to the length of the diagonal, whichever axes hold the matrices *)
Definition harmless (lead : list nat) (rows cols : nat) : Prop :=
  match lead with
  | [] => False
  | [_] => True
  | [_; b] => b <= Nat.min rows cols
  | _ :: b :: c :: _ => b <= Nat.min rows cols /\ c <= Nat.min rows cols /\ rows <= cols
  end.
Theorem C90_diagonal_partial A (x : tensor A) lead rows cols : wf x -> shape x = lead ++ [rows; cols] -> harmless lead rows cols ->
  (Z.of_nat rows <= 2 ^ 24)%Z -> (Z.of_nat cols <= 2 ^ 24)%Z ->
  exists y, matrix_diag_part x = Some y /\ tf_diagonal lead rows cols x y.
Proof.
  intros W Sx H Hr Hc. rewrite (split_model x lead rows cols Sx Hr Hc). set (m := Nat.min rows cols) in *.
  assert (G : forall xs cols', wf xs -> shape xs = lead ++ [m; cols'] -> m <= cols' -> (forall p n, inb p lead -> n < m -> get xs (p ++ [n; n]) = get x (p ++ [n; n])) ->
    exists y, after_slice (tvec [Z.of_nat m]) xs = Some y /\ tf_diagonal lead rows cols x y).
  { intros xs cols' Ws Ss L E. destruct (tail_ok xs lead m cols' Ws Ss L) as (y & -> & Wy & Sy & Gy). exists y. split; [reflexivity|].
    split; [exact Sx|]. split; [exact W|]. split; [exact Sy|]. split; [exact Wy|]. intros p n Hp Hn. fold m in Hn. rewrite Gy, E by auto.
    destruct (get x (p ++ [n; n])) as [v|] eqn:Gx; [eauto|]. exfalso. revert Gx. apply get_some; [exact W|]. rewrite Sx. apply inb_app; [now apply inb_length|]. split; [exact Hp|]. cbn. lia. }
  destruct lead as [|a [|b [|c lead]]]; cbn [harmless app] in *; [destruct H| | |].
  - destruct (slice_two x a rows cols [] m W Sx) as (xs & -> & Ws & Ss & Gs). cbn [obind]. apply (G xs m Ws); [|lia|].
    + rewrite Ss. cbn [app]. do 2 f_equal; [lia|]. f_equal. lia.
    + intros p n Hp Hn. apply Gs. replace (Nat.min rows m) with m by lia. replace (Nat.min cols m) with m by lia. change [a; m; m] with ([a] ++ [m; m]). apply inb_app; [now apply inb_length|]. split; [exact Hp|]. cbn. lia.
  - destruct (slice_two x a b rows [cols] m W Sx) as (xs & -> & Ws & Ss & Gs). cbn [obind]. apply (G xs cols Ws); [|lia|].
    + rewrite Ss. cbn [app]. replace (Nat.min b m) with b by lia. replace (Nat.min rows m) with m by lia. reflexivity.
    + intros p n Hp Hn. apply Gs. replace (Nat.min b m) with b by lia. replace (Nat.min rows m) with m by lia. change [a; b; m; cols] with ([a; b] ++ [m; cols]). apply inb_app; [now apply inb_length|]. split; [exact Hp|]. cbn. lia.
  - destruct H as (Hb & Hc' & Hm). destruct (slice_two x a b c (lead ++ [rows; cols]) m W Sx) as (xs & -> & Ws & Ss & Gs). cbn [obind]. assert (M : m = rows) by lia. apply (G xs cols Ws); [|lia|].
    + rewrite Ss, M. cbn [app]. replace (Nat.min b rows) with b by lia. replace (Nat.min c rows) with c by lia. reflexivity.
    + intros p n Hp Hn. apply Gs. replace (Nat.min b m) with b by lia. replace (Nat.min c m) with c by lia. change (a :: b :: c :: lead ++ [rows; cols]) with ((a :: b :: c :: lead) ++ [rows; cols]).
      apply inb_app; [now apply inb_length|]. split; [exact Hp|]. cbn. lia.
Qed.
Print Assumptions C90_diagonal_partial.

Example two_matrices : matrix_diag_part (Tensor [2; 2; 3] (seq 0 12)) = Some (Tensor [2; 2] [0; 4; 6; 10]).
Proof. reflexivity. Qed.
Example two_matrices_case : tf_diagonal [2] 2 3 (Tensor [2; 2; 3] (seq 0 12)) (Tensor [2; 2] [0; 4; 6; 10]).
Proof. destruct (C90_diagonal_partial nat (Tensor [2; 2; 3] (seq 0 12)) [2] 2 3) as (y & E & H); [reflexivity|reflexivity|exact Logic.I|lia|lia|]. rewrite two_matrices in E. injection E as <-. exact H. Qed.
Example four_dims : matrix_diag_part (Tensor [1; 2; 2; 3] (seq 0 12)) = Some (Tensor [1; 2; 2] [0; 4; 6; 10]).
Proof. reflexivity. Qed.

(** A single matrix, for which TensorFlow gives a vector, is always rejected: it has no axis 2 *)
Theorem C90_matrix_refuted A (x : tensor A) rows cols : shape x = [rows; cols] -> matrix_diag_part x = None.
Proof.
  intro Sx. unfold matrix_diag_part. assert (E : forall s e, f_slice s e (Some [2; 1]%Z) x = None) by (intros s e; unfold f_slice; rewrite Sx; reflexivity).
  destruct (f_slice [(-2)%Z] _ None (shape_of x)) as [t1|]; [|reflexivity]. cbn [obind]. destruct (f_slice [0%Z] [1%Z] None _) as [t2|]; [|reflexivity]. cbn [obind].
  destruct (f_slice [1%Z] [2%Z] None _) as [t3|]; [|reflexivity]. cbn [obind]. destruct (f_binary Z.min t2 t3) as [t4|]; [|reflexivity]. cbn [obind].
  destruct (f_concat (-1) [t4; t4]) as [t5|]; [|reflexivity]. cbn [obind]. now rewrite E.
Qed.
Print Assumptions C90_matrix_refuted.
(** If four dimensions have a second one larger than the diagonal, matrices are lost, whatever the values *)
Theorem C90_lost_matrices_refuted A (x : tensor A) a b rows cols : wf x -> shape x = [a; b; rows; cols] -> Nat.min rows cols < b ->
  (Z.of_nat rows <= 2 ^ 24)%Z -> (Z.of_nat cols <= 2 ^ 24)%Z ->
  exists y, matrix_diag_part x = Some y /\ shape y = [a; Nat.min rows cols; Nat.min rows cols] /\ ~ tf_diagonal [a; b] rows cols x y.
Proof.
  intros W Sx Hb Hr Hc. rewrite (split_model x [a; b] rows cols Sx Hr Hc). set (m := Nat.min rows cols) in *.
  destruct (slice_two x a b rows [cols] m W Sx) as (xs & -> & Ws & Ss & Gs). cbn [obind]. assert (S' : shape xs = [a; m] ++ [m; cols]) by (rewrite Ss; cbn [app]; do 2 f_equal; [lia|f_equal; lia]).
  destruct (tail_ok xs [a; m] m cols Ws S' ltac:(lia)) as (y & -> & Wy & Sy & _). exists y. split; [reflexivity|]. split; [exact Sy|].
  intros (_ & _ & Q & _). rewrite Sy in Q. cbn [app] in Q. injection Q as E. lia.
Qed.
Print Assumptions C90_lost_matrices_refuted.
