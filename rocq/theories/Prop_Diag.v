(** C89: diagonals of matrices, tf2onnx/onnx_opset/tensor.py:3440-3600 (model: DiagModel, specification: DiagSpec). *)
From Coq Require Import Ascii String List Arith ZArith Bool Lia.
From Verif Require Import DiagSpec DiagModel DiagProofs.
Import ListNotations.
Local Open Scope Z_scope.

(** [k] is one number or a band from the lower to the upper diagonal *)
Definition band (k : list Z) (k0 k1 : Z) : Prop := (k = [k0] /\ k0 = k1) \/ k = [k0; k1].

(** For every matrix of at most 2 ^ 24 elements (with one row and column more), every band of its diagonals, padding value and alignment that the node
    gives, or V2: the graph outputs TensorFlow's diagonals *)
Theorem C89_diagonals_partial A (rows cols : Z) (m : Z -> Z -> A) padding v3 attr al k k0 k1 :
  0 < rows -> 0 < cols -> (rows + 1) * (cols + 1) <= 2 ^ 24 -> band k k0 k1 -> valid_k rows cols k0 k1 ->
  (v3 = true -> attr <> None) -> align_of (tf_align v3 attr) = Some al ->
  diag_part rows cols m padding v3 attr k = Some (tf_diag_part rows cols m padding al k0 k1).
Proof.
  intros Pr Pc Fits B V Given Al. unfold diag_part.
  assert (K : reduce Z.min k = Some k0 /\ reduce Z.max k = Some k1).
  { destruct V as (_ & V & _). destruct B as [[-> <-] | ->]; cbn; [auto|]. split; f_equal; lia. }
  destruct K as [-> ->]. assert (E : align_attr v3 attr = tf_align v3 attr) by (unfold align_attr, tf_align; destruct v3; auto; destruct attr; auto; exfalso; now apply Given).
  rewrite E. destruct (diags_ok rows cols m padding k0 k1 Pr Pc Fits V al (tf_align v3 attr) Al) as (l & -> & ->). unfold tf_diag_part. rewrite (Z.eqb_sym k1 k0).
  destruct (Z.eqb_spec k0 k1) as [<-|N]; [|reflexivity]. replace (k0 - k0 + 1) with 1 by lia. change (upto 1) with [0]. cbn [map concat]. rewrite app_nil_r. replace (k0 - 0) with k0 by lia. f_equal. f_equal.
  apply map_ext_in. intros n Hn. apply in_upto in Hn. destruct V as (V1 & _ & V3). unfold entry. assert (O : offset rows cols al k0 k0 k0 = 0).
  { unfold offset. destruct ((super_right al && (0 <=? k0)) || (sub_right al && (k0 <=? 0))); [|reflexivity]. unfold max_diag_len, diag_len. lia. }
  rewrite O, !Z.sub_0_r. unfold max_diag_len in Hn. rewrite !(proj2 (Z.leb_le _ _)), !(proj2 (Z.ltb_lt _ _)) by lia. reflexivity.
Qed.
Print Assumptions C89_diagonals_partial.

(** a matrix of 3 x 4 with entries 10 * row + column *)
Definition m0 (r c : Z) : Z := 10 * r + c.
Example band_right_left : diag_part 3 4 m0 (-9) true (Some "RIGHT_LEFT"%string) [-1; 2] =
  Some (Rows [[-9; 2; 13]; [1; 12; 23]; [0; 11; 22]; [10; 21; -9]]).
Proof. reflexivity. Qed.
Example band_left_right : diag_part 3 4 m0 (-9) true (Some "LEFT_RIGHT"%string) [-1; 2] =
  Some (Rows [[2; 13; -9]; [1; 12; 23]; [0; 11; 22]; [-9; 10; 21]]).
Proof. reflexivity. Qed.
Example band_case : diag_part 3 4 m0 (-9) false None [-2; -1] = Some (tf_diag_part 3 4 m0 (-9) (Align false false) (-2) (-1)) /\
  tf_diag_part 3 4 m0 (-9) (Align false false) (-2) (-1) = Rows [[10; 21]; [20; -9]].
Proof. split; [|reflexivity]. apply C89_diagonals_partial; try reflexivity; try discriminate; [now right|unfold valid_k; lia]. Qed.

(** Indices are cast to FLOAT and back for a minimum: beyond 2 ^ 24 elements a left-aligned diagonal is read off wrong places.  Here the graph reads
    the second entry of a row for the first, and the padding for the second entry of the next *)
Theorem C89_large_refuted : exists rows cols k, valid_k rows cols k k /\
  diag_part rows cols (fun r c => (r, c)) (-1, -1) false None [k] = Some (One [(7999997, 1); (-1, -1)]) /\
  tf_diag_part rows cols (fun r c => (r, c)) (-1, -1) (Align false false) k k = One [(7999997, 0); (7999998, 1)].
Proof. exists 7999999, 2, (-7999997). split; [unfold valid_k; lia|]. split; vm_compute; reflexivity. Qed.
Print Assumptions C89_large_refuted.
(** If a MatrixDiagPartV3 node leaves the attribute align out, the handler takes LEFT_RIGHT where TensorFlow's default is RIGHT_LEFT *)
Theorem C89_default_align_refuted : exists rows cols k0 k1 al, valid_k rows cols k0 k1 /\ align_of (tf_align true None) = Some al /\
  diag_part rows cols m0 (-9) true None [k0; k1] <> Some (tf_diag_part rows cols m0 (-9) al k0 k1).
Proof. exists 3, 3, (-1), 1, (Align true false). split; [unfold valid_k; lia|]. split; [reflexivity|]. vm_compute. discriminate. Qed.
Print Assumptions C89_default_align_refuted.
