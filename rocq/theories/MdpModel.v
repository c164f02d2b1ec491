(** Model of the handler of MatrixDiagPart, tf2onnx/onnx_opset/tensor.py:3166-3216, from opset 11 on. *)
From Coq Require Import List Arith ZArith Bool.
From Verif Require Import Tensor FoldModel OnnxSpec TOps MdpSpec.
From Verif Require DiagModel.
Import ListNotations.
Local Open Scope list_scope.

(** Range from 0 by 1 to the element of a tensor without dimensions *)
Definition f_range (t : tensor Z) : option (tensor Z) :=
  match shape t, data t with [], [z] => Some (zvec (map Z.of_nat (seq 0 (Z.to_nat z)))) | _, _ => None end.
Definition shape_of {A} (t : tensor A) : tensor Z := zvec (map Z.of_nat (shape t)).
Definition obind {A B} (o : option A) (f : A -> option B) : option B := match o with Some a => f a | None => None end.

(** 3168-3204.  Slice takes its parameters as vectors; Cast of the dimensions to FLOAT rounds them (DiagModel.to_float), Cast back is exact.  The axes of
    the Slice of the input are the constant [2, 1] *)
Definition matrix_diag_part {A} (x : tensor A) : option (tensor A) :=
  let input_shape := shape_of x in
  let input_shape_size := shape_of input_shape in
  obind (f_slice [(-2)%Z] (data input_shape_size) None input_shape) (fun matrice_shape =>
  let matrice_shape_float := f_unary DiagModel.to_float matrice_shape in
  obind (f_slice [0%Z] [1%Z] None matrice_shape_float) (fun matrice_shape_float_x =>
  obind (f_slice [1%Z] [2%Z] None matrice_shape_float) (fun matrice_shape_float_y =>
  obind (f_binary Z.min matrice_shape_float_x matrice_shape_float_y) (fun min_matrice_dim =>
  obind (f_concat (-1) [min_matrice_dim; min_matrice_dim]) (fun double_matrice_dim =>
  obind (f_slice [0; 0]%Z (data double_matrice_dim) (Some [2; 1]%Z) x) (fun sliced_input =>
  let sliced_input_shape := shape_of sliced_input in
  obind (f_slice [0%Z] [(-1)%Z] None sliced_input_shape) (fun sliced_input_shape_half =>
  obind (f_concat (-1) [sliced_input_shape_half; zvec [1%Z]]) (fun sliced_input_shape_new =>
  obind (f_squeeze [0%Z] min_matrice_dim) (fun min_matrice_dim_ =>
  obind (f_range min_matrice_dim_) (fun matrice_range =>
  obind (f_unsqueeze [(-1)%Z] matrice_range) (fun unsqueezed_matrice_range =>
  obind (f_expand (data sliced_input_shape_new) unsqueezed_matrice_range) (fun expanded_range =>
  obind (f_gather_last sliced_input expanded_range) (fun gathered_result =>
  f_squeeze [(-1)%Z] gathered_result))))))))))))).
