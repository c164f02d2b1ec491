(** Model of the handler of FusedBatchNorm, FusedBatchNormV2 and FusedBatchNormV3, tf2onnx/onnx_opset/nn.py:960-1052. *)
From Coq Require Import Reals List Arith ZArith Bool.
From Verif Require Import Tensor FoldModel OnnxSpec TOps BnSpec.
Import ListNotations.
Local Open Scope R_scope.
Local Open Scope list_scope.

(** get_channels_first_permutation and get_channels_last_permutation, tf2onnx/onnx_opset/common.py / utils: 0, spatial + 1, 1, ... and 0, 2, ..., 1 *)
Definition channels_first (spatial : nat) : list nat := 0%nat :: S spatial :: seq 1 spatial.
Definition channels_last (spatial : nat) : list nat := 0%nat :: seq 2 spatial ++ [1%nat].
(** numpy.resize: the entries again and again *)
Definition np_resize (n : nat) (l : list R) : list R :=
  match l with [] => repeat 0 n | _ => map (fun i => nth (i mod length l) l 0) (seq 0 n) end.
(** 1036-1048: an operand whose known shape is not that of scale is resized, if it is constant; the conversion fails if it is not, and if the
    shape of scale is unknown *)
Definition zlist_eqb (a b : list Z) : bool := if list_eq_dec Z.eq_dec a b then true else false.
Definition shape_eqb (a b : option (list Z)) : bool := match a, b with None, None => true | Some a, Some b => zlist_eqb a b | _, _ => false end.
Definition resized (scale_shape own_shape : option (list Z)) (const : bool) (t : tensor R) : option (tensor R) :=
  if shape_eqb own_shape scale_shape then Some t
  else match scale_shape with
       | None => None
       | Some sh => if forallb (fun d => (0 <=? d)%Z) sh then
                      (if const then match sh with [n] => Some (Tensor [Z.to_nat n] (np_resize (Z.to_nat n) (data t))) | _ => None end else None)
                    else Some t
       end.
(** what is known at conversion time *)
Record statics := Statics { scale_shape : option (list Z); mean_shape : option (list Z); var_shape : option (list Z); mean_const : bool; var_const : bool }.
(** 1016-1032: mean and variance of the (channels-first) input *)
Definition own_moments (x : tensor R) : option (tensor R * tensor R) :=
  let rank := length (shape x) in
  let dims := map Z.of_nat (0%nat :: seq 2 (rank - 2)) in
  obind (f_reduce average dims true x) (fun avg =>
  obind (f_squeeze dims avg) (fun avg_squeezed =>
  obind (f_binary Rminus x avg) (fun sub =>
  obind (f_reduce sum_square dims false sub) (fun var_squeezed =>
  let inp_shape := zvec (map Z.of_nat (shape x)) in
  obind (f_gather 0 inp_shape (zvec dims)) (fun reduce_dims =>
  let dims_product := fold_right Z.mul 1%Z (data reduce_dims) in
  let cnt_float := Tensor [] [IZR dims_product] in
  obind (f_binary Rdiv var_squeezed cnt_float) (fun pop_var_squeezed =>
  Some (avg_squeezed, pop_var_squeezed))))))).
(** version_6, 962-1048.  [last]: the data format; [factor_one]: exponential_avg_factor is 1.  Left out: the cast of x to the type of the mean
    and back (987-998), the removal of outputs that nobody reads (1000-1004); a constant input is transposed at conversion time instead of by a
    Transpose. *)
Definition batch_norm (last training factor_one : bool) (eps : R) (st : statics) (x scale offset mean variance : tensor R) : option (tensor R) :=
  let rank := length (shape x) in
  if negb (Nat.eqb rank 4 || Nat.eqb rank 5) then None else
  let spatial := if Nat.eqb rank 4 then 2%nat else 3%nat in
  obind (if last then f_transpose (Some (channels_first spatial)) x else Some x) (fun xt =>
  obind (if training && factor_one then own_moments xt
         else obind (resized (scale_shape st) (mean_shape st) (mean_const st) mean) (fun m =>
              obind (resized (scale_shape st) (var_shape st) (var_const st) variance) (fun v => Some (m, v)))) (fun mv =>
  obind (f_batch_norm eps xt scale offset (fst mv) (snd mv)) (fun y =>
  if last then f_transpose (Some (channels_last spatial)) y else Some y))).
