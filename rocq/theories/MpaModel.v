(** Model of what the handler of MaxPoolWithArgmax does with the positions, tf2onnx/onnx_opset/nn.py:742-781.  The pooling itself, and the transposes that put
    the output last (conv_convert_inputs), are not part of it.  [ind] is the second output of MaxPool after its transpose to (N, OH, OW, C). *)
From Coq Require Import List Arith ZArith Bool.
From Verif Require Import Tensor TOps.
Import ListNotations.
Local Open Scope list_scope.

Definition range_n (n : nat) : tensor Z := Tensor [n] (map Z.of_nat (seq 0 n)).
(** Range from 0 by 1 to the element of a tensor without dimensions *)
Definition f_range (t : tensor Z) : option (tensor Z) :=
  match shape t, data t with [], [z] => Some (range_n (Z.to_nat z)) | _, _ => None end.
Definition obind {A B} (o : option A) (f : A -> option B) : option B := match o with Some a => f a | None => None end.
Definition dim (guess : option (list Z)) (k : nat) : option Z := match guess with Some g => nth_error g k | None => None end.

(** nn.py:742-781; [guess] is ctx.get_shape of the input, [include] the attribute *)
Definition convert_indices (opset : nat) (guess : option (list Z)) (include : option bool) (input_shape : list nat) (ind : tensor Z) : option (tensor Z) :=
  let input_shape := Tensor [length input_shape] (map Z.of_nat input_shape) in
  obind (f_split 0 4 0 input_shape) (fun n =>
  obind (f_split 0 4 1 input_shape) (fun h =>
  obind (f_split 0 4 2 input_shape) (fun w =>
  obind (f_split 0 4 3 input_shape) (fun c =>
  obind (f_binary Z.mul h w) (fun hw =>
  obind (f_binary Z.mul hw c) (fun chw =>
  obind (if Nat.leb 10 opset then f_binary Z.modulo ind hw
         else obind (f_binary Z.quot ind hw) (fun xy_div => obind (f_binary Z.mul xy_div hw) (fun xy_mul => f_binary Z.sub ind xy_mul))) (fun xy =>
  obind (f_binary Z.mul xy c) (fun xy_scale_c =>
  obind (match dim guess 3 with
         | Some d => if (0 <? d)%Z then Some (range_n (Z.to_nat d))
                     else if Nat.leb 11 opset then obind (f_squeeze [0%Z] c) f_range else None
         | None => if Nat.leb 11 opset then obind (f_squeeze [0%Z] c) f_range else None
         end) (fun c_range =>
  obind (f_binary Z.add xy_scale_c c_range) (fun xyc =>
  let single_batch := match dim guess 0 with Some d => Z.eqb d 1 | None => false end in
  if (match include with Some b => b | None => true end) && negb single_batch then
    if Nat.leb 11 opset then
      obind (f_squeeze [0%Z] n) (fun n_sq =>
      obind (f_range n_sq) (fun n_range =>
      obind (f_unsqueeze [1; 2; 3]%Z n_range) (fun n_range_unsq =>
      obind (f_binary Z.mul n_range_unsq chw) (fun n_range_scale =>
      f_binary Z.add xyc n_range_scale))))
    else None
  else Some xyc)))))))))).
