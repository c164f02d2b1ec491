(** Model of the handlers of AdjustSaturation and AdjustHue, tf2onnx/onnx_opset/nn.py:1541-1645: the output as an expression. *)
From Coq Require Import Reals List Arith.
From Verif Require Import ColSpec.
Import ListNotations.
Local Open Scope R_scope.
Local Open Scope list_scope.

(** AdjustSaturation.version_11, 1544-1573 *)
Definition adjust_saturation : vexpr :=
  let factor := VArg in
  let ordered := VTop VPixel in
  let max_c := VSplit 0 ordered in let mid_c := VSplit 1 ordered in let min_c := VSplit 2 ordered in
  let delta := VBin VSub max_c min_c in
  let scaled_delta := VBin VMul delta factor in
  let new_delta := VBin VMin scaled_delta max_c in
  let new_min := VBin VSub max_c new_delta in
  let delta2 := VBin VSub mid_c min_c in
  let delta_z := VEqual delta (VConst 0) in
  let delta_nz := VBin VAdd delta delta_z in
  let delta2_scale := VBin VDiv new_delta delta_nz in
  let new_delta2 := VBin VMul delta2 delta2_scale in
  let new_mid := VBin VAdd new_min new_delta2 in
  VGatherTop (VConcat3 max_c new_mid new_min).
(** the tables of 1600-1615; everything else is 0 *)
Definition sector_lookup (ix : list nat) : R :=
  match ix with
  | [0; 1; 2]%nat => 0 | [1; 0; 2]%nat => 2 / 6 | [1; 2; 0]%nat => 2 / 6 | [2; 1; 0]%nat => 4 / 6 | [2; 0; 1]%nat => 4 / 6 | [0; 2; 1]%nat => 1
  | _ => 0
  end.
Definition parity_lookup (ix : list nat) : R :=
  match ix with
  | [0; 1; 2]%nat => 1 / 6 | [1; 0; 2]%nat => - (1 / 6) | [1; 2; 0]%nat => 1 / 6 | [2; 1; 0]%nat => - (1 / 6) | [2; 0; 1]%nat => 1 / 6 | [0; 2; 1]%nat => - (1 / 6)
  | _ => 0
  end.
(** AdjustHue.version_11, 1578-1643 *)
Definition adjust_hue : vexpr :=
  let angle_delta := VArg in
  let one := VConst 1 in
  let ordered := VTop VPixel in
  let max_c := VSplit 0 ordered in let mid_c := VSplit 1 ordered in let min_c := VSplit 2 ordered in
  let delta := VBin VSub max_c min_c in
  let delta2 := VBin VSub mid_c min_c in
  let delta_z := VEqual delta (VConst 0) in
  let delta_nz := VBin VAdd delta delta_z in
  let progress := VBin VDiv delta2 delta_nz in
  let angle_offset := VBin VMul progress (VLookup parity_lookup) in
  let initial_angle := VBin VAdd angle_offset (VLookup sector_lookup) in
  let angle_delta_pos := VBin VAdd angle_delta one in
  let new_angle := VBin VAdd initial_angle angle_delta_pos in
  let add := VBin VAdd new_angle (VVec [0; 4 / 6; 2 / 6]) in
  let mod_ := VFmod add one in
  let sub := VBin VSub mod_ (VConst (/ 2)) in
  let mul := VBin VMul (VAbs sub) (VConst 6) in
  let clip := VClip (VBin VSub mul one) in
  VBin VAdd (VBin VMul clip delta) min_c.
