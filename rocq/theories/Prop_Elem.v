(** C55, C56: comparisons and Select compute what the TensorFlow operators compute. *)
From Coq Require Import ZArith String List Bool Lia Arith.
From Flocq Require Import BinarySingleNaN.
From Verif Require Import ElemSpec ElemModel ElemLift ElemFloat ElemProofs ElemProofs2 ElemRefute.
Import ListNotations.
Local Open Scope string_scope.
Local Open Scope list_scope.
Local Open Scope nat_scope.

(** ** C55 *)
Theorem C55_equal opset ne d : 11 <= opset \/ (7 <= opset /\ match d with BOOL => True | INT t => t <> U64 | FLT _ => False end) ->
  exists p, built (equal opset ne d (In_ 0) (In_ 1)) = Some p /\ computes opset p 2 (all_of d) (tf_op (if ne then "NotEqual" else "Equal")).
Proof.
  intros [O|(O & K)]; [now apply equal_11|]. destruct (le_lt_dec 11 opset) as [O'|O']; [now apply equal_11|]. apply equal_7; auto.
  destruct d as [|[]|]; try reflexivity; tauto.
Qed.
Theorem C55_greater_less_partial opset (greater : bool) d : 7 <= opset -> d <> BOOL ->
  exists p, built (greater_less (if greater then "Greater" else "Less") d (In_ 0) (In_ 1)) = Some p /\
    computes opset p 2 (fun vs => all_of d vs /\ small_ints vs) (tf_op (if greater then "Greater" else "Less")).
Proof. apply greater_less_ok. Qed.
Theorem C55_greater_less_equal_partial opset (greater : bool) d : 7 <= opset -> d <> BOOL ->
  exists p, built (greater_less_equal opset greater d (In_ 0) (In_ 1)) = Some p /\
    computes opset p 2 (fun vs => all_of d vs /\ (12 <= opset \/ (small_ints vs /\ no_nan vs))) (tf_op (if greater then "GreaterEqual" else "LessEqual")).
Proof.
  intros O N. destruct (le_lt_dec 12 opset) as [O'|O'].
  - destruct (greater_less_equal_12 opset greater d O' N) as (p & E & C). exists p. split; auto. intros ins tf L F Q. apply (C ins tf L F).
    intros sh ix vs A B D. apply (Q sh ix vs A B D).
  - destruct (greater_less_equal_7 opset greater d O O' N) as (p & E & C). exists p. split; auto. intros ins tf L F Q. apply (C ins tf L F).
    intros sh ix vs A B D. destruct (Q sh ix vs A B D) as (Q1 & [Q2|Q2]); [lia|tauto].
Qed.
Theorem C55_equal_self opset ne d : 11 <= opset \/ (ne = false /\ 7 <= opset /\ match d with BOOL => True | INT t => t <> U64 | FLT _ => False end) ->
  exists p, built (equal opset ne d (In_ 0) (In_ 0)) = Some p /\
    computes opset p 1 (all_of d) (fun vs => tf_op (if ne then "NotEqual" else "Equal") (vs ++ vs)).
Proof.
  intros [O|(-> & O & K)]; [now apply equal_self_11|]. destruct (le_lt_dec 11 opset) as [O'|O']; [now apply equal_self_11|]. apply equal_self_7; auto.
  destruct d as [|t0|f0]; try destruct t0; try reflexivity; try contradiction; congruence.
Qed.
Theorem C55_not_equal_self opset f : 9 <= opset -> opset < 11 ->
  exists p, built (equal opset true (FLT f) (In_ 0) (In_ 0)) = Some p /\ computes opset p 1 (all_of (FLT f)) (fun vs => tf_op "NotEqual" (vs ++ vs)).
Proof. apply not_equal_self. Qed.

Definition half32 : fl F32 := round_to F32 1 (-1).
Definition quarter32 : fl F32 := round_to F32 1 (-2).
(** before opset 11 floats are compared after a cast to int32: 1/4 = 1/2 *)
Theorem C55_equal_float_refuted opset : 7 <= opset -> opset < 11 ->
  exists p, built (equal opset false (FLT F32) (In_ 0) (In_ 1)) = Some p /\ ~ computes opset p 2 (all_of (FLT F32)) (tf_op "Equal").
Proof. intros. refute opset [VF F32 quarter32; VF F32 half32]. Qed.
(** and so are 64 bit unsigned integers: 0 = 2^32 *)
Theorem C55_equal_uint64_refuted opset : 7 <= opset -> opset < 11 ->
  exists p, built (equal opset false (INT U64) (In_ 0) (In_ 1)) = Some p /\ ~ computes opset p 2 (all_of (INT U64)) (tf_op "Equal").
Proof. intros. refute opset [VI U64 0; VI U64 (2 ^ 32)]. Qed.
(** x /= x becomes IsNaN, which is not defined on integers, and not before opset 9 *)
Theorem C55_not_equal_self_refuted opset : 7 <= opset -> opset < 11 ->
  exists p, built (equal opset true (INT I32) (In_ 0) (In_ 0)) = Some p /\
    ~ computes opset p 1 (all_of (INT I32)) (fun vs => tf_op "NotEqual" (vs ++ vs)).
Proof. intros. refute opset [VI I32 3]. Qed.
Theorem C55_not_equal_self_7_refuted opset : 7 <= opset -> opset < 9 ->
  exists p, built (equal opset true (FLT F32) (In_ 0) (In_ 0)) = Some p /\
    ~ computes opset p 1 (all_of (FLT F32)) (fun vs => tf_op "NotEqual" (vs ++ vs)).
Proof. intros. refute opset [VF F32 half32]. Qed.
(** integers are compared as 32 bit floats, for every opset: 2^24 + 1 > 2^24 is false *)
Theorem C55_greater_refuted opset : 7 <= opset ->
  exists p, built (greater_less "Greater" (INT I32) (In_ 0) (In_ 1)) = Some p /\ ~ computes opset p 2 (all_of (INT I32)) (tf_op "Greater").
Proof. intros. refute opset [VI I32 (2 ^ 24 + 1); VI I32 (2 ^ 24)]. Qed.
(** before opset 12, NaN >= 0 is true *)
Theorem C55_greater_equal_nan_refuted opset : 7 <= opset -> opset < 12 ->
  exists p, built (greater_less_equal opset true (FLT F32) (In_ 0) (In_ 1)) = Some p /\ ~ computes opset p 2 (all_of (FLT F32)) (tf_op "GreaterEqual").
Proof. intros. refute opset [VF F32 B754_nan; VF F32 fzero]. Qed.
(** a matrix and a vector of int32 *)
Definition m23 : ten := Ten [2; 3] (fun ix => match ix with [i; j] => Some (VI I32 (Z.of_nat (10 * i + j))) | _ => None end).
Definition v3 : ten := Ten [3] (fun ix => match ix with [j] => Some (VI I32 (Z.of_nat (4 * j))) | _ => None end).
Example C55_example :
  exists p onnx, built (greater_less "Greater" (INT I32) (In_ 0) (In_ 1)) = Some p /\ result 7 p [m23; v3] = Some onnx /\ tshape onnx = [2; 3] /\
    map (telem onnx) [[0; 0]; [0; 1]; [0; 2]; [1; 0]; [1; 1]; [1; 2]] =
    map (fun b => Some (VB b)) [false; false; false; true; true; true] /\
    on_elements (fun vs => all_of (INT I32) vs /\ small_ints vs) [m23; v3].
Proof.
  eexists; eexists; split; [reflexivity|]; split; [reflexivity|]; split; [reflexivity|]; split; [vm_compute; reflexivity|].
  intros sh ix vs B J V. vm_compute in B. injection B as <-. destruct ix as [|i [|j [|? ?]]]; try (cbn in J; tauto). destruct J as (Hi & Hj & _).
  assert (Ci : i = 0 \/ i = 1) by lia. assert (Cj : j = 0 \/ j = 1 \/ j = 2) by lia. clear Hi Hj.
  destruct Ci as [-> | ->], Cj as [-> |[-> | ->]]; vm_compute in V; injection V as <-; (split; [in_types|repeat constructor; vm_compute; discriminate]).
Qed.

(** ** C56 *)
Theorem C56_select_partial opset attr d cn bs : 7 <= opset -> match d with INT (I8 | I16 | U8 | U16) => 14 <= opset | _ => True end ->
  exists p, built (select opset attr d cn bs (In_ 0) (In_ 1) (In_ 2)) = Some p /\
    computes opset p 3 (fun vs => select_args d vs /\ unselected_finite vs) (tf_op "Select").
Proof. intros O K. apply select_ok; auto. destruct d as [|[]|]; try reflexivity; cbn; now rewrite (leb_t _ _ K). Qed.
Theorem C56_where opset attr d cn bs : 9 <= opset -> handles_nan attr d cn bs = true ->
  exists p, built (select opset attr d cn bs (In_ 0) (In_ 1) (In_ 2)) = Some p /\ computes opset p 3 (select_args d) (tf_op "Select").
Proof. apply select_where. Qed.
(** constants of the branches need not be finite *)
Theorem C56_constants opset attr d cn b1 b2 : 9 <= opset -> d = FLT F32 \/ d = FLT F64 ->
  exists p, built (select opset attr d cn [b1; b2] (In_ 0) (In_ 1) (In_ 2)) = Some p /\
    computes opset p 3 (fun vs => select_args d vs /\ unselected_const b1 b2 vs) (tf_op "Select").
Proof. intros O [-> | ->]; now apply select_9. Qed.
(** a condition with one dimension selects rows *)
Theorem C56_vector_condition_partial opset attr d cn bs nz s1 s2 n sh c x y o : 7 <= opset ->
  match d with INT (I8 | I16 | U8 | U16) => 14 <= opset | _ => True end ->
  tshape c = [n] -> tshape x = n :: sh -> tshape y = n :: sh ->
  match (match s1 with Some s => Some s | None => s2 end) with Some s => List.length s = S (List.length sh) | None => True end ->
  (forall i ix, inb (i :: ix) (n :: sh) -> exists b vx vy, telem c [i] = Some (VB b) /\ telem x (i :: ix) = Some vx /\ telem y (i :: ix) = Some vy /\
     has_type d vx /\ has_type d vy /\ unselected_finite [VB b; vx; vy]) ->
  cond_reshape true (Some [nz]) s1 s2 = Some o ->
  forall c', match o with Some target => reshaped target c c' | None => c' = c end ->
  exists p onnx, built (select opset attr d cn bs (In_ 0) (In_ 1) (In_ 2)) = Some p /\ result opset p [c'; x; y] = Some onnx /\
    tshape onnx = n :: sh /\
    forall i ix b vx vy, inb (i :: ix) (n :: sh) -> telem c [i] = Some (VB b) -> telem x (i :: ix) = Some vx -> telem y (i :: ix) = Some vy ->
      exists w, telem onnx (i :: ix) = Some w /\ same (if b then vx else vy) w.
Proof.
  intros O K. intros A B C D. apply select_vector; auto.
  - destruct d as [|[]|]; try reflexivity; cbn; now rewrite (leb_t _ _ K).
  - destruct s1, s2; auto.
Qed.
(** an infinity that is not selected becomes NaN *)
Theorem C56_infinity_refuted opset : 7 <= opset ->
  exists p, built (select opset false (FLT F32) COther [BOther; BOther] (In_ 0) (In_ 1) (In_ 2)) = Some p /\
    ~ computes opset p 3 (select_args (FLT F32)) (tf_op "Select").
Proof. intros. each opset ltac:(refute_with [VB true; VF F32 half32; VF F32 (B754_infinity false)] ltac:(selecting true (VF F32 half32) (VF F32 (B754_infinity false)))). Qed.
(** constants of 16 bit floats are not looked at *)
Theorem C56_float16_refuted opset : 7 <= opset ->
  exists p, built (select opset false (FLT F16) COther [BConst [VF F16 (B754_infinity false)]; BOther] (In_ 0) (In_ 1) (In_ 2)) = Some p /\
    ~ computes opset p 3 (fun vs => select_args (FLT F16) vs /\ unselected_const (BConst [VF F16 (B754_infinity false)]) BOther vs) (tf_op "Select").
Proof. intros. each opset ltac:(refute_with [VB false; VF F16 (B754_infinity false); VF F16 fzero] ltac:(split; [selecting false (VF F16 (B754_infinity false)) (VF F16 fzero)|right; left; reflexivity])). Qed.
(** 8 bit integers are multiplied, which ONNX does not allow before opset 14 *)
Theorem C56_int8_refuted opset : 7 <= opset -> opset < 14 ->
  exists p, built (select opset false (INT I8) COther [BOther; BOther] (In_ 0) (In_ 1) (In_ 2)) = Some p /\
    ~ computes opset p 3 (fun vs => select_args (INT I8) vs /\ unselected_finite vs) (tf_op "Select").
Proof. intros. each opset ltac:(refute_with [VB true; VI I8 1; VI I8 2] ltac:(split; [selecting true (VI I8 1) (VI I8 2)|exact I])). Qed.
Definition c2 : ten := Ten [2] (fun ix => match ix with [i] => Some (VB (Nat.eqb i 0)) | _ => None end).
Definition c2' : ten := Ten [2; 1] (fun ix => match ix with [i; 0] => Some (VB (Nat.eqb i 0)) | _ => None end).
Example C56_example : exists target p onnx,
  cond_reshape true (Some [-1]%Z) None (Some [2; -1]%Z) = Some (Some target) /\ reshaped target c2 c2' /\
  built (select 9 false (INT I32) COther [BOther; BOther] (In_ 0) (In_ 1) (In_ 2)) = Some p /\ result 9 p [c2'; m23; m23] = Some onnx /\
  tshape onnx = [2; 3] /\ telem onnx [1; 2] = Some (VI I32 12).
Proof.
  eexists; eexists; eexists. split; [reflexivity|]. split; [|split; [reflexivity|split; [reflexivity|split; [reflexivity|vm_compute; reflexivity]]]].
  split; [constructor; [right; reflexivity|constructor; [left; reflexivity|constructor]]|]. split; [reflexivity|].
  intros [|i [|j [|? ?]]]; try (cbn; tauto). intros (Hi & Hj & _). assert (j = 0) by lia. subst. cbn. replace (i * 1 + 0) with i by lia. reflexivity.
Qed.
Print Assumptions C55_equal. Print Assumptions C55_equal_self. Print Assumptions C55_greater_less_partial. Print Assumptions C55_greater_less_equal_partial. Print Assumptions C55_not_equal_self.
Print Assumptions C56_select_partial. Print Assumptions C56_where. Print Assumptions C56_constants. Print Assumptions C56_vector_condition_partial.
Print Assumptions C55_greater_refuted. Print Assumptions C56_infinity_refuted.
