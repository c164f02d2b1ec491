(** TensorFlow's strided_slice, from its documentation: what the entries of begin, end, strides and the five masks
    mean, and which element of the input each element of the result is.  Independent of the code under study. *)
From Coq Require Import List Arith ZArith Bool.
From Verif Require Import Tensor OnnxSpec PushSpec.
Import ListNotations.
Local Open Scope list_scope.

(** one entry of the index expression: [...], [newaxis], [i] (with its unused stride) or [b:e:s] *)
Inductive item := Rest | New | At (i s : Z) | Span (b e : option Z) (s : Z).

Record masks := Masks { begin_mask : Z; end_mask : Z; ellipsis_mask : Z; new_axis_mask : Z; shrink_axis_mask : Z }.
Definition bit (m : Z) (i : nat) : bool := Z.testbit m (Z.of_nat i).

(** ellipsis_mask overrides new_axis_mask, which overrides shrink_axis_mask, which overrides the range *)
Definition item_at (m : masks) (begins ends strides : list Z) (i : nat) : item :=
  if bit (ellipsis_mask m) i then Rest
  else if bit (new_axis_mask m) i then New
  else if bit (shrink_axis_mask m) i then At (nth i begins 0%Z) (nth i strides 0%Z)
  else Span (if bit (begin_mask m) i then None else Some (nth i begins 0%Z))
            (if bit (end_mask m) i then None else Some (nth i ends 0%Z)) (nth i strides 0%Z).
Definition items (m : masks) (begins ends strides : list Z) : list item :=
  map (item_at m begins ends strides) (seq 0 (length begins)).

Definition is_rest (t : item) : bool := match t with Rest => true | _ => false end.
(** without an ellipsis, one is implied at the end *)
Definition with_rest (its : list item) : list item := if existsb is_rest its then its else its ++ [Rest].

(** b:e:s along an axis of length d: the first position and the number of positions.  Negative b and e count from the
    end; positions that do not exist are moved to the nearest bound, where the bounds are 0 and d going up, and d-1
    and -1 going down; a missing b or e is the bound where the walk starts or ends. *)
Definition span_of (d : nat) (b e : option Z) (s : Z) : Z * nat :=
  let n := Z.of_nat d in
  let up := (0 <? s)%Z in
  let lo := if up then 0%Z else (-1)%Z in
  let hi := if up then n else (n - 1)%Z in
  let place := fun v => Z.max lo (Z.min hi (if (v <? 0)%Z then v + n else v))%Z in
  let b' := match b with Some v => place v | None => if up then lo else hi end in
  let e' := match e with Some v => place v | None => if up then hi else lo end in
  (b', Z.to_nat (if up then (e' - b' + s - 1) / s else (b' - e' + - s - 1) / - s)).

(** [view its ds os f]: applied to a tensor of shape ds the entries give a tensor of shape os, and its element at ix is
    the element of the input at f ix *)
Inductive view : list item -> list nat -> list nat -> (list nat -> list nat) -> Prop :=
  | view_nil : view [] [] [] (fun _ => [])
  | view_new its ds os f : view its ds os f -> view (New :: its) ds (1 :: os) (fun ix => f (tl ix))
  | view_at i s its d ds os f k : norm_axis d i = Some k -> (0 < s)%Z -> view its ds os f ->
      view (At i s :: its) (d :: ds) os (fun ix => k :: f ix)
  | view_span b e s its d ds os f : s <> 0%Z -> view its ds os f ->
      view (Span b e s :: its) (d :: ds) (snd (span_of d b e s) :: os)
           (fun ix => Z.to_nat (fst (span_of d b e s) + Z.of_nat (hd 0 ix) * s) :: f (tl ix))
  | view_rest_end its ds os f : view its ds os f -> view (Rest :: its) ds os f
  | view_rest its d ds os f : view (Rest :: its) ds os f ->
      view (Rest :: its) (d :: ds) (d :: os) (fun ix => hd 0 ix :: f (tl ix)).

(** tf.strided_slice computes y from x *)
Definition strided_slice {A} (m : masks) (begins ends strides : list Z) (x y : tensor A) : Prop :=
  length ends = length begins /\ length strides = length begins /\
  length (filter is_rest (items m begins ends strides)) <= 1 /\
  exists f, view (with_rest (items m begins ends strides)) (shape x) (shape y) f /\
    wf x /\ wf y /\ forall ix, inb ix (shape y) -> get y ix = get x (f ix).

(** what the converted graph computes: Unsqueeze, Slice and Squeeze, each only if it has something to do *)
Definition onnx_slices {A} (unsqueeze : list Z) (slice : list (Z * (Z * Z * Z))) (squeeze : list Z) (x y : tensor A) : Prop :=
  exists u s,
    match unsqueeze with [] => u = x | _ => unsqueeze_rel unsqueeze x u end /\
    match slice with [] => s = u | _ => slice_rel slice u s end /\
    match squeeze with [] => y = s | _ => squeeze_rel squeeze s y end.

(** P holds for every range b:e:s together with the length of the axis it is applied to *)
Inductive ranges (P : option Z -> option Z -> Z -> nat -> Prop) : list item -> list nat -> Prop :=
  | ranges_nil : ranges P [] []
  | ranges_new its ds : ranges P its ds -> ranges P (New :: its) ds
  | ranges_at i s its d ds : ranges P its ds -> ranges P (At i s :: its) (d :: ds)
  | ranges_span b e s its d ds : P b e s d -> ranges P its ds -> ranges P (Span b e s :: its) (d :: ds)
  | ranges_rest_end its ds : ranges P its ds -> ranges P (Rest :: its) ds
  | ranges_rest its d ds : ranges P (Rest :: its) ds -> ranges P (Rest :: its) (d :: ds).

(** ** Inputs for which the conversion is claimed to be right.  Everything outside is shown to go wrong in Prop_Strided. *)
Definition takes_axis (t : item) : bool := match t with At _ _ | Span _ _ _ => true | _ => false end.
(** stride 1 and constants: not -2:0, which selects nothing *)
Definition fine_1 (m : masks) (idx : nat) (b e : Z) : Prop :=
  bit (ellipsis_mask m) idx = false -> bit (shrink_axis_mask m) idx = false -> bit (end_mask m) idx = false -> ~ (b < 0 /\ e = 0)%Z.
(** other strides, new axes, or values only known at run time ([const_end] and [const_strides] say which) *)
Record fine_10 (m : masks) (const_end const_strides : bool) (idx : nat) (b e s : Z) : Prop := {
  (* an entry is not a new axis and a single index at once *)
  f_disjoint : bit (new_axis_mask m) idx = true -> bit (shrink_axis_mask m) idx = false;
  (* ignored values are the ones Python writes, 0 and stride 1 *)
  f_ellipsis : bit (ellipsis_mask m) idx = true -> b = 0%Z /\ s = 1%Z;
  f_new : bit (new_axis_mask m) idx = true -> b = 0%Z /\ s = 1%Z;
  f_begin : bit (shrink_axis_mask m) idx = false -> bit (begin_mask m) idx = true -> (0 < s)%Z -> b = 0%Z;
  (* no huge numbers *)
  f_end : (s < 0 -> e < 1000000000)%Z;
  f_stride : (-1000000000 <= s)%Z;
  f_dynamic_end : const_end && const_strides = false -> (Z.abs e <= 2 ^ 24)%Z;
  f_dynamic_stride : const_strides = false -> (Z.abs s <= 2 ^ 24)%Z }.
(** going down from a position that is not before the first element *)
Definition starts_inside (b e : option Z) (s : Z) (d : nat) : Prop :=
  match b with Some v => (s < 0 -> - Z.of_nat d <= v)%Z | None => True end.
