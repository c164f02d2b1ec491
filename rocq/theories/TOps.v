(** ONNX tensor operators as functions, from the ONNX operator documentation, for tensors of any rank, and the value of
    an expression built from them for a given opset.  [None] = the operator rejects its inputs (wrong types, ranks,
    shapes, or an attribute / input form that the opset does not have).  Independent of the code under study.
    Integers are unbounded.  A graph is an expression tree: a node whose output is read twice appears twice. *)
From Coq Require Import List Arith ZArith Bool.
From Verif Require Import Tensor FoldModel OnnxSpec.
Import ListNotations.
Local Open Scope list_scope.

Definition zvec (l : list Z) : tensor Z := Tensor [length l] l.
Definition as_vec {T} (t : tensor T) : option (list T) :=
  match shape t with [_] => Some (data t) | _ => None end.
Fixpoint nodupb (l : list nat) : bool := match l with [] => true | x :: l' => negb (existsb (Nat.eqb x) l') && nodupb l' end.

(** Transpose: axis k of the result is axis perm[k] of the input; without perm the axes are reversed *)
Definition f_transpose {T} (perm : option (list nat)) (t : tensor T) : option (tensor T) :=
  let r := length (shape t) in
  let p := match perm with Some p => p | None => rev (seq 0 r) end in
  if Nat.eqb (length p) r && forallb (fun k => Nat.ltb k r) p && nodupb p then
    build (pick p (shape t)) (fun jx => get t (map (fun k => nth (index_of k p) jx 0) (seq 0 r)))
  else None.

(** Reshape: 0 copies the dimension of the input at the same position, one -1 is inferred from the number of elements *)
Fixpoint copy_dims (insh : list nat) (target : list Z) : option (list Z) :=
  match target with
  | [] => Some []
  | d :: target' =>
      match copy_dims (tl insh) target' with
      | None => None
      | Some l => if Z.eqb d 0 then match insh with e :: _ => Some (Z.of_nat e :: l) | [] => None end
                  else if (d <? -1)%Z then None else Some (d :: l)
      end
  end.
Definition zsize (l : list Z) : Z := fold_right Z.mul 1%Z l.
Definition f_reshape {T} (target : list Z) (t : tensor T) : option (tensor T) :=
  match copy_dims (shape t) target with
  | None => None
  | Some l =>
      let total := Z.of_nat (size (shape t)) in
      let known := zsize (filter (fun d => negb (Z.eqb d (-1))) l) in
      match length (filter (fun d => Z.eqb d (-1)) l) with
      | 0 => if Z.eqb known total then Some (Tensor (map Z.to_nat l) (data t)) else None
      | 1 => if negb (Z.eqb known 0) && Z.eqb (total mod known) 0
             then Some (Tensor (map (fun d => if Z.eqb d (-1) then Z.to_nat (total / known) else Z.to_nat d) l) (data t))
             else None
      | _ => None
      end
  end.

(** Slice with steps 1: negative starts and ends count from the end, everything is clamped to the axis *)
Definition clamp (d : nat) (v : Z) : nat :=
  Z.to_nat (Z.max 0 (Z.min (Z.of_nat d) (if (v <? 0)%Z then v + Z.of_nat d else v))%Z).
Fixpoint assoc_nat {X} (k : nat) (l : list (nat * X)) : option X :=
  match l with [] => None | (j, x) :: l' => if Nat.eqb j k then Some x else assoc_nat k l' end.
Definition slice_range (params : list (nat * (Z * Z))) (k d : nat) : nat * nat :=
  match assoc_nat k params with
  | Some (s, e) => (clamp d s, clamp d e - clamp d s)
  | None => (0, d)
  end.
Fixpoint addix (a b : list nat) : list nat :=
  match a, b with x :: a', y :: b' => x + y :: addix a' b' | _, _ => [] end.
Definition f_slice {T} (starts ends : list Z) (axes : option (list Z)) (t : tensor T) : option (tensor T) :=
  let r := length (shape t) in
  match norm_axes r (match axes with Some l => l | None => map Z.of_nat (seq 0 (length starts)) end) with
  | None => None
  | Some ax =>
      if nodupb ax && Nat.eqb (length starts) (length ax) && Nat.eqb (length ends) (length ax) then
        let params := combine ax (combine starts ends) in
        let rs := map (fun '(k, d) => slice_range params k d) (combine (seq 0 r) (shape t)) in
        build (map snd rs) (fun ix => get t (addix (map fst rs) ix))
      else None
  end.

(** Concat along an axis *)
Fixpoint find_part {T} (ax c : nat) (ts : list (tensor T)) : option (tensor T * nat) :=
  match ts with
  | [] => None
  | t :: ts' => let d := nth ax (shape t) 0 in if Nat.ltb c d then Some (t, c) else find_part ax (c - d) ts'
  end.
Definition f_concat {T} (axis : Z) (ts : list (tensor T)) : option (tensor T) :=
  match ts with
  | [] => None
  | t0 :: _ =>
      match norm_axis (length (shape t0)) axis with
      | None => None
      | Some ax =>
          if forallb (fun t => list_eqb (set_dim ax 0 (shape t)) (set_dim ax 0 (shape t0))) ts then
            build (set_dim ax (fold_right Nat.add 0 (map (fun t => nth ax (shape t) 0) ts)) (shape t0))
                  (fun ix => match find_part ax (nth ax ix 0) ts with
                             | Some (t, c) => get t (set_dim ax c ix)
                             | None => None
                             end)
          else None
      end
  end.

(** Split along an axis: part k of n equal parts, and part k of parts of given sizes *)
Definition f_split {T} (axis : Z) (n k : nat) (t : tensor T) : option (tensor T) :=
  match norm_axis (length (shape t)) axis with
  | None => None
  | Some ax =>
      let d := nth ax (shape t) 0 in
      if Nat.ltb k n && Nat.eqb (d mod n) 0 then
        build (set_dim ax (d / n) (shape t)) (fun ix => get t (set_dim ax (k * (d / n) + nth ax ix 0) ix))
      else None
  end.
Definition f_split_sizes {T} (axis : Z) (sizes : list Z) (k : nat) (t : tensor T) : option (tensor T) :=
  match norm_axis (length (shape t)) axis, nth_error sizes k with
  | Some ax, Some len =>
      if forallb (fun z => (0 <=? z)%Z) sizes && Z.eqb (fold_right Z.add 0%Z sizes) (Z.of_nat (nth ax (shape t) 0)) then
        let start := Z.to_nat (fold_right Z.add 0%Z (firstn k sizes)) in
        build (set_dim ax (Z.to_nat len) (shape t)) (fun ix => get t (set_dim ax (start + nth ax ix 0) ix))
      else None
  | _, _ => None
  end.

(** elementwise, with multidirectional broadcasting *)
Definition f_binary {X Y Z} (f : X -> Y -> Z) (t : tensor X) (u : tensor Y) : option (tensor Z) :=
  let r := Nat.max (length (shape t)) (length (shape u)) in
  match bcast_dims (pad_ones r (shape t)) (pad_ones r (shape u)) with
  | None => None
  | Some sh => build sh (fun ix => match get t (bcast_ix r (shape t) ix), get u (bcast_ix r (shape u) ix) with
                                   | Some a, Some b => Some (f a b) | _, _ => None end)
  end.
Definition f_unary {X Y} (f : X -> Y) (t : tensor X) : tensor Y := Tensor (shape t) (map f (data t)).

(** Gather along an axis; negative indices count from the end *)
Definition f_gather {T} (axis : Z) (t : tensor T) (idx : tensor Z) : option (tensor T) :=
  match norm_axis (length (shape t)) axis with
  | None => None
  | Some ax =>
      let q := length (shape idx) in
      build (firstn ax (shape t) ++ shape idx ++ skipn (S ax) (shape t))
            (fun ix => match get idx (firstn q (skipn ax ix)) with
                       | Some i => match norm_axis (nth ax (shape t) 0) i with
                                   | Some j => get t (firstn ax ix ++ j :: skipn (ax + q) ix)
                                   | None => None
                                   end
                       | None => None
                       end)
  end.

(** Pad with a constant: pads = [begin of every axis ++ end of every axis], not negative *)
Fixpoint pad_src (sh befores ix : list nat) : option (list nat) :=
  match sh, befores, ix with
  | [], [], [] => Some []
  | d :: sh', b :: bs', i :: ix' =>
      if Nat.leb b i && Nat.ltb (i - b) d then option_map (cons (i - b)) (pad_src sh' bs' ix') else None
  | _, _, _ => None
  end.
Definition f_pad {T} (fill : T) (pads : list Z) (t : tensor T) : option (tensor T) :=
  let r := length (shape t) in
  if Nat.eqb (length pads) (r + r) && forallb (fun p => (0 <=? p)%Z) pads then
    let befores := map Z.to_nat (firstn r pads) in
    let afters := map Z.to_nat (skipn r pads) in
    build (addix befores (addix (shape t) afters))
          (fun ix => match pad_src (shape t) befores ix with Some jx => get t jx | None => Some fill end)
  else None.

(** Squeeze the given axes, which must have dimension 1, and Unsqueeze *)
Definition f_squeeze {T} (axes : list Z) (t : tensor T) : option (tensor T) :=
  match norm_axes (length (shape t)) axes with
  | Some ax => if nodupb ax && forallb (fun a => Nat.eqb (nth a (shape t) 0) 1) ax
               then Some (Tensor (drop_axes ax (shape t)) (data t)) else None
  | None => None
  end.
Fixpoint insert_ones (k n : nat) (axes sh : list nat) : list nat :=
  match n with
  | 0 => []
  | S n' => if existsb (Nat.eqb k) axes then 1 :: insert_ones (S k) n' axes sh
            else match sh with d :: sh' => d :: insert_ones (S k) n' axes sh' | [] => [] end
  end.
Definition f_unsqueeze {T} (axes : list Z) (t : tensor T) : option (tensor T) :=
  let r := length (shape t) + length axes in
  match norm_axes r axes with
  | Some ax => if nodupb ax then Some (Tensor (insert_ones 0 r ax (shape t)) (data t)) else None
  | None => None
  end.

(** DepthToSpace (mode DCR) and SpaceToDepth on NCHW *)
Definition f_depth_to_space {T} (b : nat) (t : tensor T) : option (tensor T) :=
  match shape t with
  | [n; c; h; w] =>
      if Nat.ltb 0 b && Nat.eqb (c mod (b * b)) 0 then
        let c' := c / (b * b) in
        build [n; c'; h * b; w * b]
              (fun ix => match ix with
                         | [i; k; y; x] => get t [i; (y mod b * b + x mod b) * c' + k; y / b; x / b]
                         | _ => None end)
      else None
  | _ => None
  end.
Definition f_space_to_depth {T} (b : nat) (t : tensor T) : option (tensor T) :=
  match shape t with
  | [n; c; h; w] =>
      if Nat.ltb 0 b && Nat.eqb (h mod b) 0 && Nat.eqb (w mod b) 0 then
        build [n; b * b * c; h / b; w / b]
              (fun ix => match ix with
                         | [i; k; y; x] => get t [i; k mod c; y * b + k / c / b; x * b + (k / c) mod b]
                         | _ => None end)
      else None
  | _ => None
  end.

(** Expand: broadcast to a shape *)
Definition f_expand {T} (target : list Z) (t : tensor T) : option (tensor T) :=
  if forallb (fun z => (0 <=? z)%Z) target then
    let l := map Z.to_nat target in
    let r := Nat.max (length (shape t)) (length l) in
    match bcast_dims (pad_ones r (shape t)) (pad_ones r l) with
    | None => None
    | Some sh => build sh (fun ix => get t (bcast_ix r (shape t) ix))
    end
  else None.

(** ReverseSequence: the first lens[b] entries of the time axis are reversed, for every position b of the batch axis *)
Definition f_reverse_sequence {T} (time batch : nat) (lens : list Z) (t : tensor T) : option (tensor T) :=
  let steps := nth time (shape t) 0 in
  if Nat.leb 2 (length (shape t)) && Nat.ltb time 2 && Nat.ltb batch 2 && negb (Nat.eqb time batch)
     && Nat.eqb (length lens) (nth batch (shape t) 0)
     && forallb (fun z => (0 <=? z)%Z && (z <=? Z.of_nat steps)%Z) lens then
    build (shape t) (fun ix =>
      let i := nth time ix 0 in
      let n := Z.to_nat (nth (nth batch ix 0) lens 0%Z) in
      get t (if Nat.ltb i n then set_dim time (n - 1 - i) ix else ix))
  else None.

(** GatherND: the first b axes are common, the last axis of the indices addresses the next axes of the data *)
Fixpoint norm_index (sh : list nat) (l : list Z) : option (list nat) :=
  match sh, l with
  | _, [] => Some []
  | d :: sh', z :: l' => match norm_axis d z, norm_index sh' l' with Some i, Some ix => Some (i :: ix) | _, _ => None end
  | [], _ :: _ => None
  end.
Definition f_gather_nd {T} (b : nat) (t : tensor T) (idx : tensor Z) : option (tensor T) :=
  let q := length (shape idx) in
  let k := last (shape idx) 0 in
  if Nat.ltb b q && Nat.leb 1 k && Nat.leb (b + k) (length (shape t)) && list_eqb (firstn b (shape idx)) (firstn b (shape t)) then
    build (firstn (q - 1) (shape idx) ++ skipn (b + k) (shape t))
          (fun ix => match sequence (map (fun j => get idx (firstn (q - 1) ix ++ [j])) (seq 0 k)) with
                     | Some l => match norm_index (skipn b (shape t)) l with
                                 | Some jx => get t (firstn b ix ++ jx ++ skipn (q - 1) ix)
                                 | None => None
                                 end
                     | None => None
                     end)
  else None.

(** OneHot: values = [off; on]; a new axis of length depth.  From opset 11 on a negative index counts from the end;
    an index that is out of range gives off everywhere *)
Definition insert_at {T} (k : nat) (x : T) (l : list T) : list T := firstn k l ++ x :: skipn k l.
Definition f_one_hot {T} (wraps : bool) (axis depth : Z) (off on : T) (idx : tensor Z) : option (tensor T) :=
  let r := length (shape idx) in
  match norm_axis (S r) axis with
  | None => None
  | Some ax =>
      if (0 <=? depth)%Z then
        build (insert_at ax (Z.to_nat depth) (shape idx))
              (fun ix => match get idx (firstn ax ix ++ skipn (S ax) ix) with
                         | Some v => let v' := if wraps && (v <? 0)%Z then (v + depth)%Z else v in
                                     Some (if Z.eqb v' (Z.of_nat (nth ax ix 0)) then on else off)
                         | None => None
                         end)
      else None
  end.

(** Pad in mode reflect: the border is the tensor mirrored at its first and last entry (which is not repeated) *)
Definition mirror (d b i : nat) : nat :=
  let j := (Z.of_nat i - Z.of_nat b)%Z in
  if (j <? 0)%Z then Z.to_nat (- j) else if (j <? Z.of_nat d)%Z then Z.to_nat j else Z.to_nat (2 * (Z.of_nat d - 1) - j).
Fixpoint mirror_ix (sh befores ix : list nat) : list nat :=
  match sh, befores, ix with
  | d :: sh', b :: bs', i :: ix' => mirror d b i :: mirror_ix sh' bs' ix'
  | _, _, _ => []
  end.
Definition f_pad_reflect {T} (pads : list Z) (t : tensor T) : option (tensor T) :=
  let r := length (shape t) in
  if Nat.eqb (length pads) (r + r) && forallb (fun p => (0 <=? p)%Z) pads then
    let befores := map Z.to_nat (firstn r pads) in
    let afters := map Z.to_nat (skipn r pads) in
    if forallb (fun '(p, d) => Nat.eqb p 0 || Nat.ltb p d) (combine (befores ++ afters) (shape t ++ shape t)) then
      build (addix befores (addix (shape t) afters)) (fun ix => get t (mirror_ix (shape t) befores ix))
    else None
  else None.

(** ScatterElements on vectors: entry indices[i] becomes updates[i]; negative indices count from the end *)
Fixpoint scatter {T} (l : list T) (idx : list Z) (upd : list T) : option (list T) :=
  match idx, upd with
  | [], [] => Some l
  | z :: idx', u :: upd' =>
      match norm_axis (length l) z with
      | Some k => scatter (firstn k l ++ u :: skipn (S k) l) idx' upd'
      | None => None
      end
  | _, _ => None
  end.
Definition f_scatter {T} (t : tensor T) (idx : tensor Z) (upd : tensor T) : option (tensor T) :=
  match as_vec t, as_vec idx, as_vec upd with
  | Some l, Some i, Some u => option_map (fun l' => Tensor (shape t) l') (scatter l i u)
  | _, _, _ => None
  end.
(** Compress: the entries of the axis at which the condition holds *)
Definition true_at (c : list bool) : list nat := filter (fun k => nth k c false) (seq 0 (length c)).
Definition f_compress {T} (axis : nat) (c : list bool) (t : tensor T) : option (tensor T) :=
  if Nat.ltb axis (length (shape t)) && Nat.leb (length c) (nth axis (shape t) 0) then
    let keep := true_at c in
    build (set_dim axis (length keep) (shape t)) (fun ix => get t (set_dim axis (nth (nth axis ix 0) keep 0) ix))
  else None.

(** addition and multiplication of b-bit integers: two's complement *)
Definition wrap (bits : Z) (z : Z) : Z := ((z + 2 ^ (bits - 1)) mod 2 ^ bits - 2 ^ (bits - 1))%Z.

(** ** values, operators with their attributes, expressions *)
Inductive value {A : Type} := D (t : tensor A) | I (t : tensor Z) | B (t : tensor bool).
Arguments value : clear implicits.

Inductive op :=
| Transpose (perm : option (list nat))
| Reshape
| Slice (attrs : option (list Z * list Z * option (list Z)))
| Concat (axis : Z)
| Split (axis : Z) (n k : nat)
| SplitSizes (axis : Z) (sizes : option (list Z)) (k : nat)
| Shape | Size
| Add | Sub | Mul | Div | Mod | Neg | Equal | Not | Cast
| Gather (axis : Z)
| Pad (pads : option (list Z))
| Squeeze (axes : option (list Z))
| Unsqueeze (axes : option (list Z))
| DepthToSpace (blocksize : nat)
| SpaceToDepth (blocksize : nat)
| Expand
| ReverseSequence (time_axis batch_axis : nat)
| GatherND (batch_dims : Z)
| OneHot (axis : Z)
| AddBits (bits : Z) | MulBits (bits : Z)
| PadReflect (pads : option (list Z))
| ConstantOfShape (v : bool) | ScatterElements | Compress (axis : nat).

Inductive expr {A : Type} :=
| Inp (k : nat)
| CI (t : tensor Z)
| CD (t : tensor A)
| CB (t : tensor bool)
| Op (o : op) (args : list expr).
Arguments expr : clear implicits.

Section Eval.
Context {A : Type} (zero : A).

Definition lift (f : forall T, tensor T -> option (tensor T)) (v : value A) : option (value A) :=
  match v with
  | D t => option_map D (f A t)
  | I t => option_map I (f Z t)
  | B t => option_map B (f bool t)
  end.
Definition ints (v : value A) : option (list Z) := match v with I t => as_vec t | _ => None end.
Fixpoint all_ints (vs : list (value A)) : option (list (tensor Z)) :=
  match vs with
  | [] => Some []
  | I t :: vs' => option_map (cons t) (all_ints vs')
  | _ => None
  end.
Fixpoint all_data (vs : list (value A)) : option (list (tensor A)) :=
  match vs with
  | [] => Some []
  | D t :: vs' => option_map (cons t) (all_data vs')
  | _ => None
  end.
Definition dims (v : value A) : list nat := match v with D t => shape t | I t => shape t | B t => shape t end.
Definition obind {X Y} (o : option X) (f : X -> option Y) : option Y := match o with Some x => f x | None => None end.

(** the forms an opset has: Slice has its parameters in attributes before opset 10, Pad before 11, Squeeze and Unsqueeze
    before 13, Split its sizes before 13, and in inputs from then on;
    Concat and Split accept a negative axis from opset 11 on *)
Definition neg_axis (opset : nat) (axis : Z) : bool := (axis <? 0)%Z && Nat.ltb opset 11.
Definition apply (opset : nat) (o : op) (vs : list (value A)) : option (value A) :=
  match o, vs with
  | Transpose p, [v] => lift (fun T => @f_transpose T p) v
  | Reshape, [v; s] => obind (ints s) (fun l => lift (fun T => @f_reshape T l) v)
  | Slice (Some (s, e, ax)), [v] => if Nat.ltb opset 10 then lift (fun T => @f_slice T s e ax) v else None
  | Slice None, [v; s; e] =>
      if Nat.ltb opset 10 then None else
      obind (ints s) (fun s => obind (ints e) (fun e => lift (fun T => @f_slice T s e None) v))
  | Slice None, [v; s; e; ax] =>
      if Nat.ltb opset 10 then None else
      obind (ints s) (fun s => obind (ints e) (fun e => obind (ints ax) (fun ax => lift (fun T => @f_slice T s e (Some ax)) v)))
  | Concat axis, I _ :: _ => if neg_axis opset axis then None else obind (all_ints vs) (fun ts => option_map I (f_concat axis ts))
  | Concat axis, D _ :: _ => if neg_axis opset axis then None else obind (all_data vs) (fun ts => option_map D (f_concat axis ts))
  | Split axis n k, [v] => if neg_axis opset axis then None else lift (fun T => @f_split T axis n k) v
  | SplitSizes axis (Some l) k, [v] => if neg_axis opset axis then None else if Nat.ltb opset 13 then lift (fun T => @f_split_sizes T axis l k) v else None
  | SplitSizes axis None k, [v; s] => if Nat.ltb opset 13 then None else obind (ints s) (fun l => lift (fun T => @f_split_sizes T axis l k) v)
  | Shape, [v] => Some (I (zvec (map Z.of_nat (dims v))))
  | Size, [v] => Some (I (Tensor [] [Z.of_nat (size (dims v))]))
  | Add, [I t; I u] => option_map I (f_binary Z.add t u)
  | Sub, [I t; I u] => option_map I (f_binary Z.sub t u)
  | Mul, [I t; I u] => option_map I (f_binary Z.mul t u)
  | Div, [I t; I u] => if forallb (fun z => negb (Z.eqb z 0)) (data u) then option_map I (f_binary Z.quot t u) else None
  | Mod, [I t; I u] => if forallb (fun z => negb (Z.eqb z 0)) (data u) then option_map I (f_binary Z.modulo t u) else None
  | Neg, [I t] => Some (I (f_unary Z.opp t))
  | Equal, [I t; I u] => option_map B (f_binary Z.eqb t u)
  | Not, [B t] => Some (B (f_unary negb t))
  | Cast, [B t] => Some (I (f_unary Z.b2z t))
  | Cast, [I t] => Some (I t)
  | Gather axis, [v; I idx] => lift (fun T t => @f_gather T axis t idx) v
  | Pad (Some p), [D t] => if Nat.ltb opset 11 then option_map D (f_pad zero p t) else None
  | Pad None, [D t; p] => if Nat.ltb opset 11 then None else obind (ints p) (fun p => option_map D (f_pad zero p t))
  (* the value of the border: before opset 11 the attribute "value", written here as a second argument *)
  | Pad (Some p), [D t; D c] => match shape c, data c with [], [v] => if Nat.ltb opset 11 then option_map D (f_pad v p t) else None | _, _ => None end
  | Pad None, [D t; p; D c] =>
      match shape c, data c with [], [v] => if Nat.ltb opset 11 then None else obind (ints p) (fun p => option_map D (f_pad v p t)) | _, _ => None end
  | Pad None, [I t; p] => if Nat.ltb opset 11 then None else obind (ints p) (fun p => option_map I (f_pad 0%Z p t))
  | Squeeze (Some ax), [v] => if Nat.ltb opset 13 then lift (fun T => @f_squeeze T ax) v else None
  | Squeeze None, [v; ax] => if Nat.ltb opset 13 then None else obind (ints ax) (fun ax => lift (fun T => @f_squeeze T ax) v)
  | Unsqueeze (Some ax), [v] => if Nat.ltb opset 13 then lift (fun T => @f_unsqueeze T ax) v else None
  | Unsqueeze None, [v; ax] => if Nat.ltb opset 13 then None else obind (ints ax) (fun ax => lift (fun T => @f_unsqueeze T ax) v)
  | DepthToSpace b, [v] => lift (fun T => @f_depth_to_space T b) v
  | SpaceToDepth b, [v] => lift (fun T => @f_space_to_depth T b) v
  | Expand, [v; s] => obind (ints s) (fun l => lift (fun T => @f_expand T l) v)
  | ReverseSequence ta ba, [v; s] => if Nat.ltb opset 10 then None else obind (ints s) (fun l => lift (fun T => @f_reverse_sequence T ta ba l) v)
  | GatherND b, [v; I idx] =>
      if Nat.ltb opset (if Z.eqb b 0 then 11 else 12) || (b <? 0)%Z then None else lift (fun T t => @f_gather_nd T (Z.to_nat b) t idx) v
  | OneHot axis, [I idx; I depth; D values] =>
      if Nat.ltb opset 9 then None else
      match data depth, shape values, data values with
      | [dp], [2], [off; on] => option_map D (f_one_hot (Nat.leb 11 opset) axis dp off on idx)
      | _, _, _ => None
      end
  | PadReflect (Some p), [v] => if Nat.ltb opset 11 then lift (fun T => @f_pad_reflect T p) v else None
  | PadReflect None, [v; p] => if Nat.ltb opset 11 then None else obind (ints p) (fun p => lift (fun T => @f_pad_reflect T p) v)
  | ConstantOfShape b, [s] =>
      obind (ints s) (fun l => if Nat.leb 9 opset && forallb (fun z => (0 <=? z)%Z) l
                               then Some (B (Tensor (map Z.to_nat l) (repeat b (size (map Z.to_nat l))))) else None)
  | ScatterElements, [B t; I idx; B u] => if Nat.leb 9 opset then option_map B (f_scatter t idx u) else None
  | Compress ax, [v; B c] => if Nat.leb 9 opset then obind (as_vec c) (fun c => lift (fun T => @f_compress T ax c) v) else None
  | AddBits b, [I t; I u] => option_map I (f_binary (fun x y => wrap b (x + y)) t u)
  | MulBits b, [I t; I u] => option_map I (f_binary (fun x y => wrap b (x * y)) t u)
  | _, _ => None
  end.

Fixpoint eval (opset : nat) (env : list (value A)) (e : expr A) : option (value A) :=
  match e with
  | Inp k => nth_error env k
  | CI t => Some (I t)
  | CD t => Some (D t)
  | CB t => Some (B t)
  | Op o args => obind (sequence (map (eval opset env) args)) (apply opset o)
  end.
End Eval.
