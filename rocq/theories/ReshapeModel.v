(** Model of tf2onnx/symbolic_executor.py and of the decision in tf2onnx/optimizer/reshape_optimizer.py:43-117.
    [None] = an exception (the optimizer leaves the node alone, or the optimizer driver discards the pass).
    Simplifications: integer tensors hold unbounded integers; a Const that is not an integer tensor ([cval] gives
    [None]) and a node input '' are outside the model (exception); the nodes of the enclosing graphs are given as one
    list of visible nodes; a numpy result is described by its shape, its elements and whether its dtype is object. *)
From Coq Require Import String List Arith ZArith Bool.
From Verif Require Import Tensor FoldModel FGraph.
Import ListNotations.
Local Open Scope string_scope.
Local Open Scope list_scope.
Local Open Scope Z_scope.

(** symbolic_executor.py:15-25 SymbolicTensorElement: a product of variables (numbers of dimensions) and a constant *)
Record sym := Sym { terms : list nat; constant : Z }.
Definition make_sym (ts : list nat) (c : Z) : sym := if c =? 0 then Sym [] c else Sym ts c.
(** 27-35 __mul__, __rmul__ *)
Definition sym_mul (a b : sym) : sym := make_sym (terms a ++ terms b) (constant a * constant b).
Definition sym_scale (a : sym) (c : Z) : sym := make_sym (terms a) (constant a * c).
(** 37-47 is_const, is_single_var, has_multiple_terms *)
Definition is_const (s : sym) : bool := match terms s with [] => true | _ => false end.
Definition is_single_var (s : sym) : bool := match terms s with [_] => constant s =? 1 | _ => false end.
Definition has_multiple_terms (s : sym) : bool := negb (is_const s) && negb (is_single_var s).
(** 56-62 from_const, from_variable *)
Definition from_const (c : Z) : sym := make_sym [] c.
Definition from_variable (i : nat) : sym := make_sym [i] 1.

(** numpy arrays: elements are integers or symbolic elements; the flag is [dtype == object] *)
Inductive elt := Raw (z : Z) | Obj (s : sym).
Record arr := Arr { is_object : bool; vals : tensor elt }.
Definition tmap {A B} (f : A -> B) (t : tensor A) : tensor B := Tensor (shape t) (map f (data t)).
(** 64-72 from_value, np_array *)
Definition from_value (e : elt) : sym := match e with Raw z => from_const z | Obj s => s end.
(** Python's * on elements *)
Definition elt_mul (a b : elt) : elt :=
  match a, b with
  | Raw x, Raw y => Raw (x * y)
  | Raw x, Obj s => Obj (sym_scale s x)
  | Obj s, Raw y => Obj (sym_scale s y)
  | Obj s, Obj u => Obj (sym_mul s u)
  end.
(** numpy returns an element, not an array, for results without dimensions; np.array (line 121) of an integer is an
    integer array *)
Definition np_scalar (a : arr) : arr :=
  match vals a with Tensor [] [Raw z] => Arr false (Tensor [] [Raw z]) | _ => a end.
(** a vector of integers read with tolist(), tuple() or by iteration; symbolic elements raise TypeError *)
Definition as_ints (a : arr) : option (list Z) :=
  match shape (vals a) with
  | [_] => sequence (map (fun e => match e with Raw z => Some z | Obj _ => None end) (data (vals a)))
  | _ => None
  end.
Definition get_ints (k : string) (at_ : list (string * attr)) : option (list Z) :=
  match find (fun p => String.eqb (fst p) k) at_ with Some (_, AInts l) => Some l | _ => None end.
Definition get_int (k : string) (at_ : list (string * attr)) : option Z :=
  match find (fun p => String.eqb (fst p) k) at_ with Some (_, AInt z) => Some z | _ => None end.

(** 192-202 compute_unsqueeze_shape *)
Definition unsqueeze_shape (sh : list nat) (axes : list Z) : option (list Z) :=
  let dims_out := (length sh + length axes)%nat in
  let axes' := map (fun i => if 0 <=? i then i else i + Z.of_nat dims_out) axes in
  match mark_axes axes' (repeat None dims_out) with
  | Some out => fill_dims out sh
  | None => None
  end.
(** 204-210 compute_squeeze_shape: negative axes are shifted by the number of axes, not of dimensions *)
Fixpoint keep_dims (axes : list Z) (ind : nat) (sh : list nat) : list Z :=
  match sh with
  | [] => []
  | d :: sh' => if existsb (Z.eqb (Z.of_nat ind)) axes then keep_dims axes (S ind) sh' else Z.of_nat d :: keep_dims axes (S ind) sh'
  end.
Definition squeeze_shape (sh : list nat) (axes : list Z) : list Z :=
  keep_dims (map (fun i => if 0 <=? i then i else i + Z.of_nat (length axes)) axes) 0 sh.
(** 126-135 compute_squeeze_unsqueeze *)
Definition compute_squeeze_unsqueeze (unsqueeze : bool) (axes : list Z) (inp : arr) : option arr :=
  match (if unsqueeze then unsqueeze_shape (shape (vals inp)) axes else Some (squeeze_shape (shape (vals inp)) axes)) with
  | Some new_shape => option_map (Arr (is_object inp)) (np_reshape (vals inp) new_shape)
  | None => None
  end.
(** 144-145 compute_mul *)
Definition compute_mul (a b : arr) : option arr :=
  option_map (fun t => np_scalar (Arr (is_object a || is_object b) t)) (np_binary elt_mul (vals a) (vals b)).
(** 147-154 compute_reduceprod: numpy.prod over axes *)
Fixpoint distinct (l : list nat) : bool := match l with [] => true | x :: l' => negb (existsb (Nat.eqb x) l') && distinct l' end.
Definition prod_of (l : list elt) : elt := match l with [] => Raw 1 | e :: l' => fold_left elt_mul l' e end.
(** the indices with the same position outside the axes *)
Definition same_lane (ax ix jx : list nat) : bool :=
  forallb (fun k => existsb (Nat.eqb k) ax || Nat.eqb (nth k ix 0%nat) (nth k jx 0%nat)) (seq 0 (length jx)).
Fixpoint keep_or (v : option nat) (ax : list nat) (k : nat) (sh : list nat) : list nat :=
  match sh with
  | [] => []
  | d :: sh' => if existsb (Nat.eqb k) ax then match v with Some w => w :: keep_or v ax (S k) sh' | None => keep_or v ax (S k) sh' end
                else d :: keep_or v ax (S k) sh'
  end.
Definition np_prod (t : tensor elt) (axes : list Z) (keepdims : bool) : option (tensor elt) :=
  match sequence (map (py_index (length (shape t))) axes) with
  | None => None
  | Some ax =>
      if distinct ax then
        let lanes := fun ix => sequence (map (fun k => get t (unravel (shape t) k))
                                 (filter (fun k => same_lane ax ix (unravel (shape t) k)) (seq 0 (size (shape t))))) in
        match build (keep_or (Some 1%nat) ax 0 (shape t)) (fun ix => option_map prod_of (lanes ix)) with
        | Some z => Some (if keepdims then z else Tensor (keep_or None ax 0 (shape t)) (data z))
        | None => None
        end
      else None
  end.
Definition compute_reduceprod (axes : list Z) (keepdims : Z) (inp : arr) : option arr :=
  option_map (fun t => np_scalar (Arr (is_object inp) t)) (np_prod (vals inp) axes (negb (keepdims =? 0))).
(** Python's slice on a sequence of length n (PySlice_AdjustIndices): first index and number of elements *)
Definition py_slice (n : nat) (start stop step : Z) : option (Z * nat) :=
  if step =? 0 then None
  else
    let len := Z.of_nat n in
    let adjust := fun v => if v <? 0 then (if v + len <? 0 then (if step <? 0 then -1 else 0) else v + len)
                           else if len <=? v then (if step <? 0 then len - 1 else len) else v in
    let s := adjust start in
    let e := adjust stop in
    Some (s, Z.to_nat (if step <? 0 then (if e <? s then (s - e - 1) / (- step) + 1 else 0)
                       else (if s <? e then (e - s - 1) / step + 1 else 0))).
(** 156-177 compute_slice; [slice(None, None, None)] is None *)
Fixpoint set_slices (params : list (Z * (Z * Z * Z))) (slices : list (option (Z * Z * Z))) : option (list (option (Z * Z * Z))) :=
  match params with
  | [] => Some slices
  | (axis, s) :: params' => match py_index (length slices) axis with
                            | Some k => set_slices params' (upd k (Some s) slices)
                            | None => None
                            end
  end.
Definition np_slice {A} (t : tensor A) (slices : list (option (Z * Z * Z))) : option (tensor A) :=
  match sequence (map (fun '(d, s) => match s with None => Some (0, d, 1) | Some (start, stop, step) =>
            match py_slice d start stop step with Some (first, count) => Some (first, count, step) | None => None end end)
          (combine (shape t) slices)) with
  | None => None
  | Some ranges =>
      build (map (fun '(_, count, _) => count) ranges)
            (fun ix => get t (map (fun '((first, _, step), i) => Z.to_nat (first + Z.of_nat i * step)) (combine ranges ix)))
  end.
Definition compute_slice (starts ends : list Z) (axes steps : option (list Z)) (inp : arr) : option arr :=
  let ndims := length starts in
  let axes := match axes with Some l => l | None => map Z.of_nat (seq 0 ndims) end in
  let steps := match steps with Some l => l | None => repeat 1 ndims end in
  match set_slices (combine axes (combine (combine starts ends) steps)) (repeat None (length (shape (vals inp)))) with
  | Some slices => option_map (fun t => np_scalar (Arr (is_object inp) t)) (np_slice (vals inp) slices)
  | None => None
  end.
(** 137-142 compute_cast; [cast] is numpy's astype *)
Definition compute_cast (cast : Z -> Z -> Z) (to : option Z) (inp : arr) : option arr :=
  if is_object inp then Some inp
  else match to with
       | Some t => Some (Arr false (tmap (fun e => match e with Raw z => Raw (cast t z) | Obj s => Obj s end) (vals inp)))
       | None => None
       end.
(** 179-182 compute_concat *)
Definition compute_concat (axis : Z) (inps : list arr) : option arr :=
  option_map (Arr (existsb is_object inps)) (np_concatenate (map vals inps) axis).
(** 184-190 compute_gather: numpy.take with integer indices *)
Definition np_take {A} (t : tensor A) (idx : tensor Z) (axis : Z) : option (tensor A) :=
  match py_index (length (shape t)) axis with
  | None => None
  | Some ax =>
      let q := length (shape idx) in
      build (firstn ax (shape t) ++ shape idx ++ skipn (S ax) (shape t))
            (fun jx => match get idx (firstn q (skipn ax jx)) with
                       | Some z => match py_index (nth ax (shape t) 0%nat) z with
                                   | Some k => get t (firstn ax jx ++ k :: skipn (ax + q) jx)
                                   | None => None
                                   end
                       | None => None
                       end)
  end.
Definition compute_gather (axis : Z) (inp indices : arr) : option arr :=
  if is_object indices then None
  else match sequence (map (fun e => match e with Raw z => Some z | Obj _ => None end) (data (vals indices))) with
       | Some l => option_map (fun t => np_scalar (Arr (is_object inp) t)) (np_take (vals inp) (Tensor (shape (vals indices)) l) axis)
       | None => None
       end.

Section Executor.
Variable opset : nat.
Variable cval : list (string * attr) -> option (tensor Z).
Variable cast : Z -> Z -> Z.
Definition results := list (string * arr).
Definition lookup (res : results) (t : string) : option arr := option_map snd (find (fun p => String.eqb (fst p) t) res).
Definition input (n : fnode) (res : results) (k : nat) : option arr :=
  match nth_error (f_in n) k with Some t => if String.eqb t "" then None else lookup res t | None => None end.
Definition bind {X Y} (o : option X) (f : X -> option Y) : option Y := match o with Some x => f x | None => None end.
(** an optional input: absent, or present and readable *)
Definition optional_ints (n : fnode) (res : results) (k : nat) : option (option (list Z)) :=
  if Nat.ltb k (length (f_in n)) then option_map Some (bind (input n res k) as_ints) else Some None.
Definition opset_below (v : nat) : bool := Nat.ltb opset v.

(** 78-90 op_map and 119-124 compute_node *)
Definition supported : list string := ["Unsqueeze"; "Squeeze"; "Gather"; "Mul"; "ReduceProd"; "Slice"; "Cast"; "Concat"; "Const"].
Definition compute_node (n : fnode) (res : results) : option arr :=
  let at_ := f_attrs n in
  let op := f_op n in
  if String.eqb op "Unsqueeze" || String.eqb op "Squeeze" then
    bind (input n res 0) (fun inp =>
    bind (if opset_below 13 then get_ints "axes" at_ else bind (input n res 1) as_ints) (fun axes =>
    compute_squeeze_unsqueeze (String.eqb op "Unsqueeze") axes inp))
  else if String.eqb op "Gather" then
    bind (input n res 0) (fun inp => bind (input n res 1) (fun indices =>
    compute_gather (match get_int "axis" at_ with Some a => a | None => 0 end) inp indices))
  else if String.eqb op "Mul" then
    bind (input n res 0) (fun a => bind (input n res 1) (fun b => compute_mul a b))
  else if String.eqb op "ReduceProd" then
    bind (input n res 0) (fun inp =>
    bind (if opset_below 18 then get_ints "axes" at_ else bind (input n res 1) as_ints) (fun axes =>
    compute_reduceprod axes (match get_int "keepdims" at_ with Some k => k | None => 1 end) inp))
  else if String.eqb op "Slice" then
    bind (input n res 0) (fun inp =>
    if opset_below 10 then
      bind (get_ints "starts" at_) (fun starts => bind (get_ints "ends" at_) (fun ends => compute_slice starts ends (get_ints "axes" at_) None inp))
    else
      bind (bind (input n res 1) as_ints) (fun starts => bind (bind (input n res 2) as_ints) (fun ends =>
      bind (optional_ints n res 3) (fun axes => bind (optional_ints n res 4) (fun steps => compute_slice starts ends axes steps inp)))))
  else if String.eqb op "Cast" then bind (input n res 0) (compute_cast cast (get_int "to" at_))
  else if String.eqb op "Concat" then
    bind (get_int "axis" at_) (fun axis => bind (sequence (map (fun k => input n res k) (seq 0 (length (f_in n))))) (compute_concat axis))
  else if String.eqb op "Const" then option_map (fun t => Arr false (tmap Raw t)) (cval at_)
  else None.

Variable nodes : list fnode.
Definition producer (t : string) : option fnode := find (fun n => mem t (f_out n)) nodes.
(** 106-117 plan_computation: a depth-first search with a stack; the order is reversed at the end *)
Fixpoint plan (fuel : nat) (feed : results) (stack : list fnode) (sorted : list fnode) : option (list fnode) :=
  match fuel, stack with
  | _, [] => Some sorted
  | O, _ => None
  | S fuel', n :: stack' =>
      if mem (f_op n) supported then
        match sequence (map producer (filter (fun t => negb (String.eqb t "") && match lookup feed t with Some _ => false | None => true end) (f_in n))) with
        | Some more => plan fuel' feed (rev more ++ stack') (n :: sorted)
        | None => None
        end
      else None
  end.
(** 92-104 compute_outputs for one output *)
Fixpoint run (ns : list fnode) (res : results) : option results :=
  match ns with
  | [] => Some res
  | n :: ns' => match compute_node n res, f_out n with
                | Some a, o :: _ => run ns' ((o, a) :: res)
                | _, _ => None
                end
  end.
Definition compute_output (fuel : nat) (out : string) (feed : results) : option (tensor sym) :=
  bind (producer out) (fun n =>
  bind (plan fuel feed [n] []) (fun ns =>
  bind (run ns feed) (fun res =>
  bind (lookup res out) (fun a => if Nat.eqb (size (shape (vals a))) 0 then None else Some (tmap from_value (vals a)))))).

(** reshape_optimizer.py:50-60: every Shape of the input is fed with its dimensions, -1 becomes a variable.  [shapes]:
    the Shape nodes among the consumers of the input. *)
Fixpoint symbolic_dims (i : nat) (inp_shape : list Z) : list elt :=
  match inp_shape with
  | [] => []
  | d :: l => Obj (if d =? -1 then from_variable i else from_const d) :: symbolic_dims (S i) l
  end.
Definition feed_of (x : string) (inp_shape : list Z) : results :=
  flat_map (fun n => if mem x (f_in n) && String.eqb (f_op n) "Shape"
                     then match f_out n with o :: _ => [(o, Arr true (Tensor [length inp_shape] (symbolic_dims 0 inp_shape)))] | [] => [] end
                     else []) nodes.
End Executor.

(** collections.Counter(...).most_common(1): the first among the most frequent *)
Definition count (z : Z) (l : list Z) : nat := length (filter (Z.eqb z) l).
Definition most_common (l : list Z) : option Z :=
  fold_left (fun best z => match best with
                           | None => Some z
                           | Some b => if Nat.ltb (count b l) (count z l) then Some z else Some b
                           end) l None.
(** reshape_optimizer.py:78-81 get_shift *)
Definition get_shift (s : sym) (i : nat) : option Z :=
  if is_single_var s then match terms s with t :: _ => Some (Z.of_nat t - Z.of_nat i) | [] => None end else None.
Fixpoint enumerate {A} (i : nat) (l : list A) : list (nat * A) := match l with [] => [] | x :: l' => (i, x) :: enumerate (S i) l' end.
(** 86-92 get_reshape_dim *)
Definition get_reshape_dim (s : sym) (i : nat) (shift : Z) : Z :=
  if is_const s then constant s
  else match get_shift s i with Some k => if k =? shift then 0 else -1 | None => -1 end.
(** 67-95, 106-108: the number of dimensions to shift by, and the new shape; [None] = no change *)
Definition decide (inp_shape : list Z) (symbolic_shape : list sym) : option (Z * list Z) :=
  let product_cnt := length (filter has_multiple_terms symbolic_shape) in
  let idx_cnt := length (filter is_single_var symbolic_shape) in
  if Nat.ltb 1 product_cnt then None
  else
    let '(shift, new_shape) :=
      if Nat.leb (idx_cnt + product_cnt) 1 then
        (0, map (fun v => if is_const v then constant v else -1) symbolic_shape)
      else
        let shifts := flat_map (fun '(i, v) => match get_shift v i with Some s => [s] | None => [] end) (enumerate 0 symbolic_shape) in
        let shift := match most_common shifts with Some s => s | None => 0 end in
        (shift, map (fun '(i, v) => get_reshape_dim v i shift) (enumerate 0 symbolic_shape)) in
    if Nat.ltb 1 (count (-1) new_shape) then None
    else
      let new_shape := if 0 <? shift then repeat 1 (Z.to_nat shift) ++ new_shape else new_shape in
      if (match inp_shape with [d] => d =? -1 | _ => false end) && Nat.ltb 1 (length new_shape) then None
      else Some (shift, new_shape).

(** 43-117 _optimize_reshape: what becomes of a Reshape of [x] to [target] when x has the known shape [inp_shape] *)
Definition optimize_reshape (opset : nat) (cval : list (string * attr) -> option (tensor Z)) (cast : Z -> Z -> Z) (nodes : list fnode)
  (fuel : nat) (x target : string) (inp_shape : list Z) : option (Z * list Z) :=
  bind (producer nodes target) (fun p =>
  if String.eqb (f_op p) "Const" || String.eqb (f_op p) "ConstV2" then None
  else
    bind (compute_output opset cval cast nodes fuel target (feed_of nodes x inp_shape)) (fun res =>
    if Nat.eqb (length (shape res)) 1 then decide inp_shape (data res) else None)).
