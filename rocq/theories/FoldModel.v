(** Model of the folding functions in tf2onnx/optimizer/const_fold_optimizer.py:105-205 and of the numpy calls
    they make (numpy's documented behaviour; [None] = an exception is raised). *)
From Coq Require Import List Arith ZArith Bool.
From Verif Require Import Tensor.
Import ListNotations.
Local Open Scope list_scope.

Fixpoint sequence {A} (l : list (option A)) : option (list A) :=
  match l with
  | [] => Some []
  | o :: l' => match o, sequence l' with Some x, Some xs => Some (x :: xs) | _, _ => None end
  end.
Definition build {A} (sh : list nat) (f : list nat -> option A) : option (tensor A) :=
  match sequence (map (fun k => f (unravel sh k)) (seq 0 (size sh))) with
  | Some d => Some (Tensor sh d)
  | None => None
  end.
(** replace entry k of a list *)
Fixpoint upd {A} (k : nat) (v : A) (l : list A) : list A :=
  match k, l with
  | _, [] => []
  | 0, _ :: l' => v :: l'
  | S k', x :: l' => x :: upd k' v l'
  end.
(** Python indexing: negative indices count from the end; [None] = IndexError *)
Definition py_index (len : nat) (i : Z) : option nat :=
  (if (0 <=? i)%Z then if (i <? Z.of_nat len)%Z then Some (Z.to_nat i) else None
   else if (- Z.of_nat len <=? i)%Z then Some (Z.to_nat (i + Z.of_nat len)) else None).

(** numpy.ndarray.reshape: row-major, one negative entry is inferred *)
Definition np_reshape {A} (t : tensor A) (target : list Z) : option (tensor A) :=
  let known := fold_right Z.mul 1%Z (filter (fun d => (0 <=? d)%Z) target) in
  let total := Z.of_nat (size (shape t)) in
  match filter (fun d => (d <? 0)%Z) target with
  | [] => if (known =? total)%Z then Some (Tensor (map Z.to_nat target) (data t)) else None
  | [_] => if (known =? 0)%Z then None
           else if (total mod known =? 0)%Z
                then Some (Tensor (map (fun d => Z.to_nat (if d <? 0 then total / known else d)%Z) target) (data t))
                else None
  | _ => None
  end.
(** numpy.ndarray.transpose(perm); None reverses the axes *)
Fixpoint index_of (p : nat) (perm : list nat) : nat :=
  match perm with [] => 0 | q :: perm' => if Nat.eqb q p then 0 else S (index_of p perm') end.
Definition np_transpose {A} (t : tensor A) (perm : option (list nat)) : option (tensor A) :=
  let r := length (shape t) in
  let perm := match perm with Some p => p | None => rev (seq 0 r) end in
  if Nat.eqb (length perm) r && forallb (fun k => existsb (Nat.eqb k) perm) (seq 0 r) then
    build (map (fun p => nth p (shape t) 0) perm)
          (fun jx => get t (map (fun p => nth (index_of p perm) jx 0) (seq 0 r)))
  else None.
(** numpy.concatenate *)
Fixpoint locate {A} (ax c : nat) (ts : list (tensor A)) : option (tensor A * nat) :=
  match ts with
  | [] => None
  | t :: ts' => let d := nth ax (shape t) 0 in if Nat.ltb c d then Some (t, c) else locate ax (c - d) ts'
  end.
Definition list_eqb (l l' : list nat) : bool := if list_eq_dec Nat.eq_dec l l' then true else false.
Definition np_concatenate {A} (ts : list (tensor A)) (axis : Z) : option (tensor A) :=
  match ts with
  | [] => None
  | t :: _ =>
      match py_index (length (shape t)) axis with
      | None => None
      | Some ax =>
          if forallb (fun u => list_eqb (upd ax 0 (shape u)) (upd ax 0 (shape t))) ts then
            let total := fold_right Nat.add 0 (map (fun u => nth ax (shape u) 0) ts) in
            build (upd ax total (shape t))
                  (fun jx => match locate ax (nth ax jx 0) ts with
                             | Some (u, c) => get u (upd ax c jx)
                             | None => None
                             end)
          else None
      end
  end.
(** numpy.split at indices: the parts are ary[st:end] along the axis, the last one runs to the end *)
Definition np_part {A} (t : tensor A) (ax st en : nat) : option (tensor A) :=
  let dim := nth ax (shape t) 0 in
  let st := Nat.min st dim in
  let en := Nat.min en dim in
  build (upd ax (en - st) (shape t)) (fun jx => get t (upd ax (st + nth ax jx 0) jx)).
Fixpoint np_parts {A} (t : tensor A) (ax st : nat) (idx : list nat) : list (option (tensor A)) :=
  match idx with
  | [] => [np_part t ax st (nth ax (shape t) 0)]
  | e :: idx' => np_part t ax st e :: np_parts t ax e idx'
  end.
(** numpy.cumsum *)
Fixpoint cumsum_from (s : nat) (l : list nat) : list nat :=
  match l with [] => [] | x :: l' => s + x :: cumsum_from (s + x) l' end.
Definition cumsum := cumsum_from 0.
(** numpy broadcasting of a binary ufunc *)
Fixpoint bcast_dims (a b : list nat) : option (list nat) :=
  match a, b with
  | [], [] => Some []
  | x :: a', y :: b' =>
      match bcast_dims a' b' with
      | None => None
      | Some l => if Nat.eqb x y then Some (x :: l) else if Nat.eqb x 1 then Some (y :: l)
                  else if Nat.eqb y 1 then Some (x :: l) else None
      end
  | _, _ => None
  end.
Definition pad_ones (r : nat) (sh : list nat) : list nat := repeat 1 (r - length sh) ++ sh.
Definition np_binary {A} (f : A -> A -> A) (t u : tensor A) : option (tensor A) :=
  let r := Nat.max (length (shape t)) (length (shape u)) in
  match bcast_dims (pad_ones r (shape t)) (pad_ones r (shape u)) with
  | None => None
  | Some sh =>
      let at_ v jx := get v (map (fun '(d, i) => if Nat.eqb d 1 then 0 else i)
                                 (combine (shape v) (skipn (r - length (shape v)) jx))) in
      build sh (fun jx => match at_ t jx, at_ u jx with Some a, Some b => Some (f a b) | _, _ => None end)
  end.

(** lines 104-110 _fold_cast; the element conversion is a parameter *)
Definition fold_cast {A B} (f : A -> B) (t : tensor A) : list (tensor B) := [Tensor (shape t) (map f (data t))].
(** lines 112-119 _fold_transpose *)
Definition fold_transpose {A} (t : tensor A) (perm : option (list nat)) : option (list (tensor A)) :=
  match np_transpose t perm with Some y => Some [y] | None => None end.
(** lines 121-133 _fold_reshape: the loop over the target shape.  The attribute allowzero is not read. *)
Fixpoint copy_zeros (insh : list nat) (k : nat) (target : list Z) : option (list Z) :=
  match target with
  | [] => Some []
  | d :: target' =>
      match copy_zeros insh (S k) target' with
      | None => None
      | Some l => if (d =? 0)%Z then match nth_error insh k with Some v => Some (Z.of_nat v :: l) | None => None end
                  else Some (d :: l)
      end
  end.
Definition fold_reshape {A} (t : tensor A) (target : list Z) : option (list (tensor A)) :=
  match copy_zeros (shape t) 0 target with
  | None => None
  | Some l => match np_reshape t l with Some y => Some [y] | None => None end
  end.
(** lines 135-139 _fold_concat *)
Definition fold_concat {A} (ts : list (tensor A)) (axis : Z) : option (list (tensor A)) :=
  match np_concatenate ts axis with Some y => Some [y] | None => None end.
(** lines 141-166 _fold_unsqueeze *)
Fixpoint mark_axes (axes : list Z) (out : list (option nat)) : option (list (option nat)) :=
  match axes with
  | [] => Some out
  | a :: axes' => match py_index (length out) a with
                  | Some k => mark_axes axes' (upd k (Some 1) out)
                  | None => None
                  end
  end.
Fixpoint fill_dims (out : list (option nat)) (insh : list nat) : option (list Z) :=
  match out with
  | [] => Some []
  | Some d :: out' => match fill_dims out' insh with Some l => Some (Z.of_nat d :: l) | None => None end
  | None :: out' => match insh with
                    | [] => None
                    | d :: insh' => match fill_dims out' insh' with Some l => Some (Z.of_nat d :: l) | None => None end
                    end
  end.
Definition fold_unsqueeze {A} (t : tensor A) (axes : list Z) : option (list (tensor A)) :=
  let dims_out := length (shape t) + length axes in
  let axes' := map (fun i => if (0 <=? i)%Z then i else (i + Z.of_nat dims_out)%Z) axes in
  match mark_axes axes' (repeat None dims_out) with
  | None => None
  | Some out => match fill_dims out (shape t) with
                | None => None
                | Some sh => match np_reshape t sh with Some y => Some [y] | None => None end
                end
  end.
(** lines 168-190 _fold_mul, _fold_add, _fold_sub *)
Definition fold_binary {A} (f : A -> A -> A) (t u : tensor A) : option (list (tensor A)) :=
  match np_binary f t u with Some y => Some [y] | None => None end.
(** lines 192-205 _fold_split; [nout] = len(node.output) *)
Definition fold_split {A} (t : tensor A) (axis : Z) (split : option (list nat)) (nout : nat) : option (list (tensor A)) :=
  if Nat.eqb nout 1 then Some [t]
  else match py_index (length (shape t)) axis with
       | None => None
       | Some ax =>
           let dim := nth ax (shape t) 0 in
           match split with
           | Some l => sequence (np_parts t ax 0 (cumsum (removelast l)))
           | None => if Nat.eqb nout 0 then None
                     else if Nat.eqb (dim mod nout) 0
                     then sequence (np_parts t ax 0 (map (fun k => S k * (dim / nout)) (seq 0 (nout - 1))))
                     else None
           end
       end.
