(** Model of the attribute computations in tf2onnx/optimizer/transpose_optimizer.py: for an operator behind a
    Transpose with permutation [perm], the attributes of the operator and the permutation after the two are switched. *)
From Coq Require Import List Arith ZArith Bool.
From Verif Require Import Tensor FoldModel NNModel.
Import ListNotations.
Local Open Scope list_scope.

(** transpose_optimizer.py:39-43 *)
Definition invert_perm (p : list nat) : list nat :=
  fold_left (fun inv ik => upd (snd ik) (fst ik) inv) (combine (seq 0 (length p)) p) (repeat 0 (length p)).
(** perm[a] with a Python index; None = IndexError *)
Definition py_get (p : list nat) (a : Z) : option nat := match py_index (length p) a with Some i => nth_error p i | None => None end.
(** 673-680 _concat_handler, 682-698 _split_handler, 996-999 _quantize_handler: perm[axis] *)
Definition moved_axis (p : list nat) (axis : Z) : option nat := py_get p axis.
(** 961-962, 972 _slice_handler, 915-917 _reduce_latest_handler: [perm[axes[i]] for i ...] *)
Definition moved_axes (p : list nat) (axes : list Z) : option (list nat) := traverse (py_get p) axes.
(** a + trans_rank if a < 0 else a *)
Definition plus_rank (p : list nat) (a : Z) : Z := if (a <? 0)%Z then (a + Z.of_nat (length p))%Z else a.
(** 851-862 _softmax_handler, opset 13; the default of the axis is -1 *)
Definition moved_softmax_axis (p : list nat) (axis : option Z) : option nat :=
  py_get p (plus_rank p (match axis with Some a => a | None => (-1)%Z end)).
(** 864-871, opset < 13; the default is 1; true = the switch is done, without a change of the axis *)
Definition softmax12_movable (p : list nat) (axis : option Z) : bool :=
  let c := match axis with Some a => a | None => 1%Z end in
  forallb (fun ft => let from := Z.of_nat (fst ft) in let to := Z.of_nat (snd ft) in
    negb (((from <? c) && (c <=? to)) || ((c <=? from) && (to <? c)))%Z) (combine (seq 0 (length p)) p).
(** 882-888 _reduce_base_handler: the axes default to all *)
Definition moved_reduce_axes (p : list nat) (axes : option (list Z)) : option (list nat) :=
  let axes := match axes with Some l => l | None => map Z.of_nat (seq 0 (length p)) end in
  traverse (fun a => py_get p (plus_rank p a)) axes.
(** 894-907: keepdims == 0 *)
Fixpoint remaining_from (axes : list nat) (i j n : nat) : list (option nat) :=
  match n with
  | 0 => []
  | S n' => if existsb (Nat.eqb i) axes then None :: remaining_from axes (S i) j n' else Some j :: remaining_from axes (S i) (S j) n'
  end.
Definition reduce_new_perm (p new_axes : list nat) : list nat :=
  let rem := remaining_from new_axes 0 0 (length p) in
  flat_map (fun q => match nth q rem None with Some v => [v] | None => [] end) p.
(** 816-822 _pad_handler permute_pads *)
Definition permute_pads (p : list nat) (pads : list Z) : list Z :=
  map (fun i => nth i pads 0%Z) (invert_perm p) ++ map (fun i => nth (i + length p) pads 0%Z) (invert_perm p).
(** 939-943 _tile_handler *)
Definition permute_repeats (p repeats : list nat) : list nat := map (fun i => nth i repeats 0) (invert_perm p).

(** sorted() *)
Fixpoint insert_by {A} (le : A -> A -> bool) (a : A) (l : list A) : list A :=
  match l with [] => [a] | b :: l' => if le a b then a :: l else b :: insert_by le a l' end.
Definition sorted_by {A} (le : A -> A -> bool) (l : list A) : list A := fold_right (insert_by le) [] l.
Definition not_in (axes : list nat) (i : nat) : bool := negb (existsb (Nat.eqb i) axes).
(** 757-773 _squeeze_handler _calculate_new_attr: new permutation, new axes *)
Definition squeeze_new_attr (p : list nat) (axes : list Z) : option (list nat * list nat) :=
  let n := length p in
  let ori := map (fun i => if (0 <=? i)%Z then i else (i + Z.of_nat n)%Z) axes in
  match traverse (py_get p) ori with
  | None => None
  | Some new =>
      let new_axes := sorted_by Nat.leb new in
      let output_shape := map (fun i => nth i p 0) (filter (fun i => negb (existsb (Z.eqb (Z.of_nat i)) ori)) (seq 0 n)) in
      let after := filter (not_in new_axes) (seq 0 n) in
      Some (map (fun i => index_of i after) output_shape, new_axes)
  end.
(** 700-742 _unsqueeze_handler *)
Definition pair_le (a b : nat * nat) : bool := Nat.ltb (fst a) (fst b) || (Nat.eqb (fst a) (fst b) && Nat.leb (snd a) (snd b)).
Definition pair_eq (a b : nat * nat) : bool := Nat.eqb (fst a) (fst b) && Nat.eqb (snd a) (snd b).
Fixpoint position {A} (eq : A -> A -> bool) (a : A) (l : list A) : nat :=
  match l with [] => 0 | b :: l' => if eq b a then 0 else S (position eq a l') end.
Definition enumerate {A} (l : list A) : list (nat * A) := combine (seq 0 (length l)) l.
Definition unsqueeze_sorted_axes (p : list nat) (axes : list Z) : list nat :=
  let new_rank := length p + length axes in
  sorted_by Nat.leb (map (fun a => Z.to_nat (a mod Z.of_nat new_rank)%Z) axes).
Definition unsqueeze_new_axes (p : list nat) (axes : list nat) : list nat :=
  let partner := map (fun ia => snd ia - fst ia) (enumerate axes) in
  let pre := map (fun a => if Nat.ltb a (length p) then nth a p 0 else length p) partner in
  let pairs := map (fun ia => (snd ia, fst ia)) (enumerate pre) in
  let srt := sorted_by pair_le pairs in
  map (fun ai => fst ai + position pair_eq ai srt) pairs.
Fixpoint unsqueeze_perm_from (axes shift_map : list nat) (i n : nat) (new_axes perm : list nat) : list nat :=
  match n with
  | 0 => []
  | S n' =>
      if existsb (Nat.eqb i) axes
      then hd 0 new_axes :: unsqueeze_perm_from axes shift_map (S i) n' (tl new_axes) perm
      else nth (hd 0 perm) shift_map 0 :: unsqueeze_perm_from axes shift_map (S i) n' new_axes (tl perm)
  end.
(** new permutation and new (sorted) axes *)
Definition unsqueeze_new_attr (p : list nat) (axes : list Z) : list nat * list nat :=
  let new_rank := length p + length axes in
  let ax := unsqueeze_sorted_axes p axes in
  let new_axes := unsqueeze_new_axes p ax in
  let shift_map := filter (not_in new_axes) (seq 0 new_rank) in
  (unsqueeze_perm_from ax shift_map 0 new_rank new_axes p, sorted_by Nat.leb new_axes).

(** 606-617 _mul_handler, a constant multiplier of N elements along its last axis: ones everywhere, N at perm[-1] *)
Definition mul_new_shape (p : list nat) (n : nat) : list nat := upd (last p 0) n (repeat 1 (length p)).
(** 420-429 shape_after_expand *)
Definition expand_shape {A} (one : A) (rank : nat) (shape : list A) : list A := repeat one (rank - length shape) ++ shape.
(** 92-113 post_optimize_action _calculate_new_shape: a dimension 1 and the others tagged with their position; None =
    no replacement; Some None = new shape computed at run time as Gather(Shape(x), perm) *)
Definition tagged (shape : list Z) : list (option nat) := map (fun id => if (snd id =? 1)%Z then None else Some (fst id)) (enumerate shape).
Definition trim (l : list (option nat)) : list nat := flat_map (fun o => match o with Some i => [i] | None => [] end) l.
Definition reshape_instead (shape : list Z) (p : list nat) : option (option (list Z)) :=
  let tags := tagged shape in
  if list_eqb (trim (map (fun i => nth i tags None) p)) (trim tags) then
    Some (if Nat.leb (length (filter (Z.eqb (-1)) shape)) 1 then Some (map (fun i => nth i shape 0%Z) p) else None)
  else None.

(** 621-663 _sum_handler: Sum of Transposes with the same permutation and of constants of the same rank.  The constants
    are objects that are overwritten one after the other in the order of the inputs; [store] is their value. *)
Inductive sum_input (A : Type) := FromTranspose (q : list nat) (x : tensor A) | FromConst (c : nat) | FromOther (v : tensor A).
Arguments FromTranspose {A}. Arguments FromConst {A}. Arguments FromOther {A}.
(** 625-641; that each input has a single consumer is left out *)
Definition sum_movable {A} (p : list nat) (store : nat -> tensor A) (inputs : list (sum_input A)) : bool :=
  forallb (fun i => match i with
    | FromTranspose q _ => list_eqb q p
    | FromConst c => Nat.eqb (length (shape (store c))) (length p)
    | FromOther _ => false
    end) inputs.
Definition untrans_idx (p : list nat) : list nat := map (fun i => index_of i p) (seq 0 (length p)).
(** 654-661; None = numpy raises *)
Fixpoint sum_store {A} (p : list nat) (store : nat -> tensor A) (inputs : list (sum_input A)) : option (nat -> tensor A) :=
  match inputs with
  | [] => Some store
  | FromConst c :: l =>
      match np_transpose (store c) (Some (untrans_idx p)) with
      | None => None
      | Some v => sum_store p (fun d => if Nat.eqb d c then v else store d) l
      end
  | _ :: l => sum_store p store l
  end.
(** 645: the new inputs *)
Definition sum_inputs {A} (store : nat -> tensor A) (inputs : list (sum_input A)) : list (tensor A) :=
  map (fun i => match i with FromTranspose _ x => x | FromConst c => store c | FromOther v => v end) inputs.
