(** The table of folding functions, const_fold_optimizer.py:17-28 (_func_map) and 104-205, with the reading of
    attributes and constant inputs.  Restriction: where a node violates the ONNX rules for its operator (an axis out
    of range, split sizes that do not add up, a missing input, a negative dimension other than -1) the model
    stops ([None]), although numpy may still return something there. *)
From Coq Require Import String List ZArith Bool Arith.
From Verif Require Import FGraph Tensor OnnxSpec FoldModel FoldOnnxSpec.
Import ListNotations.
Local Open Scope string_scope.
Local Open Scope list_scope.

Section S.
Variable A : Type.
Variable ival : A -> Z.
Variable cast : Z -> A -> A.
Variable add mul sub : A -> A -> A.
Variable opset : nat.

(** get_tensor_value(as_list=True) of a one-dimensional integer tensor (graph.py:325-351) *)
Definition ints (t : tensor A) : option (list Z) :=
  match shape t with
  | [d] => if Nat.eqb (length (data t)) d then Some (map ival (data t)) else None
  | _ => None
  end.
Definition okw (t : tensor A) : bool := Nat.eqb (length (data t)) (size (shape t)).
Definition nat_list (l : list Z) : option (list nat) := if forallb (fun d => (0 <=? d)%Z) l then Some (map Z.to_nat l) else None.
Definition split_fits (x : tensor A) (axis : Z) (lens : option (list nat)) (k : nat) : bool :=
  match norm_axis (length (shape x)) axis, lens with
  | None, _ => false
  | Some _, None => true
  | Some ax, Some l => Nat.eqb (length l) k && Nat.eqb (fold_right Nat.add 0 l) (nth ax (shape x) 0)
  end.
(** one function of the table *)
Definition ffun := list (string * attr) -> nat -> list (tensor A) -> option (list (tensor A)).
Definition cast_fun : ffun := fun at_ _ ins =>
  match ins, int_attr "to" at_ with [x], Some to => Some (fold_cast (cast to) x) | _, _ => None end.
Definition transpose_fun_ : ffun := fun at_ _ ins =>
  match ins, ints_attr "perm" at_ with
  | [x], Some p => match nat_list p with Some p' => fold_transpose x (Some p') | None => None end
  | [x], None => fold_transpose x None
  | _, _ => None
  end.
Definition reshape_fun_ : ffun := fun _ _ ins =>
  match ins with
  | [x; s] => match ints s with
              | Some target => if forallb (fun d => (-1 <=? d)%Z) target then fold_reshape x target else None
              | None => None
              end
  | _ => None
  end.
Definition concat_fun_ : ffun := fun at_ _ ins =>
  match int_attr "axis" at_ with Some axis => fold_concat ins axis | None => None end.
Definition unsqueeze_at (x : tensor A) (axes : list Z) : option (list (tensor A)) :=
  match norm_axes (length (shape x) + length axes) axes with Some _ => fold_unsqueeze x axes | None => None end.
Definition unsqueeze_fun_ : ffun := fun at_ _ ins =>
  if Nat.leb 13 opset
  then match ins with [x; a] => match ints a with Some axes => unsqueeze_at x axes | None => None end | _ => None end
  else match ins, ints_attr "axes" at_ with [x], Some axes => unsqueeze_at x axes | _, _ => None end.
Definition binary_fun (f : A -> A -> A) : ffun := fun _ _ ins =>
  match ins with [x; y] => fold_binary f x y | _ => None end.
Definition split_at (x : tensor A) (axis : Z) (lens : option (list nat)) (k : nat) : option (list (tensor A)) :=
  if split_fits x axis lens k then fold_split x axis lens k else None.
Definition split_fun_ : ffun := fun at_ k ins =>
  let axis := match int_attr "axis" at_ with Some a => a | None => 0%Z end in
  match ins with
  | [x] => match ints_attr "split" at_ with
           | Some l => match nat_list l with Some l' => split_at x axis (Some l') k | None => None end
           | None => split_at x axis None k
           end
  | [x; s] => match ints s with
              | Some l => match nat_list l with Some l' => split_at x axis (Some l') k | None => None end
              | None => None
              end
  | _ => None
  end.
Definition on_arrays (f : ffun) : ffun := fun at_ k ins => if forallb okw ins then f at_ k ins else None.
Definition func_table : list (string * ffun) :=
  [("Cast", cast_fun); ("Transpose", transpose_fun_); ("Reshape", reshape_fun_); ("Concat", concat_fun_);
   ("Unsqueeze", unsqueeze_fun_); ("Mul", binary_fun mul); ("Add", binary_fun add); ("Sub", binary_fun sub);
   ("Split", split_fun_)].
Definition func_map (op : string) : option ffun :=
  match find (fun p => String.eqb (fst p) op) func_table with
  | Some p => Some (on_arrays (snd p))
  | None => None
  end.
End S.
