(** Model of the handlers of MatMul, BatchMatMul, BatchMatMulV2, BatchMatMulV3 and Einsum, tf2onnx/onnx_opset/math.py:368-425 and 837-880. *)
From Coq Require Import String Ascii List Arith ZArith Bool.
From Verif Require Import MatSpec.
Import ListNotations.
Local Open Scope list_scope.

(** the attributes that the handler reads; [None]: the node does not have it (381-382) *)
Record mm_attrs := MMAttrs { transpose_a : option Z; transpose_b : option Z; adjoint_a : option Z; adjoint_b : option Z; adj_x : option Z; adj_y : option Z;
  a_is_sparse : option Z; b_is_sparse : option Z }.
Definition attr_val (o : option Z) : Z := match o with None => 0%Z | Some z => z end.
Definition is_type (l : list string) (t : option string) : bool := match t with Some t => existsb (String.eqb t) l | None => false end.
(** perm of 394-399 and 404-409: the last two axes are swapped; an IndexError for rank 1 *)
Definition swap_last (r : nat) : option (list nat) := if Nat.leb 2 r then Some (seq 0 (r - 2) ++ [r - 1; r - 2]) else None.
(** 391-400 and 402-411: nothing happens when the recorded shape is unknown or [] *)
Definition transposed (t : Z) (rank : option nat) (e : mexpr) : option mexpr :=
  if Z.eqb t 0 then Some e
  else match rank with
       | None | Some 0 => Some e
       | Some r => option_map (fun p => MTranspose p e) (swap_last r)
       end.
(** MatMul.version_1, 371-417; [integer]: version_10 has made it a MatMulInteger.  [ra], [rb]: recorded ranks of the operands,
    [ty]: recorded type of the result *)
Definition version_1 (at_ : mm_attrs) (ty : option string) (ra rb : option nat) (mk : mexpr -> mexpr -> mexpr) : option mexpr :=
  let rest := [attr_val (adjoint_a at_); attr_val (adjoint_b at_); attr_val (adj_x at_); attr_val (adj_y at_)] in
  if existsb (fun z => negb (Z.eqb z 0)) rest && negb (is_type ["FLOAT"; "FLOAT16"; "DOUBLE"]%string ty) then None
  else
    let ta := Z.modulo (attr_val (transpose_a at_) + attr_val (adjoint_a at_) + attr_val (adj_x at_)) 2 in
    let tb := Z.modulo (attr_val (transpose_b at_) + attr_val (adjoint_b at_) + attr_val (adj_y at_)) 2 in
    match transposed ta ra (MIn 0), transposed tb rb (MIn 1) with
    | Some a, Some b =>
        if negb (Z.eqb (attr_val (a_is_sparse at_)) 0) || negb (Z.eqb (attr_val (b_is_sparse at_)) 0) then None else Some (mk a b)
    | _, _ => None
    end.
(** MatMul.version_10, 418-429 *)
Definition matmul (opset : nat) (at_ : mm_attrs) (t1 t2 ty : option string) (ra rb : option nat) : option mexpr :=
  let int8 := is_type ["INT8"; "UINT8"]%string in
  if Nat.leb 10 opset && (int8 t1 && int8 t2 && is_type ["INT32"%string] ty)
  then version_1 at_ ty ra rb (fun a b => MMatMulInteger a b 0 0)
  else version_1 at_ ty ra rb MMatMul.

(** bytes.lower, 842 *)
Definition lower (c : ascii) : ascii := let n := nat_of_ascii c in if Nat.leb 65 n && Nat.leb n 90 then ascii_of_nat (n + 32) else c.
(** eqn.split('->'), 847 *)
Fixpoint split_arrow (cur l : list ascii) : list (list ascii) :=
  match l with
  | [] => [cur]
  | c :: l' =>
      match l' with
      | c' :: l'' => if Ascii.eqb c "-"%char && Ascii.eqb c' ">"%char then cur :: split_arrow [] l'' else split_arrow (cur ++ [c]) l'
      | [] => split_arrow (cur ++ [c]) l'
      end
  end.
(** lhs.split(','), 849 *)
Fixpoint split_comma (cur l : list ascii) : list (list ascii) :=
  match l with
  | [] => [cur]
  | c :: l' => if Ascii.eqb c ","%char then cur :: split_comma [] l' else split_comma (cur ++ [c]) l'
  end.
(** len(set(t)) < len(t) *)
Definition repeated (t : list ascii) : bool := Nat.ltb (length (nodup ascii_dec t)) (length t).
Fixpoint eq_list (a b : list ascii) : bool :=
  match a, b with [], [] => true | x :: a', y :: b' => Ascii.eqb x y && eq_list a' b' | _, _ => false end.
(** should_replace_with_matmul, 843-873: [Some transpose_t2] = (True, transpose_t2).  Without an arrow rhs is the sorted list of the
    terms (853); its last entry has more than one letter, so that it is not one of the letters of t2 and the answer is False *)
Definition should_replace (eqn : list ascii) : option bool :=
  let parts := split_arrow [] eqn in
  match parts with
  | lhs :: rhs :: _ =>
      match split_comma [] lhs with
      | [t1; t2] =>
          if existsb (fun t => repeated t || Nat.ltb (length t) 2) [t1; t2; rhs] then None
          else match t2, rev rhs, rev t1 with
               | [c0; c1], j :: i :: rhs', k' :: i' :: t1' =>
                   match (if Ascii.eqb c0 j then Some (c1, true) else if Ascii.eqb c1 j then Some (c0, false) else None) with
                   | Some (k, tr) => if Ascii.eqb i' i && Ascii.eqb k' k && eq_list t1' rhs' then Some tr else None
                   | None => None
                   end
               | _, _, _ => None
               end
      | _ => None
      end
  | _ => None
  end.
(** Einsum.version_12, 839-880 *)
Definition einsum (equation : list ascii) : mexpr :=
  let eqn := map lower equation in
  match should_replace eqn with
  | Some tr => MMatMul (MIn 0) (if tr then MTranspose [1; 0] (MIn 1) else MIn 1)
  | None => MEinsum eqn
  end.
