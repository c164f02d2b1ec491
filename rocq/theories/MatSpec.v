(** Matrix products of stacks of matrices (TensorFlow's MatMul / BatchMatMul, ONNX's MatMul and MatMulInteger) and Einsum.
    The sum of products over one or more labels is left open: [dot] is any function of the list of the groups of values
    that are multiplied with each other, in the order of their indices. *)
From Coq Require Import String Ascii List Arith ZArith Bool.
From Verif Require Import Tensor FoldModel OnnxSpec TOps.
Import ListNotations.
Local Open Scope list_scope.

Section Values.
Context {A : Type}.
Variable dot : list (list A) -> A.

(** the products that are added: a at [f l] times b at [g l] for l = 0, 1, ..., k - 1 *)
Definition products (a b : tensor A) (k : nat) (f g : nat -> list nat) (row : list (list A)) : Prop :=
  length row = k /\ forall l, l < k -> exists u v, nth_error row l = Some [u; v] /\ get a (f l) = Some u /\ get b (g l) = Some v.
(** ** TensorFlow: the product of two stacks of matrices, each matrix of a (of b) read transposed if [ta] ([tb]); the leading
    dimensions are broadcast against each other *)
Definition tf_matmul (ta tb : bool) (a b y : tensor A) : Prop :=
  exists sa sb sy m k n, wf a /\ wf b /\ wf y /\
    shape a = sa ++ (if ta then [k; m] else [m; k]) /\ shape b = sb ++ (if tb then [n; k] else [k; n]) /\
    (let r := Nat.max (length sa) (length sb) in
     bcast_dims (pad_ones r sa) (pad_ones r sb) = Some sy /\ shape y = sy ++ [m; n] /\
     forall ix i j, inb ix sy -> i < m -> j < n -> exists row,
       products a b k (fun l => bcast_ix r sa ix ++ (if ta then [l; i] else [i; l])) (fun l => bcast_ix r sb ix ++ (if tb then [j; l] else [l; j])) row /\
       get y (ix ++ [i; j]) = Some (dot row)).

(** ** ONNX MatMul of operands with at least two dimensions *)
Fixpoint all_some {X} (l : list (option X)) : option (list X) :=
  match l with [] => Some [] | Some x :: l' => option_map (cons x) (all_some l') | None :: _ => None end.
Definition pair_of (u v : option A) : option (list A) := match u, v with Some u, Some v => Some [u; v] | _, _ => None end.
Definition f_matmul (a b : tensor A) : option (tensor A) :=
  match rev (shape a), rev (shape b) with
  | k :: m :: ra, n :: k' :: rb =>
      if Nat.eqb k k' then
        let sa := rev ra in let sb := rev rb in let r := Nat.max (length sa) (length sb) in
        match bcast_dims (pad_ones r sa) (pad_ones r sb) with
        | None => None
        | Some sy =>
            build (sy ++ [m; n]) (fun ixij =>
              let ix := firstn (length sy) ixij in let i := nth (length sy) ixij 0 in let j := nth (S (length sy)) ixij 0 in
              option_map dot (all_some (map (fun l => pair_of (get a (bcast_ix r sa ix ++ [i; l])) (get b (bcast_ix r sb ix ++ [l; j]))) (seq 0 k))))
        end
      else None
  | _, _ => None
  end.

(** ** Einsum: one group of labels for each operand, and those of the result *)
Fixpoint position (c : ascii) (l : list ascii) : option nat :=
  match l with [] => None | c' :: l' => if Ascii.eqb c c' then Some 0 else option_map S (position c l') end.
(** the labels to be summed over: those of the operands that are not in the result *)
Definition summed (terms : list (list ascii)) (rhs : list ascii) : list ascii :=
  filter (fun c => negb (existsb (Ascii.eqb c) rhs)) (nodup ascii_dec (concat terms)).
(** the values of the labels [s] are replaced by [jx] *)
Definition assign (s : list ascii) (jx : list nat) (env : ascii -> nat) (c : ascii) : nat :=
  match position c s with Some p => nth p jx 0 | None => env c end.
Definition einsum_rel (terms : list (list ascii)) (rhs : list ascii) (xs : list (tensor A)) (y : tensor A) : Prop :=
  NoDup rhs /\ incl rhs (concat terms) /\
  exists dim : ascii -> nat, Forall2 (fun t x => wf x /\ shape x = map dim t) terms xs /\ wf y /\ shape y = map dim rhs /\
    forall env, (forall c, In c rhs -> env c < dim c) ->
      let s := summed terms rhs in let n := size (map dim s) in
      exists rows, length rows = n /\
        (forall q, q < n -> exists vs, nth_error rows q = Some vs /\
           Forall2 (fun tx v => get (snd tx) (map (assign s (unravel (map dim s) q) env) (fst tx)) = Some v) (combine terms xs) vs) /\
        get y (map env rhs) = Some (dot rows).
End Values.

(** an equation as text: "ab,bc->ac" *)
Fixpoint commas (terms : list (list ascii)) : list ascii :=
  match terms with [] => [] | [t] => t | t :: ts => t ++ ","%char :: commas ts end.
Definition render (terms : list (list ascii)) (rhs : list ascii) : list ascii := commas terms ++ "-"%char :: ">"%char :: rhs.
Definition letter (c : ascii) : Prop := let n := nat_of_ascii c in (65 <= n <= 90) \/ (97 <= n <= 122).

(** ** ONNX graphs with these operators; [dot8 za zb] is the dot product of integers after the subtraction of the zero points *)
Inductive mexpr :=
| MIn (i : nat)
| MTranspose (perm : list nat) (e : mexpr)
| MMatMul (e1 e2 : mexpr)
| MMatMulInteger (e1 e2 : mexpr) (za zb : Z)
(** Einsum of the inputs of the graph *)
| MEinsum (eqn : list ascii).
Section Graphs.
Context {A : Type}.
Variable dot : list (list A) -> A.
(** an integer less a zero point *)
Variable less : A -> Z -> A.
Fixpoint mval (xs : list (tensor A)) (e : mexpr) (y : tensor A) : Prop :=
  match e with
  | MIn i => nth_error xs i = Some y
  | MTranspose perm e => exists x, mval xs e x /\ f_transpose (Some perm) x = Some y
  | MMatMul e1 e2 => exists a b, mval xs e1 a /\ mval xs e2 b /\ f_matmul dot a b = Some y
  | MMatMulInteger e1 e2 za zb => exists a b, mval xs e1 a /\ mval xs e2 b /\
      f_matmul dot (f_unary (fun v => less v za) a) (f_unary (fun v => less v zb) b) = Some y
  | MEinsum eqn => exists terms rhs, eqn = render terms rhs /\ Forall (Forall letter) terms /\ Forall letter rhs /\ einsum_rel dot terms rhs xs y
  end.
End Graphs.

(** ** flags of the nodes: 0, 1 or missing *)
Definition is_flag (o : option Z) : Prop := o = None \/ o = Some 0%Z \/ o = Some 1%Z.
Definition on (o : option Z) : bool := match o with Some 1%Z => true | _ => false end.
