(** What the layout options and the construction of a graph have to preserve; independent of the model. *)
From Coq Require Import String List ZArith.
From Verif Require Import FGraph FGraphSpec Tensor OnnxSpec.
Import ListNotations.
Local Open Scope string_scope.
Local Open Scope list_scope.

(** the operator Transpose on tensors *)
Definition transpose_meaning {A} (op_rel : string -> string -> list (string * attr) -> nat -> list (tensor A) ->
                     list (list (tensor A) -> list (tensor A) -> Prop) -> list (tensor A) -> Prop) : Prop :=
  forall (p : list nat) v vs, op_rel "Transpose" "" [("perm", AInts (map Z.of_nat p))] 1 [v] [] vs <-> exists y, vs = [y] /\ transpose_rel p v y.

(** y is the image batch x (batch, height, width, channels) with the channels moved before height and width *)
Definition nchw_of {A} (x y : tensor A) : Prop :=
  exists N H W C, shape x = [N; H; W; C] /\ shape y = [N; C; H; W] /\ wf x /\ wf y /\
    forall n h w c, n < N -> h < H -> w < W -> c < C -> get y [n; c; h; w] = get x [n; h; w; c].

(** a run of graph g in the surroundings r: a value for every tensor, such that every node's equation holds *)
Definition run {V} op_rel (r r' : string -> V) (g : fgraph) : Prop :=
  (forall t, ~ In t (defs g) -> r' t = r t) /\ all_hold op_rel r' (f_nodes g).
(** two lists of values, one per name, agree except that the named ones are in the other layout *)
Definition relayout {A} (named names : list string) (vs vs' : list (tensor A)) : Prop :=
  length vs = length names /\ length vs' = length names /\
  forall k x a a', nth_error names k = Some x -> nth_error vs k = Some a -> nth_error vs' k = Some a' ->
    (In x named -> nchw_of a a') /\ (~ In x named -> a' = a).
(** the same for two runs, at the names of graph g *)
Definition runs_relayout {A} (named : list string) (g : fgraph) (r1 r2 : string -> tensor A) : Prop :=
  forall x, In x (defs g) -> (In x named -> nchw_of (r1 x) (r2 x)) /\ (~ In x named -> r2 x = r1 x).
(** a recorded shape is right for a value; -1 = unknown *)
Definition shape_ok {A} (s : list Z) (v : tensor A) : Prop := Forall2 (fun z n => z = (-1)%Z \/ z = Z.of_nat n) s (shape v).

(** names that do not occur *)
Definition unused (g : fgraph) (t : string) : Prop := ~ In t (alldefs g) /\ ~ In t (fv_graph g) /\ t <> "".
(** new node and tensor names for the tensors in l *)
Definition supply (g : fgraph) (l : list string) (node_name tensor_name : string -> string) : Prop :=
  (forall x, In x l -> unused g (tensor_name x) /\ ~ In (node_name x) (map f_name (f_nodes g))) /\
  (forall x y, In x l -> In y l -> x <> y -> node_name x <> node_name y /\ tensor_name x <> tensor_name y).
(** the recorded shape says rank 4 *)
Definition rank4 (sh : string -> option (list Z)) (x : string) : bool := match sh x with Some s => Nat.eqb (length s) 4 | None => false end.
(** output o is computed by an Identity whose input is used for nothing else, and o is used for nothing in the graph *)
Definition private_output (g : fgraph) (o : string) : Prop :=
  exists d x, In d (f_nodes g) /\ f_op d = "Identity" /\ f_in d = [x] /\ f_out d = [o] /\ f_bodies d = [] /\ In x (defs g) /\ o <> "" /\
    ~ In x (f_outs g) /\ (forall m, In m (f_nodes g) -> In x (fv_node m) -> m = d) /\ (forall m, In m (f_nodes g) -> ~ In o (fv_node m)).
(** every recorded shape is right in a run *)
Definition shapes_right {A} (sh : string -> option (list Z)) (r : string -> tensor A) (g : fgraph) : Prop :=
  forall y s, In y (defs g) -> sh y = Some s -> shape_ok s (r y).
(** the values of all tensors of g are the same in g' *)
Definition same_values {V} (op_rel : string -> string -> list (string * attr) -> nat -> list V -> list (list V -> list V -> Prop) -> list V -> Prop) (g g' : fgraph) : Prop :=
  (forall r r', run op_rel r r' g -> exists r'', run op_rel r r'' g' /\ forall x, In x (defs g) -> r'' x = r' x) /\
  (forall r r'', run op_rel r r'' g' -> exists r', run op_rel r r' g /\ forall x, In x (defs g) -> r'' x = r' x).
