(** What constant folding assumes about the operators and the graph: the hypotheses of C17 at graph level. *)
From Coq Require Import String List.
From Verif Require Import FGraph FGraphSpec MergeSpec.
Import ListNotations.
Local Open Scope string_scope.

Section S.
Variable V : Type.
Variable op_rel : string -> string -> list (string * attr) -> nat -> list V ->
                  list (list V -> list V -> Prop) -> list V -> Prop.
Variable cval : list (string * attr) -> option V.
Variable enc : V -> list (string * attr).
Variable func_map : string -> option (list (string * attr) -> nat -> list V -> option (list V)).

(** a constant node has the value stored in it *)
Definition const_meaning : Prop :=
  (forall op dom at_ vs, op = "Const" \/ op = "ConstV2" ->
     (op_rel op dom at_ 1 [] [] vs <-> exists v, cval at_ = Some v /\ vs = [v])) /\
  forall v, cval (enc v) = Some v.
(** a folding function that returns values returns those of the ONNX operator, for nodes with acceptable
    attributes and number of outputs (proved for the functions of the code in C17's first theorems) *)
Variable ok : string -> list (string * attr) -> nat -> Prop.
Definition fold_agrees : Prop :=
  forall op f at_ k ins vs dom vs', func_map op = Some f -> ok op at_ k -> f at_ k ins = Some vs -> dom = "" \/ dom = "ai.onnx" ->
    (op_rel op dom at_ k ins [] vs' <-> vs' = vs).
Record foldable_shape (g : fgraph) : Prop := {
  fs_named : forall n, In n (f_nodes g) -> ~ In "" (f_out n);
  fs_const : forall n, In n (f_nodes g) -> constant n -> f_in n = [] /\ f_bodies n = [] /\ exists t, f_out n = [t];
  fs_flat : forall n, In n (f_nodes g) -> ~ constant n -> func_map (f_op n) <> None ->
    f_bodies n = [] /\ ok (f_op n) (f_attrs n) (length (f_out n)) }.
(** the names handed out from counter c on do not occur in the graph *)
Definition fresh_names (mk_name : nat -> string) (g : fgraph) (c : nat) : Prop :=
  (forall k k', mk_name k = mk_name k' -> k = k') /\ (forall k, mk_name k <> "") /\
  forall k, c <= k -> ~ In (mk_name k) (alldefs g) /\ ~ In (mk_name k) (fv_graph g) /\
                      ~ In (mk_name k) (map f_name (f_nodes g)).
End S.
