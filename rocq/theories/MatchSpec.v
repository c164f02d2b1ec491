(** Specification for C28: what it means for the graph below a node to have the shape of a pattern. *)
From Coq Require Import Ascii String List Permutation.
From Verif Require Import MatchModel.
Import ListNotations.
Local Open Scope string_scope. Local Open Scope list_scope.

Definition no_bar (s : string) : Prop := forall a b, s <> (a ++ "|" ++ b)%string.
(** [t] is one of the alternatives of "A|B|C" *)
Definition alternative (t alts : string) : Prop :=
  alts <> "" /\ exists parts, In t parts /\ (forall x, In x parts -> no_bar x) /\ alts = String.concat "|" parts.

Section MatchSpec.
Variable g : graph.
Variable default_reorder : bool.
Definition reorder_allowed (p : pattern) : bool := match preorder p with Some b => b | None => default_reorder end.

(** "*" accepts every op, also a missing one *)
Inductive type_ok : string -> option nat -> Prop :=
| type_any op : type_ok "*" op
| type_alt ty o : alternative (gtype (g o)) ty -> type_ok ty (Some o).

(** [fits p op tensor bs]: the graph above [op] (the producer of [tensor]) has the shape [p], with the bindings [bs] *)
Inductive fits : pattern -> option nat -> option string -> list binding -> Prop :=
| fits_anything p op t : ptype p = None -> fits p op t []
| fits_leaf p ty op t : ptype p = Some ty -> type_ok ty op -> pinputs p = [] -> fits p op t [(p, op, t)]
| fits_node p ty o t ins bs : ptype p = Some ty -> type_ok ty (Some o) -> pinputs p <> [] ->
    (if reorder_allowed p then Permutation (pinputs p) ins else pinputs p = ins) ->
    fits_inputs ins (ginputs (g o)) bs -> fits p (Some o) t ((p, Some o, t) :: bs)
with fits_inputs : list pattern -> list (string * option nat) -> list binding -> Prop :=
| fits_nil : fits_inputs [] [] []
| fits_cons p ps t op xs b bs : fits p op (Some t) b -> fits_inputs ps xs bs -> fits_inputs (p :: ps) ((t, op) :: xs) (b ++ bs).

(** no node reads a tensor nobody produces *)
Definition closed : Prop := forall o x, In x (ginputs (g o)) -> snd x <> None.
End MatchSpec.

(** the pattern elements a successful match must bind: all but the ones of type None (which accept anything) and what is
    below them *)
Fixpoint elements (p : pattern) : list nat :=
  match p with Pat i nm None r ins => [] | Pat i nm (Some t) r ins => i :: flat_map elements ins end.
