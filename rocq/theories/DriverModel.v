(** Model of the optimizer driver, tf2onnx/optimizer/__init__.py:45-95 (optimize_graph), with graphs as mutable
    objects in a heap, so that sharing between the caller's graph and the working copy is visible. *)
From Coq Require Import List Arith Bool.
Import ListNotations.

Section Driver.
Variable G : Type.   (* the contents of a Graph object, bodies included *)

Record heap := Heap { obj : nat -> option G; next : nat }.
Definition write (h : heap) (r : nat) (g : G) : heap :=
  Heap (fun k => if Nat.eqb k r then Some g else obj h k) (next h).
(** copy.deepcopy: a new object with equal contents (Graph defines no __deepcopy__) *)
Definition deepcopy (h : heap) (r : nat) : option (heap * nat) :=
  match obj h r with
  | None => None
  | Some g => Some (Heap (fun k => if Nat.eqb k (next h) then Some g else obj h k) (S (next h)), next h)
  end.

(** what opt.optimize(graph, iteration) does: it may mutate the heap, then it raises or returns a graph (or None), with
    opt.graph_been_opt as it is then *)
Inductive outcome := Raised | Returned (r : option nat) (been_opt : bool).
Definition optimizer := nat -> heap -> nat -> heap * outcome.
(** graph.topological_sort in place; the flag tells whether it raised *)
Variable topo_sort : heap -> nat -> heap * bool.

(** one optimizer, lines 58-72: result heap, current graph, continue_flag; [None] = the exception leaves optimize_graph *)
Definition apply_one (catch : bool) (it : nat) (o : optimizer) (st : heap * nat * bool) : option (heap * nat * bool) :=
  let '(h, r, flag) := st in
  if catch then
    match deepcopy h r with
    | None => None
    | Some (h1, cur) =>
        match o it h1 cur with
        | (h2, Raised) => Some (h2, r, flag)
        | (h2, Returned res been) => Some (h2, match res with Some r' => r' | None => r end, flag || been)
        end
    end
  else match o it h r with
       | (h2, Raised) => None
       | (h2, Returned (Some r') been) => Some (h2, r', flag || been)
       | (h2, Returned None been) => None   (* graph becomes None: the next use raises *)
       end.
Fixpoint apply_all (catch : bool) (it : nat) (os : list optimizer) (st : heap * nat * bool) : option (heap * nat * bool) :=
  match os with
  | [] => Some st
  | o :: os' => match apply_one catch it o st with None => None | Some st' => apply_all catch it os' st' end
  end.
(** lines 55-73: the while loop.  [None] = an exception; out of fuel is [Some None] *)
Fixpoint rounds (fuel : nat) (catch : bool) (it : nat) (os : list optimizer) (h : heap) (r : nat) : option (option (heap * nat)) :=
  match fuel with
  | O => Some None
  | S fuel' =>
      match apply_all catch it os (h, r, false) with
      | None => None
      | Some (h', r', true) => rounds fuel' catch (S it) os h' r'
      | Some (h', r', false) => Some (Some (h', r'))
      end
  end.
(** lines 45-95 *)
Definition optimize_graph (fuel : nat) (catch : bool) (os : list optimizer) (h : heap) (r : nat) : option (option (heap * nat)) :=
  match rounds fuel catch 0 os h r with
  | Some (Some (h', r')) => Some (Some (fst (topo_sort h' r'), r'))
  | x => x
  end.
End Driver.
