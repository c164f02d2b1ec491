(** C16: merging duplicated nodes. *)
From Coq Require Import String List Bool Arith ZArith Lia.
From Verif Require Import FGraph FGraphSpec DeadSpec ExecSpec RewriteProofs MergeModel MergeSpec MergeProofs ValidCheck.
Import ListNotations.
Local Open Scope string_scope.
Local Open Scope list_scope.

(** C16, partial: for every valid model in which equal-looking nodes really are equal ([mergeable]: same
    operator set, same number of outputs where it matters, equal constants mean the same) and for all
    deterministic operators, the optimizer succeeds, the result is a valid model with the same inputs and
    outputs, and computes the same thing.  Missing from the full claim: graphs that are not [mergeable] and
    non-deterministic operators, for which it is false (below). *)
Theorem C16_merge_preserves_partial :
  forall V (op_rel : string -> string -> list (string * attr) -> nat -> list V ->
                     list (list V -> list V -> Prop) -> list V -> Prop)
    (const_eq : list (string * attr) -> list (string * attr) -> bool) (hash : list (string * attr) -> Z) g,
    op_ext op_rel -> op_det op_rel ->
    (forall a b, const_eq a b = true -> const_eq b a = true) ->
    (forall a b c, const_eq a b = true -> const_eq b c = true -> const_eq a c = true) ->
    valid g -> named_outputs g -> mergeable const_eq op_rel g ->
    exists g', merge_rounds const_eq hash (S (length (f_nodes g))) g = Some g' /\
      valid g' /\ f_ins g' = f_ins g /\ f_outs g' = f_outs g /\
      forall r args res, body_rel op_rel r g args res <-> body_rel op_rel r g' args res.
Proof.
  intros V op_rel ceq hash g ext det sy tr [rk Hg] Hn Hm.
  destruct (merge_rounds_spec ceq hash V op_rel ext det sy tr (S (length (f_nodes g))) rk g) as (g' & rk' & E & (O & _) & Q & Ei & Eo & _).
  - split; [exact Hg|]. split; [exact Hm|]. intros n Hin. exact (Hn g n (within_refl g) Hin).
  - lia.
  - exists g'. split; [exact E|]. split; [exists rk'; exact O|]. auto.
Qed.
Print Assumptions C16_merge_preserves_partial.

(** and nothing is left to merge: any two remaining nodes of the same operator reading the same inputs, with
    the same attributes and no bodies, are Identity nodes, or one of them gives a graph output *)
Theorem C16_no_duplicates_left :
  forall V (op_rel : string -> string -> list (string * attr) -> nat -> list V ->
                     list (list V -> list V -> Prop) -> list V -> Prop)
    (const_eq : list (string * attr) -> list (string * attr) -> bool) (hash : list (string * attr) -> Z) g,
    op_ext op_rel -> op_det op_rel ->
    (forall a b, const_eq a b = true -> const_eq b a = true) ->
    (forall a b c, const_eq a b = true -> const_eq b c = true -> const_eq a c = true) ->
    valid g -> named_outputs g -> mergeable const_eq op_rel g ->
    exists g', merge_rounds const_eq hash (S (length (f_nodes g))) g = Some g' /\
      forall n m, In n (f_nodes g') -> In m (f_nodes g') -> f_name n <> f_name m ->
        f_op n = f_op m -> f_in n = f_in m -> f_attrs n = f_attrs m -> f_bodies n = [] -> f_bodies m = [] ->
        f_op n = "Identity" \/ exists o, (In o (f_out n) \/ In o (f_out m)) /\ In o (f_outs g').
Proof.
  intros V op_rel ceq hash g ext det sy tr [rk Hg] Hn Hm.
  destruct (merge_rounds_spec ceq hash V op_rel ext det sy tr (S (length (f_nodes g))) rk g) as (g' & rk' & E & _ & _ & _ & _ & F).
  - split; [exact Hg|]. split; [exact Hm|]. intros n Hin. exact (Hn g n (within_refl g) Hin).
  - lia.
  - exists g'. split; [exact E|]. intros n m In1 In2 Ne E1 E2 E3 B1 B2.
    destruct (string_dec (f_op n) "Identity") as [I|I]; [left; exact I|right]. apply (F n m In1 In2 Ne I).
    + unfold same_key, key_hash, is_const. rewrite E1, E2, E3, String.eqb_refl.
      destruct (list_eq_dec string_dec (f_in m) (f_in m)) as [_|K]; [|congruence].
      destruct (String.eqb (f_op m) "Const" || String.eqb (f_op m) "ConstV2"); cbn; auto. apply Z.eqb_refl.
    + left. auto.
Qed.
Print Assumptions C16_no_duplicates_left.

(** ** Witness: two equal constants, two equal Adds, one used inside a body; two more Abs at the outputs *)
Definition m_body : fgraph := FGraph [FNode "badd" "Add" "" [] ["a2"; "bx"] ["by"] []] ["bx"] ["by"].
Definition m_graph : fgraph :=
  FGraph [FNode "c1" "Const" "" [("value", ATensor 7)] [] ["k1"] [];
          FNode "c2" "Const" "" [("value", ATensor 7); ("name", AStr "other")] [] ["k2"] [];
          FNode "add1" "Add" "" [] ["x"; "k1"] ["a1"] [];
          FNode "add2" "Add" "" [] ["x"; "k2"] ["a2"] [];
          FNode "loop" "Loop" "" [] ["a1"] ["l"] [m_body];
          FNode "abs1" "Abs" "" [] ["l"] ["out"] [];
          FNode "abs2" "Abs" "" [] ["l"] ["out2"] []] ["x"] ["out"; "out2"].
Definition m_ceq (a b : list (string * attr)) : bool :=
  match a, b with
  | ("value", ATensor i) :: _, ("value", ATensor j) :: _ => Nat.eqb i j
  | _, _ => false
  end.
(** a meaning: a constant is its tensor, everything else adds up its inputs *)
Definition m_op (op _dom : string) (at_ : list (string * attr)) (_k : nat) (ins : list nat)
                (_bs : list (list nat -> list nat -> Prop)) (vs : list nat) : Prop :=
  if String.eqb op "Const" then match at_ with ("value", ATensor i) :: _ => vs = [i] | _ => vs = [0] end
  else vs = [fold_right Nat.add 0 ins].
Example C16_witness :
  valid m_graph /\ named_outputs m_graph /\ mergeable m_ceq m_op m_graph /\ op_ext m_op /\ op_det m_op /\
  merge_rounds m_ceq (fun _ => 0%Z) 8 m_graph =
    Some (FGraph [FNode "c1" "Const" "" [("value", ATensor 7)] [] ["k1"] [];
                  FNode "add1" "Add" "" [] ["x"; "k1"] ["a1"] [];
                  FNode "loop" "Loop" "" [] ["a1"] ["l"] [FGraph [FNode "badd" "Add" "" [] ["a1"; "bx"] ["by"] []] ["bx"] ["by"]];
                  FNode "abs1" "Abs" "" [] ["l"] ["out"] [];
                  FNode "abs2" "Abs" "" [] ["l"] ["out2"] []] ["x"] ["out"; "out2"]).
Proof.
  split; [apply (valid_check_spec [("x", 1); ("k1", 1); ("k2", 1); ("a1", 2); ("a2", 2); ("bx", 1); ("by", 3); ("l", 4); ("out", 5); ("out2", 5)]); vm_compute; reflexivity|].
  split; [apply named_check; vm_compute; reflexivity|].
  assert (Hd : forall n, In n (f_nodes m_graph) -> f_dom n = "" /\ length (f_out n) = 1).
  { intros n Hn. cbn in Hn. repeat (destruct Hn as [<-|Hn]; [cbn; auto|]). contradiction. }
  split.
  - constructor.
    + intros n m Hn Hm _. destruct (Hd n Hn) as [-> ->], (Hd m Hm) as [-> ->]. auto.
    + intros n m Hn Hm Eo Cn Cm Ee dom k ins bs vs. unfold m_op. destruct (String.eqb (f_op n) "Const"); [|reflexivity].
      unfold m_ceq in Ee. destruct (f_attrs n) as [|[s1 a1] l1]; [discriminate|]. destruct (f_attrs m) as [|[s2 a2] l2].
      { destruct (String.eqb_spec s1 "value") as [->|Ns]; [destruct a1; discriminate|].
        repeat (match goal with H : match ?x with _ => _ end = true |- _ => destruct x; try discriminate end). }
      cbn in Hn, Hm. clear Hd.
      repeat (match goal with H : match ?x with _ => _ end = true |- _ => destruct x; try discriminate end).
      all: apply Nat.eqb_eq in Ee; subst; reflexivity.
    + intros n Hn Cn. cbn in Hn. repeat (destruct Hn as [<-|Hn]; [first [reflexivity|destruct Cn; discriminate]|]). contradiction.
  - split; [intros o d a k i bs bs' vs _ H; exact H|]. split; [|reflexivity].
    intros o d a k i bs vs vs'. unfold m_op. destruct (String.eqb o "Const"); [|congruence].
    destruct a as [|[s at1] l]; [congruence|]. intros H H'.
    repeat (match goal with H : match ?x with _ => _ end |- _ => destruct x; try congruence end).
Qed.

(** ** The full claim is false *)
(** the operator set is ignored: two operators with one name in different domains are merged *)
Definition dom_graph : fgraph :=
  FGraph [FNode "f1" "Gelu" "" [] ["x"] ["a"] []; FNode "f2" "Gelu" "com.microsoft" [] ["x"] ["b"] [];
          FNode "s" "Sub" "" [] ["a"; "b"] ["out"] []] ["x"] ["out"].
Definition dom_op (op dom : string) (_ : list (string * attr)) (_ : nat) (ins : list Z)
                (_ : list (list Z -> list Z -> Prop)) (vs : list Z) : Prop :=
  vs = [if String.eqb op "Sub" then match ins with [a; b] => (a - b)%Z | _ => 0%Z end
        else match ins with a :: _ => if String.eqb dom "" then a else (a + 1)%Z | [] => 0%Z end].
(** different numbers of outputs: a Split of 4 values into 2 parts is replaced by one into 4 parts *)
Definition split_graph : fgraph :=
  FGraph [FNode "s2" "Split" "" [] ["x"] ["p"; "q"] []; FNode "s4" "Split" "" [] ["x"] ["a"; "b"; "c"; "d"] [];
          FNode "id" "Concat" "" [] ["p"] ["out"] []; FNode "id2" "Concat" "" [] ["a"; "b"; "c"; "d"] ["out2"] []] ["x"] ["out"; "out2"].
Fixpoint chunks (k : nat) (n : nat) (l : list nat) : list (list nat) :=
  match n with O => [] | S n' => firstn k l :: chunks k n' (skipn k l) end.
Definition split_op (op _dom : string) (_ : list (string * attr)) (k : nat) (ins : list (list nat))
                (_ : list (list (list nat) -> list (list nat) -> Prop)) (vs : list (list nat)) : Prop :=
  vs = if String.eqb op "Split" then match ins with l :: _ => chunks (Nat.div (length l) k) k l | [] => [] end else [concat ins].

Theorem C16_merge_preserves_refuted :
  (exists g g' : fgraph, valid g /\ named_outputs g /\ op_ext dom_op /\ op_det dom_op /\
     merge_rounds (fun _ _ => false) (fun _ => 0%Z) 4 g = Some g' /\
     exists r, body_rel dom_op r g [5%Z] [(-1)%Z] /\ ~ body_rel dom_op r g' [5%Z] [(-1)%Z]) /\
  (exists g g' : fgraph, valid g /\ named_outputs g /\ op_ext split_op /\ op_det split_op /\
     merge_rounds (fun _ _ => false) (fun _ => 0%Z) 5 g = Some g' /\
     exists r, body_rel split_op r g [[1; 2; 3; 4]] [[1; 2]; [1; 2; 3; 4]] /\
              ~ body_rel split_op r g' [[1; 2; 3; 4]] [[1; 2]; [1; 2; 3; 4]]).
Proof.
  split.
  - exists dom_graph. eexists.
    split; [apply (valid_check_spec [("x", 1); ("a", 2); ("b", 2); ("out", 3)]); vm_compute; reflexivity|].
    split; [apply named_check; vm_compute; reflexivity|].
    split; [intros o d a k i bs bs' vs _ H; exact H|]. split; [unfold op_det, dom_op; intros; congruence|].
    split; [vm_compute; reflexivity|]. exists (fun _ => 0%Z). split.
    + apply body_rel_eq. exists (fun t => if String.eqb t "x" then 5%Z else if String.eqb t "a" then 5%Z else if String.eqb t "b" then 6%Z else if String.eqb t "out" then (-1)%Z else 0%Z).
      split; [|split; [reflexivity|split; [|reflexivity]]].
      * intros t Ht. destruct (String.eqb_spec t "x"); [subst; exfalso; apply Ht; cbn; auto|].
        destruct (String.eqb_spec t "a"); [subst; exfalso; apply Ht; cbn; auto|].
        destruct (String.eqb_spec t "b"); [subst; exfalso; apply Ht; cbn; auto|].
        destruct (String.eqb_spec t "out"); [subst; exfalso; apply Ht; cbn; auto|reflexivity].
      * intros n Hn. cbn in Hn. repeat (destruct Hn as [<-|Hn]; [apply holds_eq; eexists; split; [reflexivity|]; intros [|k] o Ho _; [injection Ho as <-; reflexivity|destruct k; discriminate]|]). contradiction.
    + intro H. apply body_rel_eq in H. destruct H as (r' & _ & Hi & Ha & Ho).
      injection Hi as Hx. injection Ho as Hout.
      assert (H1 := Ha _ (or_introl eq_refl)). assert (H2 := Ha _ (or_intror (or_introl eq_refl))).
      apply holds_eq in H1, H2. destruct H1 as (v1 & E1 & P1), H2 as (v2 & E2 & P2). unfold dom_op in E1, E2. cbn in E1, E2. subst v1 v2.
      specialize (P1 0 "a" eq_refl ltac:(discriminate)). specialize (P2 0 "out" eq_refl ltac:(discriminate)). cbn in P1, P2.
      injection P1 as P1. injection P2 as P2. rewrite Hout in P2. lia.
  - exists split_graph. eexists.
    split; [apply (valid_check_spec [("x", 1); ("p", 2); ("q", 2); ("a", 2); ("b", 2); ("c", 2); ("d", 2); ("out", 3); ("out2", 3)]); vm_compute; reflexivity|].
    split; [apply named_check; vm_compute; reflexivity|].
    split; [intros o d a k i bs bs' vs _ H; exact H|]. split; [unfold op_det, split_op; intros; congruence|].
    split; [vm_compute; reflexivity|]. exists (fun _ => []). split.
    + apply body_rel_eq. exists (fun t => if String.eqb t "x" then [1; 2; 3; 4] else if String.eqb t "p" then [1; 2] else if String.eqb t "q" then [3; 4]
         else if String.eqb t "a" then [1] else if String.eqb t "b" then [2] else if String.eqb t "c" then [3] else if String.eqb t "d" then [4]
         else if String.eqb t "out" then [1; 2] else if String.eqb t "out2" then [1; 2; 3; 4] else []).
      split; [|split; [reflexivity|split; [|reflexivity]]].
      * intros t Ht.
        repeat match goal with |- (if String.eqb t ?s then _ else _) = _ => destruct (String.eqb_spec t s); [subst t; exfalso; apply Ht; vm_compute; auto 20|] end. reflexivity.
      * intros n Hn. cbn in Hn. repeat (destruct Hn as [<-|Hn]; [apply holds_eq; eexists; split; [reflexivity|]; intros k o Ho _; do 4 (try (destruct k as [|k]; [try (injection Ho as <-); try discriminate; reflexivity|])); destruct k; discriminate|]). contradiction.
    + intro H. apply body_rel_eq in H. destruct H as (r' & _ & Hi & Ha & Ho).
      injection Hi as Hx. injection Ho as Hout Hout2.
      assert (H1 := Ha _ (or_introl eq_refl)). assert (H2 := Ha _ (or_intror (or_introl eq_refl))).
      apply holds_eq in H1, H2. destruct H1 as (v1 & E1 & P1), H2 as (v2 & E2 & P2). unfold split_op in E1, E2. cbn in E1, E2. rewrite Hx in E1. subst v1 v2.
      specialize (P1 0 "a" eq_refl ltac:(discriminate)). specialize (P2 0 "out" eq_refl ltac:(discriminate)). cbn in P1, P2.
      injection P1 as P1. injection P2 as P2. rewrite Hout, <- P1 in P2. discriminate.
Qed.
Print Assumptions C16_merge_preserves_refuted.

(** random operators: two independent draws become one *)
Definition rnd_graph : fgraph :=
  FGraph [FNode "f1" "RandomUniform" "" [] [] ["a"] []; FNode "f2" "RandomUniform" "" [] [] ["b"] [];
          FNode "s" "Sub" "" [] ["a"; "b"] ["out"] []] [] ["out"].
Definition rnd_op (op _dom : string) (_ : list (string * attr)) (_ : nat) (ins : list Z)
                (_ : list (list Z -> list Z -> Prop)) (vs : list Z) : Prop :=
  if String.eqb op "Sub" then vs = [match ins with [a; b] => (a - b)%Z | _ => 0%Z end]
  else exists v, vs = [v].
Theorem C16_random_operators_refuted :
  exists g g' : fgraph, valid g /\ named_outputs g /\ op_ext rnd_op /\
     merge_rounds (fun _ _ => false) (fun _ => 0%Z) 4 g = Some g' /\
     exists r, body_rel rnd_op r g [] [1%Z] /\ forall z, body_rel rnd_op r g' [] [z] -> z = 0%Z.
Proof.
  exists rnd_graph. eexists.
  split; [apply (valid_check_spec [("a", 2); ("b", 2); ("out", 3)]); vm_compute; reflexivity|].
  split; [apply named_check; vm_compute; reflexivity|].
  split; [intros o d a k i bs bs' vs _ H; exact H|].
  split; [vm_compute; reflexivity|]. exists (fun _ => 0%Z). split.
  - apply body_rel_eq. exists (fun t => if String.eqb t "a" then 1%Z else if String.eqb t "b" then 0%Z else if String.eqb t "out" then 1%Z else 0%Z).
    split; [|split; [reflexivity|split; [|reflexivity]]].
    + intros t Ht.
      repeat match goal with |- (if String.eqb t ?s then _ else _) = _ => destruct (String.eqb_spec t s); [subst t; exfalso; apply Ht; vm_compute; auto 20|] end. reflexivity.
    + intros n Hn. cbn in Hn. repeat (destruct Hn as [<-|Hn]; [apply holds_eq; eexists; split; [first [reflexivity|eexists; reflexivity]|]; intros [|k] o Ho _; [injection Ho as <-; reflexivity|destruct k; discriminate]|]). contradiction.
  - intros z H. apply body_rel_eq in H. destruct H as (r' & _ & _ & Ha & Ho). injection Ho as Hout.
    assert (H2 := Ha _ (or_intror (or_introl eq_refl))).
    apply holds_eq in H2. destruct H2 as (v2 & E2 & P2). unfold rnd_op in E2. cbn in E2. subst v2.
    specialize (P2 0 "out" eq_refl ltac:(discriminate)). cbn in P2.
    injection P2 as P2. rewrite Hout in P2. lia.
Qed.
Print Assumptions C16_random_operators_refuted.
