(** C53: a TensorFlow While node and the ONNX Loop made from it compute the same. *)
From Coq Require Import String List Bool ZArith Arith Lia Permutation.
From Verif Require Import FGraph FGraphProofs FGraphSpec InlineModel InlineSpec InlineProofs InlineProofs3 InlineProofs4 WhileSpec WhileModel WhileProofs9 WhileCheck WhileEval.
Import ListNotations.
Local Open Scope string_scope.
Local Open Scope list_scope.

(** For counted While nodes (see [counted], [while_node]): an execution of the new nodes is an execution of the While node,
    and for every execution of the While node there is one of the new nodes.  Missing: the loop counter and the maximum
    number of iterations as results (no name replaces them); ragged tensor lists; that the conversion succeeds. *)
Theorem C53_while_partial :
  forall V (vo : value_ops V) op_rel order op_of w max const_attrs shared fresh cname cond_name cond body ta_reads nodes pairs ks ws,
    loop_semantics vo op_rel -> (forall l, Permutation (order l) l) ->
    convert_while order op_of w max const_attrs shared fresh cname cond_name cond body ta_reads = Some (nodes, pairs) ->
    while_node op_of ta_reads ks ws cond body (w_ins w) (w_outs w) (max_input (w_ins w) max shared fresh) cname (cond_param cname) cond_name ->
    forall z (r : string -> V) q, constant_trip vo op_rel max const_attrs z -> r "" = absent vo ->
    let args := map r (w_ins w) in
    (forall v, In v (of_kind Lst ks (skipn 2 args)) -> exists l, v = tlist vo l) ->
    counted vo op_rel r cond body ks ws (limit_of max z) z q args ->
    (runs op_rel r nodes ->
       exists final, tf_while vo (body_rel op_rel r (equations cond)) (body_rel op_rel r (equations body)) args final /\ while_result vo r pairs ks (w_outs w) args final) /\
    (forall final, fresh_names (w_ins w) nodes pairs ->
       tf_while vo (body_rel op_rel r (equations cond)) (body_rel op_rel r (equations body)) args final ->
       exists r' : string -> V, (forall t, ~ In t (computed nodes) -> r' t = r t) /\ runs op_rel r' nodes /\ while_result vo r' pairs ks (w_outs w) args final).
Proof.
  intros V vo op_rel order op_of w max const_attrs shared fresh cname cond_name cond body ta_reads nodes pairs ks ws LS Ord E HW z r q CT R0 args HT CN. split.
  - eapply while_sound; eauto.
  - intros final NN HF. eapply while_complete; eauto.
Qed.
Print Assumptions C53_while_partial.

(** ** Examples: integers, truth values, lists *)
Inductive val := VNum (z : Z) | VBool (b : bool) | VAbsent | VList (l : list (option val)) | VStack (l : list val).
Definition vo : value_ops val.
Proof.
  refine (Values val VNum VBool VAbsent VList VStack _ _ _ _); intros; congruence.
Defined.
Definition as_index (z : Z) : option nat := if Z.leb 0 z then Some (Z.to_nat z) else None.
Definition fop (op : string) (at_ : list (string * attr)) (ins : list val) : option (list val) :=
  match op, ins with
  | "Identity", [v] | "Cast", [v] => Some [v]
  | "TensorListSetItem", [VList items; VNum z; x] => match as_index z with Some i => if Nat.ltb i (length items) then Some [VList (set_item i x items)] else None | None => None end
  | "TensorListGetItem", [VList items; VNum z] => match as_index z with Some i => match nth_error items i with Some (Some x) => Some [x] | _ => None end | None => None end
  | "Less", [VNum a; VNum b] => Some [VBool (Z.ltb a b)]
  | "And", [VBool a; VBool b] => Some [VBool (a && b)]
  | "Add", [VNum a; VNum b] => Some [VNum (a + b)]
  | "Next", [VNum a] => Some [VNum (a + 1)]
  | "Flip", [VNum a] => Some [VNum (1 - a)]
  | "Const", [] => match at_ with [("value", AInt z)] => Some [VNum z] | _ => None end
  | _, _ => None
  end.
Definition val_rel (op dom : string) (at_ : list (string * attr)) (k : nat) (ins : list val) (bs : list (list val -> list val -> Prop)) (vs : list val) : Prop :=
  if String.eqb op "Loop" then
    exists b m c vs0 limit fin rows, bs = [b] /\ ins = m :: VBool c :: vs0 /\ m = match limit with Some z => VNum z | None => VAbsent end /\
      onnx_loop vo b limit 0 c vs0 fin rows /\ (forall row, In row rows -> length vs0 + length row = k) /\ vs = fin ++ columns vo (k - length vs0) rows
  else bs = [] /\ fop op at_ ins = Some vs /\ length vs = k.
Lemma onnx_loop_ext (b b' : list val -> list val -> Prop) limit : (forall a s, b a s <-> b' a s) -> forall k c vs fin rows, onnx_loop vo b limit k c vs fin rows -> onnx_loop vo b' limit k c vs fin rows.
Proof. intros H k c vs fin rows L. induction L; [now constructor|]. econstructor; eauto. now apply H. Qed.
Lemma val_semantics : loop_semantics vo val_rel.
Proof.
  constructor.
  - intros op dom at_ k ins bs bs' vs F H. destruct (string_dec op "Loop") as [->|N].
    + cbn in H |- *. destruct H as (b & m & c & vs0 & limit & fin & rows & -> & -> & -> & H3 & H4 & ->). inversion F as [|? b' ? l' Hb F']; subst. inversion F'; subst. exists b', (match limit with Some z => VNum z | None => VAbsent end), c, vs0, limit, fin, rows. repeat split; auto. eapply onnx_loop_ext; eauto.
    + unfold val_rel in *. apply String.eqb_neq in N. rewrite N in *. destruct H as (-> & H). inversion F; subst. auto.
  - intros dom at_ v vs. cbn. split; [intros (_ & E & _); congruence|intros ->; auto].
  - intros dom at_ l i x vs. unfold val_rel. cbn [String.eqb Ascii.eqb Bool.eqb]. change (String.eqb "TensorListSetItem" "Loop") with false. cbn [fop]. split.
    + intros (_ & E & _). destruct l; try discriminate. destruct i; try discriminate. cbn [fop] in E. destruct (as_index z) as [k|] eqn:Ez; [|discriminate]. destruct (Nat.ltb_spec k (length l)); [|discriminate]. apply (f_equal (fun o => match o with Some v => v | None => vs end)) in E. cbv beta iota in E. subst vs. unfold as_index in Ez. destruct (Z.leb_spec 0 z); [|discriminate]. injection Ez as <-.
      exists l, (Z.to_nat z). cbn. rewrite Z2Nat.id by lia. auto.
    + intros (items & k & -> & -> & H1 & ->). split; [auto|]. split; [|auto]. cbn [vo num tlist]; unfold as_index. destruct (Z.leb_spec 0 (Z.of_nat k)); [|lia]. rewrite Nat2Z.id. apply Nat.ltb_lt in H1. now rewrite H1.
  - intros z vs. cbn. split; [intros (_ & E & _); congruence|intros ->; auto].
  - intros k ins b out. cbn. split.
    + intros (b' & m & c & vs & limit & fin & rows & E & H). injection E as <-. exists m, c, vs, limit, fin, rows. exact H.
    + intros (m & c & vs & limit & fin & rows & H). exists b, m, c, vs, limit, fin, rows. split; auto.
Qed.

Definition node (op nm : string) (ins outs : list string) : fnode := FNode nm op "" [] ins outs [].
Definition parameter (nm t : string) : fnode := node "Placeholder" nm [] [t].
(** x, l = x + t[i], l with entry i set to the new x; the counter i < m; t is only read *)
Definition cond1 : fgraph :=
  FGraph [parameter "ci" "ci:0"; parameter "cm" "cm:0"; parameter "cx" "cx:0"; parameter "cl" "cl:0"; parameter "ct" "ct:0"; node "Less" "lt" ["ci:0"; "cm:0"] ["lt:0"]]
    ["ci:0"; "cm:0"; "cx:0"; "cl:0"; "ct:0"] ["lt:0"].
Definition body1 : fgraph :=
  FGraph [parameter "i" "i:0"; parameter "m" "m:0"; parameter "x" "x:0"; parameter "l" "l:0"; parameter "t" "t:0"; node "TensorListGetItem" "g" ["t:0"; "i:0"] ["g:0"]; node "Add" "a" ["x:0"; "g:0"] ["a:0"];
          node "TensorListSetItem" "s" ["l:0"; "i:0"; "a:0"] ["s:0"]; node "Identity" "s2" ["s:0"] ["s2:0"]; node "Next" "n" ["i:0"] ["n:0"]]
    ["i:0"; "m:0"; "x:0"; "l:0"; "t:0"] ["n:0"; "m:0"; "a:0"; "s2:0"; "t:0"].
Definition while1 : while_op := WhileOp "w" ["k0:0"; "max:0"; "x0:0"; "l0:0"; "t0:0"] ["w:0"; "w:1"; "w:2"; "w:3"; "w:4"].
Definition kinds1 : list kind := [Var; Lst; Read].
Definition writes1 : list lwrite := [LWrite "l:0" "i:0" "a:0" "s:0" ["s2:0"]].
Definition op_of1 (t : string) : string := if String.eqb t "l0:0" then "TensorListReserve" else "Placeholder".
Definition converted1 := convert_while (fun l => l) op_of1 while1 (Some 2%Z) [("value", AInt 2)] true "max_copy" "cc" "while_cond" cond1 body1 ["t:0"].

Definition simple (n : fnode) : bool := nob n && negb (String.eqb (f_op n) "Loop").
Lemma simple_ok ns : forallb simple ns = true -> Forall (functional val_rel fop) ns.
Proof.
  intro H. rewrite forallb_forall in H. apply Forall_forall. intros n I. specialize (H n I). unfold simple in H. apply andb_true_iff in H. destruct H as [H1 H2]. apply negb_true_iff in H2. unfold nob in H1. split; [destruct (f_bodies n); [auto|discriminate]|].
  intros ins vs. unfold val_rel. rewrite H2. tauto.
Qed.
Definition as_truth (v : val) : option bool := match v with VBool b => Some b | _ => None end.
Lemma as_truth_ok v b : as_truth v = Some b -> v = truth vo b.
Proof. destruct v; cbn; congruence. Qed.
Definition run_tf (fuel : nat) (r : string -> val) (cond body : fgraph) (args : list val) : option (list val) := run_while as_truth fuel (call fop r (equations cond)) (call fop r (equations body)) args.
Definition fine (g : fgraph) : bool := forallb simple (f_nodes (equations g)) && callable (equations g).
Lemma fine_call g r : fine g = true -> forall a s, body_rel val_rel r (equations g) a s <-> call fop r (equations g) a = Some s.
Proof. intro H. unfold fine in H. apply andb_true_iff in H. destruct H as [H1 H2]. apply call_iff; auto. now apply simple_ok. Qed.
Lemma run_tf_iff fuel r cond body args f : fine cond = true -> fine body = true -> run_tf fuel r cond body args = Some f ->
  forall f', tf_while vo (body_rel val_rel r (equations cond)) (body_rel val_rel r (equations body)) args f' <-> f' = f.
Proof. intros H1 H2 E. eapply run_while_iff; [exact as_truth_ok| | |exact E]; now apply fine_call. Qed.
Definition value_of (l : list (string * val)) (t : string) : val := lookup l (fun _ => VAbsent) t.
Definition values1 : string -> val :=
  value_of [("k0:0", VNum 0); ("max:0", VNum 2); ("x0:0", VNum 1); ("l0:0", VList [None; None]); ("t0:0", VList [Some (VNum 5); Some (VNum 7)])].

(** running the new nodes *)
Definition run_new (fuel : nat) (limit : option Z) (r : string -> val) (nodes : list fnode) : option (list (string * val)) :=
  match rev nodes with
  | FNode _ _ _ _ ins outs [b] :: front =>
      match eval fop r (filter (fun n => negb (is_graph_input n)) (rev front)) [] with
      | Some e => match map (lookup e r) ins with
                  | _ :: VBool c :: vs => match run_loop vo as_truth fuel (call fop (lookup e r) (equations b)) limit 0 c vs with
                                          | Some (fin, rows) => Some (combine outs (fin ++ columns vo (length outs - length vs) rows) ++ e)
                                          | None => None
                                          end
                  | _ => None
                  end
      | None => None
      end
  | _ => None
  end.
Lemma runs_intro r nodes front nm m t vars outs b fuel c limit fin rows : rev nodes = FNode nm "Loop" "" [] (m :: t :: vars) outs [b] :: front ->
  (forall n, In n front -> is_graph_input n = false -> simple n = true /\ fop (f_op n) (f_attrs n) (map r (f_in n)) = Some (map r (f_out n))) ->
  fine b = true -> r m = match limit with Some z => VNum z | None => VAbsent end -> r t = VBool c ->
  run_loop vo as_truth fuel (call fop r (equations b)) limit 0 c (map r vars) = Some (fin, rows) -> forallb (fun row => Nat.eqb (length vars + length row) (length outs)) rows = true ->
  map r outs = fin ++ columns vo (length outs - length vars) rows -> runs val_rel r nodes.
Proof.
  intros E0 HF FB Em Et HL HR EO. exists (rev front), nm, (m :: t :: vars), outs, b. split; [rewrite <- (rev_involutive nodes), E0; reflexivity|]. split.
  - intros n I NP. rewrite <- in_rev in I. apply graph_input_false in NP. destruct (HF n I NP) as [SN FN]. apply holds_eq. exists (map r (f_out n)). split.
    + pose proof (simple_ok [n]) as SO. cbn [forallb] in SO. rewrite SN in SO. specialize (SO eq_refl). inversion SO as [|? ? [Eb Fn] _]; subst. rewrite Eb. cbn [map]. apply Fn. now rewrite map_length.
    + intros k o Ek _. now rewrite nth_error_map, Ek.
  - apply holds_eq. exists (map r outs). cbn [f_op f_dom f_attrs f_out f_in f_bodies map]. split; [|intros k o Ek _; now rewrite nth_error_map, Ek].
    change (exists b0 m0 c0 vs0 limit0 fin0 rows0, [body_rel val_rel r (equations b)] = [b0] /\ r m :: r t :: map r vars = m0 :: VBool c0 :: vs0 /\ m0 = match limit0 with Some z => VNum z | None => VAbsent end /\
      onnx_loop vo b0 limit0 0 c0 vs0 fin0 rows0 /\ (forall row, In row rows0 -> length vs0 + length row = length outs) /\ map r outs = fin0 ++ columns vo (length outs - length vs0) rows0).
    exists (body_rel val_rel r (equations b)), (r m), c, (map r vars), limit, fin, rows. rewrite map_length. repeat split; auto; [now rewrite Et| |].
    + eapply run_loop_ok; [exact as_truth_ok| |exact HL]. now apply fine_call.
    + intros row I. rewrite forallb_forall in HR. apply Nat.eqb_eq. auto.
Qed.
(** the sum of a list of two numbers: all conditions of C53 hold *)
Example C53_example :
  exists nodes pairs, converted1 = Some (nodes, pairs) /\
    while_node op_of1 ["t:0"] kinds1 writes1 cond1 body1 (w_ins while1) (w_outs while1) "max_copy" "cc" (cond_param "cc") "while_cond" /\
    constant_trip vo val_rel (Some 2%Z) [("value", AInt 2)] 2 /\ values1 "" = absent vo /\
    counted vo val_rel values1 cond1 body1 kinds1 writes1 (Some 2%Z) 2 (fun _ b => b = true) (map values1 (w_ins while1)) /\
    fresh_names (w_ins while1) nodes pairs /\
    tf_while vo (body_rel val_rel values1 (equations cond1)) (body_rel val_rel values1 (equations body1)) (map values1 (w_ins while1))
      [VNum 2; VNum 2; VNum 13; VList [Some (VNum 6); Some (VNum 13)]; VList [Some (VNum 5); Some (VNum 7)]].
Proof.
  eexists _, _. split; [vm_compute; reflexivity|]. split; [|split; [|split; [|split; [|split]]]].
  - apply while_nodeb_ok; [vm_compute; reflexivity|]. exists [Var; Lst], [Read]. split; [reflexivity|]. split; intros k H; repeat (destruct H as [<-|H]; [discriminate|]); destruct H.
  - intros m E. injection E as <-. split; [reflexivity|]. intro vs. cbn. split; [intros (_ & E & _); congruence|intros ->; auto].
  - reflexivity.
  - assert (FC := fine_call cond1 values1 eq_refl). assert (FB := fine_call body1 values1 eq_refl).
    assert (LT : forall k rest, call fop values1 (equations cond1) (VNum (Z.of_nat k) :: VNum 2 :: rest) = if Nat.eqb (length rest) 3 then Some [VBool (Z.of_nat k <? 2)%Z] else None).
    { intros k rest. unfold call. cbn [length f_ins equations cond1]. destruct rest as [|a [|b [|c [|]]]]; reflexivity. }
    assert (IT : forall k s, iteration vo (body_rel val_rel values1 (equations cond1)) (body_rel val_rel values1 (equations body1)) (map values1 (w_ins while1)) k s ->
      exists x a b, s = [VNum (Z.of_nat k); VNum 2; VNum x; VList [a; b]; VList [Some (VNum 5); Some (VNum 7)]]).
    { intros k s I. induction I as [|k s s' I (x & a & b & ->) HC HB]; [exists 1%Z, None, None; reflexivity|].
      apply FC in HC. apply FB in HB. rewrite LT in HC. cbn [length Nat.eqb] in HC. injection HC as HC. apply Z.ltb_lt in HC. assert (Hk : k = 0 \/ k = 1) by lia. destruct Hk as [-> | ->].
      - vm_compute in HB. injection HB as <-. eexists _, _, _. reflexivity.
      - vm_compute in HB. injection HB as <-. eexists _, _, _. reflexivity. }
    constructor.
    + intros k rest v. rewrite FC. cbn [num vo]. rewrite LT. change (length kinds1) with 3. destruct (Nat.eqb_spec (length rest) 3) as [L|L]; split.
      * intro H. injection H as <-. split; auto. exists true. split; [auto|]. cbn [below]. rewrite andb_true_r. reflexivity.
      * intros (_ & b & -> & ->). cbn [below]. rewrite andb_true_r. reflexivity.
      * discriminate.
      * intros (H & _). contradiction.
    + intros k s I. destruct (IT k s I) as (x & a & b & ->). split; reflexivity.
    + intros k s I HC. destruct (IT k s I) as (x & a & b & ->). split.
      * intros r' A B _ w [<-|[]]. cbn in B. injection B as B _ _ _ _. exact B.
      * apply FC in HC. rewrite LT in HC. cbn [length Nat.eqb] in HC. injection HC as HC. apply Z.ltb_lt in HC. intros l [E|[]]. injection E as <-. cbn. lia.
  - apply fresh_namesb_ok. vm_compute. reflexivity.
  - eapply (run_tf_iff 5); reflexivity.
Qed.

(** ** What the conditions exclude *)
(** the conversion succeeds, the new nodes run, the While node terminates, and the results differ *)
Definition wrong (order : list fnode -> list fnode) (op_of : string -> string) (w : while_op) (max : option Z) (at_ : list (string * attr)) (cond body : fgraph) (reads : list string) (ks : list kind) : Prop :=
  exists nodes pairs r final, convert_while order op_of w max at_ true "max_copy" "cc" "while_cond" cond body reads = Some (nodes, pairs) /\ runs val_rel r nodes /\
    (forall f, tf_while vo (body_rel val_rel r (equations cond)) (body_rel val_rel r (equations body)) (map r (w_ins w)) f <-> f = final) /\
    ~ while_result vo r pairs ks (w_outs w) (map r (w_ins w)) final.
Definition result_env (conv : option (list fnode * list (string * string))) (limit : option Z) (r : string -> val) : string -> val :=
  match conv with Some (nodes, _) => match run_new 20 limit r nodes with Some e => lookup e r | None => r end | None => r end.
Ltac loop_run limit := eapply (runs_intro _ _ _ _ _ _ _ _ _ 20 _ limit); [vm_compute; reflexivity|let n := fresh in let I := fresh in intros n I; repeat (destruct I as [<-|I]; [intro; first [discriminate|split; vm_compute; reflexivity]|]); destruct I
  |vm_compute; reflexivity|vm_compute; reflexivity|vm_compute; reflexivity|vm_compute; reflexivity|vm_compute; reflexivity|vm_compute; reflexivity].

Lemma run_tf_final r cond body args args' f : fine cond = true -> fine body = true -> args = args' -> run_tf 20 r cond body args' = Some f ->
  forall f', tf_while vo (body_rel val_rel r (equations cond)) (body_rel val_rel r (equations body)) args f' <-> f' = f.
Proof. intros H1 H2 <-. now apply run_tf_iff. Qed.
Ltac differ H i k old := let s := fresh in let v := fresh in evar (s : val); evar (v : val); specialize (H i k old s v eq_refl eq_refl); subst s v;
  match type of H with ?A -> ?B -> _ => let h1 := fresh in let h2 := fresh in assert (h1 : A) by (vm_compute; reflexivity); assert (h2 : B) by (vm_compute; reflexivity); specialize (H h1 h2); clear h1 h2 end.

(** The index of a write to a tensor list is ignored: the items are stacked in the order of the iterations. *)
Definition body2 : fgraph :=
  FGraph [parameter "i" "i:0"; parameter "m" "m:0"; parameter "x" "x:0"; parameter "l" "l:0"; parameter "t" "t:0"; node "TensorListGetItem" "g" ["t:0"; "i:0"] ["g:0"]; node "Add" "a" ["x:0"; "g:0"] ["a:0"];
          node "Flip" "f" ["i:0"] ["f:0"]; node "TensorListSetItem" "s" ["l:0"; "f:0"; "a:0"] ["s:0"]; node "Identity" "s2" ["s:0"] ["s2:0"]; node "Next" "n" ["i:0"] ["n:0"]]
    ["i:0"; "m:0"; "x:0"; "l:0"; "t:0"] ["n:0"; "m:0"; "a:0"; "s2:0"; "t:0"].
Theorem C53_index_refuted :
  exists ws, while_node op_of1 ["t:0"] kinds1 ws cond1 body2 (w_ins while1) (w_outs while1) "max_copy" "cc" (cond_param "cc") "while_cond" /\
    wrong (fun l => l) op_of1 while1 (Some 2%Z) [("value", AInt 2)] cond1 body2 ["t:0"] kinds1.
Proof.
  exists [LWrite "l:0" "f:0" "a:0" "s:0" ["s2:0"]]. split.
  - apply while_nodeb_ok; [vm_compute; reflexivity|]. exists [Var; Lst], [Read]. split; [reflexivity|]. split; intros k H; repeat (destruct H as [<-|H]; [discriminate|]); destruct H.
  - eexists _, _, (result_env (convert_while (fun l => l) op_of1 while1 (Some 2%Z) [("value", AInt 2)] true "max_copy" "cc" "while_cond" cond1 body2 ["t:0"]) (Some 2%Z) values1), _. split; [vm_compute; reflexivity|].
    split; [loop_run (Some 2%Z)|]. split; [eapply run_tf_final; vm_compute; reflexivity|].
    intros [_ H]. differ H 1 Lst "w:3". destruct H as (new & xs & l & I & E1 & E2 & E3).
    destruct I as [I|[I|[]]]; [discriminate I|]. injection I as <-. vm_compute in E1. injection E1 as <-. injection E2 as <-. discriminate E3.
Qed.
Print Assumptions C53_index_refuted.

(** The condition must compare the loop counter only with the maximum number of iterations: in the body it sees the number
    of the iteration that ends.  The condition i < 2 makes three iterations instead of two. *)
Definition cond3 : fgraph :=
  FGraph [parameter "ci" "ci:0"; parameter "cm" "cm:0"; parameter "cx" "cx:0"; FNode "two" "Const" "" [("value", AInt 2)] [] ["two:0"] []; node "Less" "lt" ["ci:0"; "two:0"] ["lt:0"]]
    ["ci:0"; "cm:0"; "cx:0"] ["lt:0"].
Definition body3 : fgraph :=
  FGraph [parameter "i" "i:0"; parameter "m" "m:0"; parameter "x" "x:0"; node "Next" "a" ["x:0"] ["a:0"]; node "Next" "n" ["i:0"] ["n:0"]]
    ["i:0"; "m:0"; "x:0"] ["n:0"; "m:0"; "a:0"].
Definition while3 : while_op := WhileOp "w" ["k0:0"; "max:0"; "x0:0"] ["w:0"; "w:1"; "w:2"].
Definition op_of3 (t : string) : string := "Placeholder".
Theorem C53_counter_in_condition_refuted :
  while_node op_of3 [] [Var] [] cond3 body3 (w_ins while3) (w_outs while3) "max:0" "cc" (cond_param "cc") "while_cond" /\
    wrong (fun l => l) op_of3 while3 (Some (-1)%Z) [] cond3 body3 [] [Var].
Proof.
  split.
  - apply while_nodeb_ok; [vm_compute; reflexivity|]. exists [Var], []. split; [reflexivity|]. split; intros k H; repeat (destruct H as [<-|H]; [discriminate|]); destruct H.
  - eexists _, _, (result_env (convert_while (fun l => l) op_of3 while3 (Some (-1)%Z) [] true "max_copy" "cc" "while_cond" cond3 body3 []) None (value_of [("k0:0", VNum 0); ("max:0", VNum (-1)); ("x0:0", VNum 10)])), _. split; [vm_compute; reflexivity|].
    split; [loop_run (@None Z)|]. split; [eapply run_tf_final; vm_compute; reflexivity|].
    intros [_ H]. differ H 0 Var "w:2". destruct H as (new & I & E1). destruct I as [I|[]]. injection I as <-. vm_compute in E1. discriminate E1.
Qed.
Print Assumptions C53_counter_in_condition_refuted.

(** The loop counter must start at 0: from 1 to the maximum 3 there are two iterations, not three. *)
Definition cond4 : fgraph :=
  FGraph [parameter "ci" "ci:0"; parameter "cm" "cm:0"; parameter "cx" "cx:0"; node "Less" "lt" ["ci:0"; "cm:0"] ["lt:0"]] ["ci:0"; "cm:0"; "cx:0"] ["lt:0"].
Theorem C53_start_refuted :
  while_node op_of3 [] [Var] [] cond4 body3 (w_ins while3) (w_outs while3) "max_copy" "cc" (cond_param "cc") "while_cond" /\
    wrong (fun l => l) op_of3 while3 (Some 3%Z) [("value", AInt 3)] cond4 body3 [] [Var].
Proof.
  split.
  - apply while_nodeb_ok; [vm_compute; reflexivity|]. exists [Var], []. split; [reflexivity|]. split; intros k H; repeat (destruct H as [<-|H]; [discriminate|]); destruct H.
  - eexists _, _, (result_env (convert_while (fun l => l) op_of3 while3 (Some 3%Z) [("value", AInt 3)] true "max_copy" "cc" "while_cond" cond4 body3 []) (Some 3%Z) (value_of [("k0:0", VNum 1); ("max:0", VNum 3); ("x0:0", VNum 10)])), _. split; [vm_compute; reflexivity|].
    split; [loop_run (Some 3%Z)|]. split; [eapply run_tf_final; vm_compute; reflexivity|].
    intros [_ H]. differ H 0 Var "w:2". destruct H as (new & I & E1). destruct I as [I|[]]. injection I as <-. vm_compute in E1. discriminate E1.
Qed.
Print Assumptions C53_start_refuted.

(** A tensor list that is only read, before one that is written: the conversion fails (the wrong outputs are deleted). *)
Definition swap_cond : fgraph := FGraph (f_nodes cond1) ["ci:0"; "cm:0"; "cx:0"; "ct:0"; "cl:0"] ["lt:0"].
Definition swap_body : fgraph := FGraph (f_nodes body1) ["i:0"; "m:0"; "x:0"; "t:0"; "l:0"] ["n:0"; "m:0"; "a:0"; "t:0"; "s2:0"].
Theorem C53_lists_first_refuted :
  (forall max at_ shared fresh cname cond_name,
     convert_while (fun l => l) op_of1 (WhileOp "w" ["k0:0"; "max:0"; "x0:0"; "t0:0"; "l0:0"] ["w:0"; "w:1"; "w:2"; "w:3"; "w:4"]) max at_ shared fresh cname cond_name swap_cond swap_body ["t:0"] = None) /\
  exists final, tf_while vo (body_rel val_rel values1 (equations swap_cond)) (body_rel val_rel values1 (equations swap_body)) (map values1 ["k0:0"; "max:0"; "x0:0"; "t0:0"; "l0:0"]) final.
Proof.
  split.
  - intros [z|] at_ [] fresh cname cond_name; unfold convert_while, trip_count; cbn [w_ins]; try destruct (Z.eqb z (-1)); reflexivity.
  - eexists. eapply run_tf_final; [..|reflexivity]; vm_compute; reflexivity.
Qed.
Print Assumptions C53_lists_first_refuted.

(** Nothing replaces the loop counter and the maximum number of iterations as outputs of the While node. *)
Theorem C53_counter_output_refuted :
  exists nodes pairs, converted1 = Some (nodes, pairs) /\
    forall o, In o ["w:0"; "w:1"] -> ~ In o (map fst pairs) /\ ~ In o (outputs_of nodes).
Proof.
  eexists _, _. split; [vm_compute; reflexivity|]. intros o H. repeat (destruct H as [<-|H]; [split; intro H; vm_compute in H; repeat (destruct H as [H|H]; [discriminate|]); destruct H|]). destruct H.
Qed.
Print Assumptions C53_counter_output_refuted.
