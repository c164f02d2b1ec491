(** C58: operators that meet the hypotheses, and small graphs. *)
From Coq Require Import String List Bool Arith Lia ZArith Reals Lra.
From Verif Require Import FGraph FGraphProofs FGraphSpec Tensor OnnxSpec PushSpec TensorProofs FoldFunProofs DetProofs RewModel RewSpec.
Import ListNotations.
Local Open Scope string_scope. Local Open Scope list_scope. Local Open Scope nat_scope.

Section Ops.
Variable cval : nat -> tensor R.
Definition sem (op : string) (at_ : list (string * attr)) (ins : list (tensor R)) (w : tensor R) : Prop :=
  if String.eqb op "Const" then ins = [] /\ exists id, lookup "value" at_ = Some (ATensor id) /\ w = cval id
  else if String.eqb op "Mul" then binary Rmult at_ ins w
  else if String.eqb op "Maximum" then binary Rmax at_ ins w
  else if String.eqb op "Greater" then binary greater at_ ins w
  else if String.eqb op "Cast" then ins = [w]
  else if String.eqb op "Identity" then ins = [w]
  else if String.eqb op "LeakyRelu" then exists x a, ins = [x] /\ number cval "alpha" at_ a /\ map_rel (leaky_relu a) x w
  else if String.eqb op "ThresholdedRelu" then exists x a, ins = [x] /\ number cval "alpha" at_ a /\ map_rel (thresholded_relu a) x w
  else False.
Definition relu_ops (op dom : string) (at_ : list (string * attr)) (k : nat) (ins : list (tensor R)) (bs : list (list (tensor R) -> list (tensor R) -> Prop)) (vs : list (tensor R)) : Prop :=
  k = 1 /\ bs = [] /\ exists w, vs = [w] /\ sem op at_ ins w.

Lemma is_op_sem op rel : (forall at_ ins w, sem op at_ ins w <-> rel at_ ins w) -> is_op relu_ops op rel.
Proof.
  intros H dom at_ ins vs. unfold relu_ops. split.
  - intros (_ & _ & w & -> & S1). exists w. split; auto. apply H. exact S1.
  - intros (w & -> & S1). split; auto. split; auto. exists w. split; auto. apply H. exact S1.
Qed.
Lemma relu_ops_means : relu_means relu_ops cval.
Proof.
  split; try (apply is_op_sem; intros at_ ins w; reflexivity).
  intros dom at_ x vs _ (_ & _ & w & -> & S1). cbv in S1. injection S1 as ->. reflexivity.
Qed.
Lemma relu_ops_ext : op_ext relu_ops.
Proof. intros op dom at_ k ins bs bs' vs H (A & B & w & C & D). subst bs. inversion H. subst. split; auto. split; auto. exists w. auto. Qed.
Lemma map_rel_fun {A} (f : A -> A) (x y z : tensor A) : map_rel f x y -> map_rel f x z -> y = z.
Proof.
  intros (W & Wy & E & G) (_ & Wz & E' & G'). apply tensor_ext; auto; [congruence|]. intros ix I. rewrite E in I. rewrite G, G' by exact I. reflexivity.
Qed.
Lemma binary_fun f at_ ins w w' : binary f at_ ins w -> binary f at_ ins w' -> w = w'.
Proof. intros (a & b & -> & H) (a' & b' & E & H'). injection E as <- <-. eapply elementwise_fun; eauto. Qed.
Lemma number_fun at_ a a' : number cval "alpha" at_ a -> number cval "alpha" at_ a' -> a = a'.
Proof. intros (i & E & D) (i' & E' & D'). congruence. Qed.
Lemma relu_ops_det : deterministic relu_ops.
Proof.
  intros op dom at_ k ins bs vs vs' _ (_ & _ & w & -> & H) (_ & _ & w' & -> & H'). f_equal. unfold sem in H, H'.
  destruct (String.eqb op "Const"). { destruct H as (_ & i & E & ->), H' as (_ & i' & E' & ->). congruence. }
  destruct (String.eqb op "Mul"); [eapply binary_fun; eauto|]. destruct (String.eqb op "Maximum"); [eapply binary_fun; eauto|].
  destruct (String.eqb op "Greater"); [eapply binary_fun; eauto|]. destruct (String.eqb op "Cast"); [congruence|]. destruct (String.eqb op "Identity"); [congruence|].
  destruct (String.eqb op "LeakyRelu").
  { destruct H as (x & a & -> & N & M), H' as (x' & a' & E & N' & M'). injection E as <-. rewrite <- (number_fun _ _ _ N N') in M'. exact (map_rel_fun _ _ _ _ M M'). }
  destruct (String.eqb op "ThresholdedRelu"); [|contradiction].
  destruct H as (x & a & -> & N & M), H' as (x' & a' & E & N' & M'). injection E as <-. rewrite <- (number_fun _ _ _ N N') in M'. exact (map_rel_fun _ _ _ _ M M').
Qed.
End Ops.

Definition no_shape : string -> option (list Z) := fun _ => None.
Definition no_type : string -> option Z := fun _ => None.
Definition const (o : string) (id : nat) : fnode := FNode ("node_" ++ o) "Const" "" [("value", ATensor id)] [] [o] [].
Definition op (ty : string) (ins : list string) (o : string) : fnode := FNode ("node_" ++ o) ty "" [] ins [o] [].
(** y = max(c * x, x), read by an Identity *)
Definition leaky_nodes : list fnode := [const "c" 0; op "Mul" ["x"; "c"] "m"; op "Maximum" ["m"; "x"] "y"; op "Identity" ["y"] "z"].
(** the same, twice *)
Definition leaky_twice : list fnode :=
  [const "c" 0; op "Mul" ["c"; "x"] "m"; op "Maximum" ["m"; "x"] "y"; op "Mul" ["c"; "y"] "m2"; op "Maximum" ["m2"; "y"] "y2"; op "Identity" ["y2"] "z"].
Definition threshold_nodes : list fnode :=
  [const "c" 0; op "Greater" ["x"; "c"] "b"; op "Cast" ["b"] "k"; op "Mul" ["k"; "x"] "y"; op "Identity" ["y"] "z"].
Definition threshold_swapped : list fnode :=
  [const "c" 0; op "Greater" ["c"; "x"] "b"; op "Cast" ["b"] "k"; op "Mul" ["k"; "x"] "y"; op "Identity" ["y"] "z"].
Definition threshold_twice : list fnode :=
  [const "c" 0; op "Greater" ["x"; "c"] "b"; op "Cast" ["b"] "k"; op "Mul" ["k"; "x"] "y";
   op "Greater" ["y"; "c"] "b2"; op "Cast" ["b2"] "k2"; op "Mul" ["k2"; "y"] "y2"; op "Identity" ["y2"] "z"].
(** distinct names *)
Fixpoint ticks (n : nat) : string := match n with 0 => "" | S n => "'" ++ ticks n end.
Definition names (k : nat) : string := "new" ++ ticks k.
Lemma names_inj i j : names i = names j -> i = j.
Proof. unfold names. cbn. intros E. injection E as E. revert j E. induction i as [|i IH]; intros [|j] E; cbn in E; try discriminate E; auto. injection E as E. f_equal. auto. Qed.

(** ** scalars *)
Definition sc (a : R) : tensor R := Tensor [] [a].
Definition half : R := (1 / 2)%R.
Definition consts : nat -> tensor R := fun id => match id with 0 => sc half | _ => Tensor [1] [half] end.
Lemma half_small : ~ (1 <= half)%R.
Proof. unfold half. lra. Qed.
Lemma consts_wf id : wf (consts id).
Proof. destruct id; reflexivity. Qed.
Lemma sc_binary f at_ a b : binary f at_ [sc a; sc b] (sc (f a b)).
Proof.
  exists (sc a), (sc b). split; [reflexivity|]. repeat (split; [reflexivity|]). split; [intros k H; cbn in H; lia|].
  intros ix H. destruct ix; [|contradiction]. exists a, b. repeat split.
Qed.
Lemma sc_map f a : map_rel f (sc a) (sc (f a)).
Proof. split; [reflexivity|]. split; [reflexivity|]. split; [reflexivity|]. intros ix H. destruct ix; [reflexivity|contradiction]. Qed.
Definition env_of (l : list (string * R)) (t : string) : tensor R := match find (fun p => String.eqb (fst p) t) l with Some p => sc (snd p) | None => sc 0 end.
Lemma append_nil s : (s ++ "" = s)%string.
Proof. induction s as [|c s IH]; cbn; [reflexivity|rewrite IH; reflexivity]. Qed.
Lemma env_of_out e t : ~ In t (map fst e) -> env_of e t = sc 0.
Proof.
  intros H. unfold env_of. induction e as [|[k v] e IH]; cbn [find]; [reflexivity|]. cbn [fst]. destruct (String.eqb_spec k t); [exfalso; apply H; left; auto|].
  apply IH. intros K. apply H. right. exact K.
Qed.
(** [e] describes a run of the graph *)
Lemma runs_with cv e ns gi go : (forall t, In t (map fst e) -> In t (defs (FGraph ns gi go))) -> (forall n, In n ns -> holds (relu_ops cv) (env_of e) n) ->
  body_rel (relu_ops cv) (env_of []) (FGraph ns gi go) (map (env_of e) gi) (map (env_of e) go).
Proof.
  intros K H. apply body_rel_eq. exists (env_of e). split; [|auto]. intros t Ht. rewrite !env_of_out; auto.
Qed.
Lemma holds_op cv e nm ty at_ ins o w : env_of e o = w -> o <> "" -> sem cv ty at_ (map (env_of e) ins) w -> holds (relu_ops cv) (env_of e) (FNode nm ty "" at_ ins [o] []).
Proof.
  intros E N S1. apply holds_eq. exists [w]. split; [split; [reflexivity|]; split; [reflexivity|]; exists w; auto|]. subst w. intros k o0 H _. destruct k as [|k]; [|destruct k; discriminate H].
  injection H as <-. reflexivity.
Qed.
Lemma holds_op_inv cv (r : env (tensor R)) nm ty at_ ins o : o <> "" -> holds (relu_ops cv) r (FNode nm ty "" at_ ins [o] []) -> sem cv ty at_ (map r ins) (r o).
Proof.
  intros N H. apply holds_eq in H. destruct H as (vs & (_ & _ & w & -> & S1) & P). specialize (P 0 o eq_refl N). injection P as <-. exact S1.
Qed.
Lemma sem_mul cv at_ ins w a b c : ins = [sc a; sc b] -> w = sc c -> c = (a * b)%R -> sem cv "Mul" at_ ins w.
Proof. intros -> -> ->. apply (sc_binary Rmult). Qed.
Lemma sem_max cv at_ ins w a b c : ins = [sc a; sc b] -> w = sc c -> c = Rmax a b -> sem cv "Maximum" at_ ins w.
Proof. intros -> -> ->. apply (sc_binary Rmax). Qed.
Lemma sem_greater cv at_ ins w a b c : ins = [sc a; sc b] -> w = sc c -> c = greater a b -> sem cv "Greater" at_ ins w.
Proof. intros -> -> ->. apply (sc_binary greater). Qed.
Lemma sem_const cv id ins w : ins = [] -> w = cv id -> sem cv "Const" [("value", ATensor id)] ins w.
Proof. intros -> ->. split; [reflexivity|]. exists id. split; reflexivity. Qed.
Lemma map_sc f a w : map_rel f (sc a) w -> w = sc (f a).
Proof. intros H. exact (map_rel_fun f _ _ _ H (sc_map f a)). Qed.
Lemma names_unused g : forallb (fun t => negb (String.prefix "new" t)) (map f_name (f_nodes g) ++ alldefs g ++ fv_graph g) = true -> unused names g.
Proof.
  intros H. split; [exact names_inj|]. rewrite forallb_forall in H.
  assert (K : forall l i, In (names i ++ l)%string (map f_name (f_nodes g) ++ alldefs g ++ fv_graph g) -> False).
  { intros l i Hi. specialize (H _ Hi). cbn in H. destruct (ticks i ++ l)%string; discriminate H. }
  intros i. split; [|split]; intros Hi.
  - apply (K "" i). apply in_or_app. left. rewrite <- (append_nil (names i)) in Hi. exact Hi.
  - apply (K ":0" i). apply in_or_app. right. apply in_or_app. left. exact Hi.
  - apply (K ":0" i). apply in_or_app. right. apply in_or_app. right. exact Hi.
Qed.
Lemma plain_check ops ns : forallb (fun n => negb (existsb (String.eqb "") (f_in n)) && (negb (existsb (String.eqb (f_op n)) ops) ||
    (match f_bodies n with [] => true | _ => false end && match f_out n with [o] => negb (String.eqb o "") | _ => false end &&
     (negb (String.eqb (f_op n) "Const") || (match f_in n with [] => true | _ => false end && match lookup "value" (f_attrs n) with Some (ATensor _) => true | _ => false end))))) ns = true -> plain ops ns.
Proof.
  intros H. rewrite forallb_forall in H. split; intros n Hn; specialize (H n Hn); apply andb_prop in H; destruct H as [H1 H2].
  - intros K. apply Bool.negb_true_iff in H1. assert (E : existsb (String.eqb "") (f_in n) = true) by (apply existsb_exists; exists ""; auto). congruence.
  - intros K. assert (E : existsb (String.eqb (f_op n)) ops = true) by (apply existsb_exists; exists (f_op n); split; [exact K|apply String.eqb_refl]).
    rewrite E in H2. cbn [negb orb] in H2. apply andb_prop in H2. destruct H2 as [H2 H4]. apply andb_prop in H2. destruct H2 as [H2 H3].
    split; [destruct (f_bodies n); [reflexivity|discriminate H2]|]. split.
    + destruct (f_out n) as [|o [|? ?]]; try discriminate H3. exists o. split; auto. intros ->. discriminate H3.
    + intros C. rewrite C in H4. cbn [String.eqb negb orb] in H4. change (String.eqb "Const" "Const") with true in H4. cbn [negb orb] in H4. apply andb_prop in H4. destruct H4 as [H4 H5].
      split; [destruct (f_in n); [reflexivity|discriminate H4]|]. destruct (lookup "value" (f_attrs n)) as [[]|]; try discriminate H5. eauto.
Qed.
Ltac nodes H := let n := fresh "n" in let I := fresh "I" in destruct H as (n & I & ?O & ?E & ?Q & ?A); cbn in I;
  repeat (destruct I as [I|I]; [subst n|]); try contradiction; cbn in *; try discriminate.
Ltac same := repeat match goal with H : [_] = [_] |- _ => inversion H; clear H; subst | H : [_; _] = [_; _] |- _ => inversion H; clear H; subst end.
