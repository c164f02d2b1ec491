(** C59: operators that meet the hypotheses, and small graphs. *)
From Coq Require Import String List Bool Arith Lia ZArith Reals Lra.
From Verif Require Import FGraph FGraphProofs FGraphSpec Tensor OnnxSpec PushSpec TensorProofs FoldFunProofs DetProofs RewModel RewSpec RewWitness GemmSpec.
Import ListNotations.
Local Open Scope string_scope. Local Open Scope list_scope. Local Open Scope nat_scope.

Section Ops.
Variable cval : nat -> tensor R.
Definition gsem (op : string) (at_ : list (string * attr)) (ins : list (tensor R)) (w : tensor R) : Prop :=
  if String.eqb op "Const" then ins = [] /\ exists id, lookup "value" at_ = Some (ATensor id) /\ w = cval id
  else if String.eqb op "Mul" then binary Rmult at_ ins w
  else if String.eqb op "Add" then binary Rplus at_ ins w
  else if String.eqb op "AddV2" then binary Rplus at_ ins w
  else if String.eqb op "BiasAdd" then exists x b, ins = [x; b] /\ length (shape b) = 1 /\ elementwise_rel Rplus x b w
  else if String.eqb op "Identity" then ins = [w]
  else if String.eqb op "MatMul" then exists a b ta tb, ins = [a; b] /\ flag "transpose_a" at_ ta /\ flag "transpose_b" at_ tb /\ matmul_rel ta tb a b w
  else if String.eqb op "Gemm" then exists a b c ta tb al be, ins = [a; b; c] /\ flag "transA" at_ ta /\ flag "transB" at_ tb /\
    factor cval "alpha" at_ al /\ factor cval "beta" at_ be /\ gemm_rel ta tb al be a b c w
  else False.
Definition gemm_op_rel (op dom : string) (at_ : list (string * attr)) (k : nat) (ins : list (tensor R)) (bs : list (list (tensor R) -> list (tensor R) -> Prop)) (vs : list (tensor R)) : Prop :=
  k = 1 /\ bs = [] /\ exists w, vs = [w] /\ gsem op at_ ins w.
Lemma is_op_gsem op rel : (forall at_ ins w, gsem op at_ ins w <-> rel at_ ins w) -> is_op gemm_op_rel op rel.
Proof.
  intros H dom at_ ins vs. unfold gemm_op_rel. split.
  - intros (_ & _ & w & -> & S1). exists w. split; auto. apply H. exact S1.
  - intros (w & -> & S1). split; auto. split; auto. exists w. split; auto. apply H. exact S1.
Qed.
Lemma flag_fun key at_ b b' : flag key at_ b -> flag key at_ b' -> b = b'.
Proof. intros (z & E & ->) (z' & E' & ->). congruence. Qed.
Lemma factor_fun key at_ a a' : factor cval key at_ a -> factor cval key at_ a' -> a = a'.
Proof. intros [[E ->]|(i & E & D)] [[E' ->]|(i' & E' & D')]; congruence. Qed.
Lemma gemm_op_means : gemm_means gemm_op_rel cval.
Proof.
  split; try (apply is_op_gsem; intros at_ ins w; reflexivity).
  - intros dom at_ ins vs (_ & _ & w & -> & x & b & -> & L & E). exists x, b, w. auto.
  - intros dom at_ ins vs (_ & _ & w & -> & a & b & ta & tb & -> & F1 & F2 & E). exists a, b, w. split; auto. split; auto. intros ta' tb' F1' F2' _ _.
    rewrite (flag_fun _ _ _ _ F1' F1), (flag_fun _ _ _ _ F2' F2). exact E.
  - intros at_ a b c y ta tb al be F1 F2 F3 F4 G. split; auto. split; auto. exists y. split; auto. exists a, b, c, ta, tb, al, be. auto 10.
Qed.
Lemma gemm_op_ext : op_ext gemm_op_rel.
Proof. intros op dom at_ k ins bs bs' vs H (A & B & w & C & D). subst bs. inversion H. subst. split; auto. split; auto. exists w. auto. Qed.
Lemma matrix_ext m n (y z : tensor R) (f : nat -> nat -> R) : wf y -> wf z -> shape y = [m; n] -> shape z = [m; n] ->
  (forall i j, i < m -> j < n -> get y [i; j] = Some (f i j)) -> (forall i j, i < m -> j < n -> get z [i; j] = Some (f i j)) -> y = z.
Proof.
  intros Wy Wz Ey Ez Gy Gz. apply tensor_ext; auto; [congruence|]. intros ix I. rewrite Ey in I. destruct ix as [|i [|j [|? ?]]]; cbn in I; try tauto. rewrite Gy, Gz by tauto. reflexivity.
Qed.
Lemma matrix_dims t x m n m' n' : matrix t x m n -> matrix t x m' n' -> m = m' /\ n = n'.
Proof. intros [_ E] [_ E']. rewrite E in E'. destruct t; injection E' as -> ->; auto. Qed.
Lemma gemm_op_det : deterministic gemm_op_rel.
Proof.
  intros op dom at_ k ins bs vs vs' _ (_ & _ & w & -> & H) (_ & _ & w' & -> & H'). f_equal. unfold gsem in H, H'.
  destruct (String.eqb op "Const"). { destruct H as (_ & i & E & ->), H' as (_ & i' & E' & ->). congruence. }
  destruct (String.eqb op "Mul"); [eapply binary_fun; eauto|]. destruct (String.eqb op "Add"); [eapply binary_fun; eauto|]. destruct (String.eqb op "AddV2"); [eapply binary_fun; eauto|].
  destruct (String.eqb op "BiasAdd"). { destruct H as (x & b & -> & _ & H), H' as (x' & b' & E & _ & H'). injection E as <- <-. eapply elementwise_fun; eauto. }
  destruct (String.eqb op "Identity"); [congruence|]. destruct (String.eqb op "MatMul").
  { destruct H as (a & b & ta & tb & -> & F1 & F2 & m & k0 & n & Ma & Mb & W & S & G), H' as (a' & b' & ta' & tb' & E & F1' & F2' & m' & k' & n' & Ma' & Mb' & W' & S' & G'). injection E as <- <-.
    rewrite <- (flag_fun _ _ _ _ F1 F1') in *. rewrite <- (flag_fun _ _ _ _ F2 F2') in *. destruct (matrix_dims _ _ _ _ _ _ Ma Ma') as [<- <-]. destruct (matrix_dims _ _ _ _ _ _ Mb Mb') as [_ <-].
    exact (matrix_ext m n w w' _ W W' S S' G G'). }
  destruct (String.eqb op "Gemm"); [|contradiction].
  destruct H as (a & b & c & ta & tb & al & be & -> & F1 & F2 & F3 & F4 & m & k0 & n & Ma & Mb & Wc & Ic & W & S & G), H' as (a' & b' & c' & ta' & tb' & al' & be' & E & F1' & F2' & F3' & F4' & m' & k' & n' & Ma' & Mb' & Wc' & Ic' & W' & S' & G'). injection E as <- <- <-.
  rewrite <- (flag_fun _ _ _ _ F1 F1') in *. rewrite <- (flag_fun _ _ _ _ F2 F2') in *. rewrite <- (factor_fun _ _ _ _ F3 F3') in *. rewrite <- (factor_fun _ _ _ _ F4 F4') in *.
  destruct (matrix_dims _ _ _ _ _ _ Ma Ma') as [<- <-]. destruct (matrix_dims _ _ _ _ _ _ Mb Mb') as [_ <-].
  exact (matrix_ext m n w w' _ W W' S S' G G').
Qed.
End Ops.

(** ** graphs *)
Definition matmul (a b o : string) : fnode := FNode ("node_" ++ o) "MatMul" "" [("transpose_a", AInt 0); ("transpose_b", AInt 0)] [a; b] [o] [].
(** two dense layers; the second one scales its product *)
Definition dense : list fnode :=
  [matmul "x" "w" "p"; op "AddV2" ["p"; "b"] "y"; matmul "y" "w" "q"; const "k" 0; op "Mul" ["k"; "q"] "kq"; op "AddV2" ["b"; "kq"] "z"; op "Identity" ["z"] "o"].
(** the result of one layer is added in the next *)
Definition residual : list fnode :=
  [matmul "x" "w" "p"; op "AddV2" ["p"; "b"] "y"; matmul "x" "w" "q"; op "AddV2" ["q"; "y"] "z"; op "Identity" ["z"] "o"].
(** everything is 1 x 1, b has one dimension *)
Definition small (t : string) : option (list Z) := if mem t ["x"; "w"; "p"; "y"; "q"; "kq"; "z"; "o"] then Some [1%Z; 1%Z] else if String.eqb t "b" then Some [1%Z] else None.
Definition floats (t : string) : option Z := Some 1%Z.
Definition m1 (a : R) : tensor R := Tensor [1; 1] [a].
Definition v1 (a : R) : tensor R := Tensor [1] [a].
Lemma m1_matmul a b c : c = (a * b)%R -> matmul_rel false false (m1 a) (m1 b) (m1 c).
Proof.
  intros ->. exists 1, 1, 1. split; [split; reflexivity|]. split; [split; reflexivity|]. split; [reflexivity|]. split; [reflexivity|].
  intros i j Hi Hj. assert (i = 0) by lia. assert (j = 0) by lia. subst. unfold product. cbn [sum]. unfold entry, elt. cbn. f_equal. ring.
Qed.
Lemma m1_mul f k a c : c = f k a -> binary f [] [sc k; m1 a] (m1 c).
Proof.
  intros ->. exists (sc k), (m1 a). split; [reflexivity|]. repeat (split; [reflexivity|]). split; [intros [|[|n]] H; cbn in H; [cbn; auto|cbn; auto|lia]|].
  intros ix H. destruct ix as [|i [|j [|? ?]]]; cbn in H; try tauto. assert (i = 0) by lia. assert (j = 0) by lia. subst. exists k, a. repeat split.
Qed.
Lemma m1_add f a b c : c = f a b -> binary f [] [m1 a; v1 b] (m1 c).
Proof.
  intros ->. exists (m1 a), (v1 b). split; [reflexivity|]. repeat (split; [reflexivity|]). split; [intros [|[|n]] H; cbn in H; [cbn; auto|cbn; auto|lia]|].
  intros ix H. destruct ix as [|i [|j [|? ?]]]; cbn in H; try tauto. assert (i = 0) by lia. assert (j = 0) by lia. subst. exists a, b. repeat split.
Qed.
Lemma m1_add' f a b c : c = f b a -> binary f [] [v1 b; m1 a] (m1 c).
Proof.
  intros ->. exists (v1 b), (m1 a). split; [reflexivity|]. repeat (split; [reflexivity|]). split; [intros [|[|n]] H; cbn in H; [cbn; auto|cbn; auto|lia]|].
  intros ix H. destruct ix as [|i [|j [|? ?]]]; cbn in H; try tauto. assert (i = 0) by lia. assert (j = 0) by lia. subst. exists b, a. repeat split.
Qed.
Lemma m1_sum f a b c : c = f a b -> binary f [] [m1 a; m1 b] (m1 c).
Proof.
  intros ->. exists (m1 a), (m1 b). split; [reflexivity|]. repeat (split; [reflexivity|]). split; [intros [|[|n]] H; cbn in H; [cbn; auto|cbn; auto|lia]|].
  intros ix H. destruct ix as [|i [|j [|? ?]]]; cbn in H; try tauto. assert (i = 0) by lia. assert (j = 0) by lia. subst. exists a, b. repeat split.
Qed.
Definition tenv (l : list (string * tensor R)) (t : string) : tensor R := match find (fun p => String.eqb (fst p) t) l with Some p => snd p | None => sc 0 end.
Lemma gholds cv r nm ty at_ ins o : o <> "" -> gsem cv ty at_ (map r ins) (r o) -> holds (gemm_op_rel cv) r (FNode nm ty "" at_ ins [o] []).
Proof.
  intros N S1. apply holds_eq. exists [r o]. split; [split; [reflexivity|]; split; [reflexivity|]; exists (r o); auto|]. intros k o0 H _. destruct k as [|k]; [|destruct k; discriminate H].
  injection H as <-. reflexivity.
Qed.
Lemma gholds_inv cv (r : env (tensor R)) nm ty at_ ins o : o <> "" -> holds (gemm_op_rel cv) r (FNode nm ty "" at_ ins [o] []) -> gsem cv ty at_ (map r ins) (r o).
Proof.
  intros N H. apply holds_eq in H. destruct H as (vs & (_ & _ & w & -> & S1) & P). specialize (P 0 o eq_refl N). injection P as <-. exact S1.
Qed.
Definition factors : nat -> tensor R := fun id => match id with 0 => sc 2 | _ => Tensor [1; 1] [2%R] end.
