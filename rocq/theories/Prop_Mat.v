(** C78: products of matrices and Einsum. *)
From Coq Require Import String Ascii List Arith ZArith Bool Lia.
From Verif Require Import Tensor FoldModel OnnxSpec TOps TOpsProofs MatSpec MatModel MatProofs EinsumProofs.
Import ListNotations.
Local Open Scope list_scope.

Lemma on_mod f1 f2 f3 : is_flag f1 -> is_flag f2 -> is_flag f3 -> flags f1 f2 f3 = xorb (on f1) (xorb (on f2) (on f3)).
Proof. intros [-> |[-> | ->]] [-> |[-> | ->]] [-> |[-> | ->]]; reflexivity. Qed.
(** with the recorded ranks of the operands: the product that TensorFlow computes, the operands transposed as the flags say (two flags
    cancel each other), for every way [dot] of adding the products up; [less] subtracts a zero point *)
Theorem C78_matmul_partial : forall A (dot : list (list A) -> A) less opset at_ t1 t2 ty (a b y : tensor A) e, (forall v, less v 0%Z = v) ->
  Forall is_flag [transpose_a at_; adjoint_a at_; adj_x at_; transpose_b at_; adjoint_b at_; adj_y at_] ->
  matmul opset at_ t1 t2 ty (Some (length (shape a))) (Some (length (shape b))) = Some e ->
  tf_matmul dot (xorb (on (transpose_a at_)) (xorb (on (adjoint_a at_)) (on (adj_x at_)))) (xorb (on (transpose_b at_)) (xorb (on (adjoint_b at_)) (on (adj_y at_)))) a b y ->
  mval dot less [a; b] e y.
Proof.
  intros A dot less opset at_ t1 t2 ty a b y e L F E T. rewrite !Forall_cons_iff in F. destruct F as (F1 & F2 & F3 & F4 & F5 & F6 & _).
  eapply matmul_ok; eauto. now rewrite !on_mod.
Qed.
(** operands whose rank is not recorded are not transposed at all *)
Definition zdot (l : list (list Z)) : Z := fold_right (fun r s => (fold_right Z.mul 1 r + s)%Z) 0%Z l.
Definition m1234 : tensor Z := Tensor [2; 2] [1; 2; 3; 4]%Z.
Theorem C78_matmul_unknown_rank_refuted : exists at_ e y, Forall is_flag [transpose_a at_; transpose_b at_] /\ on (transpose_a at_) = true /\
  matmul 13 at_ (Some "FLOAT"%string) (Some "FLOAT"%string) (Some "FLOAT"%string) None None = Some e /\
  tf_matmul zdot true false m1234 m1234 y /\ (exists y', mval zdot Z.sub [m1234; m1234] e y') /\ ~ mval zdot Z.sub [m1234; m1234] e y.
Proof.
  exists (MMAttrs (Some 1%Z) (Some 0%Z) None None None None None None). eexists. exists (Tensor [2; 2] [10; 14; 14; 20]%Z).
  split; [unfold is_flag; cbn; auto|]. split; [reflexivity|]. split; [reflexivity|]. split; [|split].
  - exists [], [], [], 2, 2, 2. do 5 (split; [reflexivity|]). cbv zeta. split; [reflexivity|]. split; [reflexivity|]. intros [|? ?] i j; cbn [inb]; [intros _|tauto]. intros Li Lj.
    assert (Hi : i = 0 \/ i = 1) by lia. assert (Hj : j = 0 \/ j = 1) by lia.
    destruct Hi as [-> | ->], Hj as [-> | ->]; (eexists [[_; _]; [_; _]]; split; [split; [reflexivity|intros [|[|l]] Ll; [eexists _, _; split; [reflexivity|split; reflexivity]|eexists _, _; split; [reflexivity|split; reflexivity]|lia]]|reflexivity]).
  - eexists. cbn [mval]. eexists _, _. split; [reflexivity|]. split; reflexivity.
  - cbn [mval]. intros (a & b & Ea & Eb & H). injection Ea as <-. injection Eb as <-. vm_compute in H. discriminate.
Qed.
(** what is refused *)
Theorem C78_matmul_accepted : forall opset at_ t1 t2 ty ra rb, Forall is_flag [transpose_a at_; adjoint_a at_; adj_x at_; transpose_b at_; adjoint_b at_; adj_y at_; a_is_sparse at_; b_is_sparse at_] ->
  ((exists e, matmul opset at_ t1 t2 ty ra rb = Some e) <->
   (on (adjoint_a at_) || on (adjoint_b at_) || on (adj_x at_) || on (adj_y at_) = true -> In ty [Some "FLOAT"; Some "FLOAT16"; Some "DOUBLE"]%string) /\
   on (a_is_sparse at_) = false /\ on (b_is_sparse at_) = false /\
   (xorb (on (transpose_a at_)) (xorb (on (adjoint_a at_)) (on (adj_x at_))) = true -> ra <> Some 1) /\
   (xorb (on (transpose_b at_)) (xorb (on (adjoint_b at_)) (on (adj_y at_))) = true -> rb <> Some 1)).
Proof.
  intros opset at_ t1 t2 ty ra rb F. rewrite !Forall_cons_iff in F. destruct F as (F1 & F2 & F3 & F4 & F5 & F6 & F7 & F8 & _).
  rewrite <- !on_mod by auto.
  assert (K : forall mk, (exists e, version_1 at_ ty ra rb mk = Some e) <-> (on (adjoint_a at_) || on (adjoint_b at_) || on (adj_x at_) || on (adj_y at_) = true -> In ty [Some "FLOAT"; Some "FLOAT16"; Some "DOUBLE"]%string) /\
   on (a_is_sparse at_) = false /\ on (b_is_sparse at_) = false /\ (flags (transpose_a at_) (adjoint_a at_) (adj_x at_) = true -> ra <> Some 1) /\ (flags (transpose_b at_) (adjoint_b at_) (adj_y at_) = true -> rb <> Some 1)).
  { intro mk. unfold version_1. cbv zeta.
    assert (Ex : existsb (fun z => negb (Z.eqb z 0)) [attr_val (adjoint_a at_); attr_val (adjoint_b at_); attr_val (adj_x at_); attr_val (adj_y at_)] = on (adjoint_a at_) || on (adjoint_b at_) || on (adj_x at_) || on (adj_y at_)).
    { cbn [existsb]. destruct F2 as [-> |[-> | ->]], F3 as [-> |[-> | ->]], F5 as [-> |[-> | ->]], F6 as [-> |[-> | ->]]; reflexivity. }
    rewrite Ex. assert (Ht : is_type ["FLOAT"; "FLOAT16"; "DOUBLE"]%string ty = true <-> In ty [Some "FLOAT"; Some "FLOAT16"; Some "DOUBLE"]%string).
    { destruct ty as [ty|]; cbn [is_type existsb In]; [|intuition discriminate]. rewrite !orb_true_iff, !String.eqb_eq. intuition congruence. }
    assert (Tr : forall z r i, (exists e, transposed z r (MIn i) = Some e) <-> (negb (Z.eqb z 0) = true -> r <> Some 1)).
    { intros z r i. unfold transposed. destruct (Z.eqb z 0); cbn [negb]; [split; [discriminate|eauto]|]. destruct r as [[|[|r]]|].
      - split; [intros _ _; discriminate|eauto].
      - cbn. split; [intros [e H]; discriminate|intro H; exfalso; now apply H].
      - split; [intros _ _; discriminate|intros _; eexists; reflexivity].
      - split; [intros _ _; discriminate|eauto]. }
    assert (Sp : forall o, is_flag o -> negb (Z.eqb (attr_val o) 0) = on o) by (intros o [-> |[-> | ->]]; reflexivity).
    rewrite !Sp by auto. unfold flags. rewrite <- (Tr _ _ 0), <- (Tr _ _ 1), <- Ht.
    destruct (on (adjoint_a at_) || on (adjoint_b at_) || on (adj_x at_) || on (adj_y at_)); [destruct (is_type _ ty)|]; cbn [andb negb].
    all: try (split; [intros [e H]; discriminate|intros (H & _); specialize (H eq_refl); discriminate]).
    all: destruct (transposed _ ra _) as [ea|], (transposed _ rb _) as [eb|], (on (a_is_sparse at_)), (on (b_is_sparse at_)); cbn [orb].
    all: split; [intros [e H]; try discriminate; repeat split; eauto; discriminate|intros (H0 & H1 & H2 & [e1 H3] & [e2 H4]); try discriminate; eauto]. }
  unfold matmul. cbv zeta. destruct (_ && _); apply K.
Qed.
(** every equation between groups of letters whose labels stay distinct in lower case *)
Theorem C78_einsum_partial : forall A (dot : list (list A) -> A) less terms rhs (xs : list (tensor A)) y, terms <> [] -> Forall (Forall letter) terms -> Forall letter rhs ->
  (forall c d, In c (concat terms) -> In d (concat terms) -> lower c = lower d -> c = d) ->
  einsum_rel dot terms rhs xs y -> mval dot less xs (einsum (render terms rhs)) y.
Proof. intros. eapply einsum_ok; eauto. Qed.
(** "aA,Ab->ab": two labels become one *)
Definition flip2 : tensor Z := Tensor [2; 2] [0; 1; 1; 0]%Z.
Theorem C78_einsum_upper_case_refuted : exists terms rhs y, Forall (Forall letter) terms /\ Forall letter rhs /\
  einsum_rel zdot terms rhs [m1234; flip2] y /\ ~ mval zdot Z.sub [m1234; flip2] (einsum (render terms rhs)) y.
Proof.
  exists [["a"; "A"]; ["A"; "b"]]%char, ["a"; "b"]%char, (Tensor [2; 2] [2; 1; 4; 3]%Z).
  assert (La : letter "a"%char) by (unfold letter; cbn; lia). assert (Lb : letter "b"%char) by (unfold letter; cbn; lia). assert (LA : letter "A"%char) by (unfold letter; cbn; lia).
  split; [auto 10|]. split; [auto|]. split.
  - split; [repeat constructor; cbn; intuition discriminate|]. split; [intros c; cbn; tauto|]. exists (fun _ => 2). split; [repeat constructor|]. split; [reflexivity|]. split; [reflexivity|].
    intros env He. assert (Ha := He "a"%char (or_introl eq_refl)). assert (Hb := He "b"%char (or_intror (or_introl eq_refl))). cbv zeta.
    change (summed [["a"; "A"]; ["A"; "b"]]%char ["a"; "b"]%char) with ["A"%char]. change (size (map (fun _ => 2) ["A"%char])) with 2.
    cbn [map combine]. assert (Hi : env "a"%char = 0 \/ env "a"%char = 1) by lia. assert (Hj : env "b"%char = 0 \/ env "b"%char = 1) by lia.
    destruct Hi as [Hi|Hi], Hj as [Hj|Hj]; (eexists [[_; _]; [_; _]]; split; [reflexivity|split;
      [intros [|[|q]] Lq; [| |lia]; (eexists; split; [reflexivity|]; constructor; [|constructor; [|constructor]]; cbn [fst snd map];
         change (assign ["A"%char] ?x env "A"%char) with (nth 0 x 0); change (assign ["A"%char] ?x env "a"%char) with (env "a"%char); change (assign ["A"%char] ?x env "b"%char) with (env "b"%char); rewrite ?Hi, ?Hj; reflexivity)
      |rewrite Hi, Hj; reflexivity]]).
  - assert (E : einsum (render [["a"; "A"]; ["A"; "b"]] ["a"; "b"])%char = MEinsum (render [["a"; "a"]; ["a"; "b"]] ["a"; "b"])%char) by reflexivity. rewrite E. cbn [mval].
    intros (terms & rhs & Er & Ft & Fr & R). assert (N : terms <> []) by (destruct R as (_ & _ & dim & F & _); inversion F; discriminate).
    destruct (read_equation terms rhs N Ft Fr) as [P1 P2]. rewrite <- Er in P1. cbn in P1. injection P1 as P1 P3. rewrite <- P1 in P2. cbn in P2. subst terms rhs.
    destruct R as (_ & _ & dim & F & Wy & Sy & R). cbn [map] in Sy. injection Sy as S1 S2. destruct (R (fun _ => 0)) as (rows & Lr & Rq & Gy).
    { intros c [<-|[<-|[]]]; cbn beta; rewrite <- ?S1, <- ?S2; lia. }
    change (summed [["a"; "a"]; ["a"; "b"]]%char ["a"; "b"]%char) with (@nil ascii) in *. cbn in Lr. destruct (Rq 0) as (vs & Ev & V); [cbn; lia|].
    destruct rows as [|row [|? ?]]; try discriminate. injection Ev as ->. cbn in V. inversion V as [|? v1 ? ? G1 V1]; subst. inversion V1 as [|? v2 ? ? G2 V2]; subst. inversion V2; subst.
    cbn in G1, G2, Gy. injection G1 as <-. injection G2 as <-. cbn in Gy. discriminate.
Qed.

(** the hypotheses are met: "bik,kj->bij" with b transposed becomes MatMul *)
Example einsum_mm : einsum (list_ascii_of_string "bik,jk->bij"%string) = MMatMul (MIn 0) (MTranspose [1; 0] (MIn 1)).
Proof. reflexivity. Qed.
Example einsum_no : einsum (list_ascii_of_string "bik,bkj->bij"%string) = MEinsum (list_ascii_of_string "bik,bkj->bij"%string).
Proof. reflexivity. Qed.
Example matmul_tt : matmul 13 (MMAttrs (Some 1%Z) (Some 1%Z) None None None None None None) (Some "FLOAT"%string) (Some "FLOAT"%string) (Some "FLOAT"%string) (Some 3) (Some 2) =
  Some (MMatMul (MTranspose [0; 2; 1] (MIn 0)) (MTranspose [1; 0] (MIn 1))).
Proof. reflexivity. Qed.
Print Assumptions C78_matmul_partial.
Print Assumptions C78_einsum_partial.
