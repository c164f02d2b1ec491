(** Proofs about the products of stacks of matrices. *)
From Coq Require Import String Ascii List Arith ZArith Bool Lia Permutation.
From Verif Require Import Tensor FoldModel OnnxSpec FoldProofs TensorProofs TOps TOpsProofs IdxProofs PushProofs3 MatSpec MatModel.
Import ListNotations.
Local Open Scope list_scope.

Section Mat.
Context {A : Type}.
Variable dot : list (list A) -> A.

Lemma all_some_is {X} (l : list X) k f : length l = k -> (forall q, q < k -> f q = nth_error l q) -> all_some (map f (seq 0 k)) = Some l.
Proof.
  intros <-. revert f. induction l as [|x l IH]; intros f H; [reflexivity|]. cbn [length seq map all_some]. rewrite (H 0) by (cbn; lia). cbn [nth_error].
  rewrite <- seq_shift, map_map. rewrite (IH (fun q => f (S q))); [reflexivity|]. intros q L. apply (H (S q)). cbn. lia.
Qed.
Lemma inb_last2 sy m n ix : inb ix (sy ++ [m; n]) -> exists pre i j, ix = pre ++ [i; j] /\ inb pre sy /\ i < m /\ j < n.
Proof.
  intro H. assert (L := inb_length _ _ H). rewrite app_length in L. cbn in L. exists (firstn (length sy) ix).
  assert (E := firstn_skipn (length sy) ix). assert (L2 : length (skipn (length sy) ix) = 2) by (rewrite skipn_length; lia).
  destruct (skipn (length sy) ix) as [|i [|j [|? ?]]]; try discriminate. exists i, j. split; auto. rewrite <- E in H.
  apply inb_app in H; [|rewrite firstn_length; lia]. cbn in H. tauto.
Qed.
(** a product read with no transposition is what the operator of ONNX computes *)
Lemma matmul_spec a b y : tf_matmul dot false false a b y -> f_matmul dot a b = Some y.
Proof.
  intros (sa & sb & sy & m & k & n & Wa & Wb & Wy & Sa & Sb & H). cbv zeta in H. destruct H as (B & Sy & H).
  unfold f_matmul. rewrite Sa, Sb, !rev_app_distr. cbn [rev app]. rewrite Nat.eqb_refl. cbv zeta. rewrite !rev_involutive.
  set (r := Nat.max (length sa) (length sb)) in *. rewrite B. apply build_is; auto. intros ix I. apply inb_last2 in I. destruct I as (pre & i & j & -> & Ip & Li & Lj).
  assert (Lp := inb_length _ _ Ip). rewrite <- Lp. rewrite firstn_app, Nat.sub_diag, firstn_O, app_nil_r, firstn_all.
  rewrite (app_nth2 pre [i; j] 0 (le_n _)), Nat.sub_diag. rewrite (app_nth2 pre [i; j] 0) by lia. replace (S (length pre) - length pre) with 1 by lia. cbn [nth].
  destruct (H pre i j Ip Li Lj) as (row & (Lr & R) & G). rewrite G. rewrite (all_some_is row); auto.
  intros q L. destruct (R q L) as (u & v & E & Gu & Gv). now rewrite E, Gu, Gv.
Qed.
Lemma bcast_in r sa sb sy ix : Nat.max (length sa) (length sb) = r -> bcast_dims (pad_ones r sa) (pad_ones r sb) = Some sy -> inb ix sy -> inb (bcast_ix r sa ix) sa /\ inb (bcast_ix r sb ix) sb.
Proof.
  intros R B I. destruct (bcast_dims_spec _ _ _ B) as (L1 & L2 & N). unfold pad_ones in *. rewrite app_length, repeat_length in L1. rewrite app_length, repeat_length in N.
  assert (Lr : length sy = r) by lia. split; apply (bcast_inb r _ ix sy); auto; try lia; intros k K; destruct (N k ltac:(lia)) as [Q V].
  - rewrite V. destruct (Nat.eqb_spec (nth k (repeat 1 (r - length sa) ++ sa) 0) 1); [left; auto|right; auto].
  - rewrite V. destruct (Nat.eqb_spec (nth k (repeat 1 (r - length sa) ++ sa) 0) 1) as [E|E]; [right; auto|]. destruct Q as [Q|[Q|Q]]; [right; auto|tauto|left; auto].
Qed.
(** the last two axes swapped *)
Lemma swap_spec (t : tensor A) s u v p : wf t -> shape t = s ++ [u; v] -> swap_last (length (shape t)) = Some p ->
  exists y, f_transpose (Some p) t = Some y /\ wf y /\ shape y = s ++ [v; u] /\ forall ix i j, inb ix s -> i < v -> j < u -> get y (ix ++ [i; j]) = get t (ix ++ [j; i]).
Proof.
  intros W Sh P. assert (L : length (shape t) = length s + 2) by (rewrite Sh, app_length; reflexivity).
  unfold swap_last in P. rewrite L in P. rewrite (proj2 (Nat.leb_le 2 _)) in P by lia. injection P as <-.
  destruct (swap_blocks s [u] [v] [] t W) as (y & T & Wy & Sy & G); [exact Sh|]. cbn [length seq app] in T.
  replace (length s + 2 - 2) with (length s) by lia. replace (length s + 2 - 1) with (length s + 1) by lia.
  exists y. split; [exact T|]. split; auto. split; [exact Sy|]. intros ix i j I Hi Hj. apply (G ix [j] [i] []); cbn; auto.
Qed.
Lemma matmul_a tb a b y : tf_matmul dot true tb a b y -> exists p a', swap_last (length (shape a)) = Some p /\ f_transpose (Some p) a = Some a' /\ tf_matmul dot false tb a' b y.
Proof.
  intros (sa & sb & sy & m & k & n & Wa & Wb & Wy & Sa & Sb & H). cbv zeta in H. destruct H as (B & Sy & H). cbv iota in *.
  assert (P : swap_last (length (shape a)) = Some (seq 0 (length (shape a) - 2) ++ [length (shape a) - 1; length (shape a) - 2])) by (unfold swap_last; rewrite Sa, app_length, (proj2 (Nat.leb_le 2 _)) by (cbn; lia); reflexivity).
  destruct (swap_spec a sa k m _ Wa Sa P) as (a' & T & Wa' & Sa' & G). eexists _, a'. split; [exact P|]. split; [exact T|].
  exists sa, sb, sy, m, k, n. do 5 (split; [solve [auto]|]). cbv zeta. split; [exact B|]. split; auto. intros ix i j I Li Lj.
  destruct (H ix i j I Li Lj) as (row & (Lr & R) & V). exists row. split; auto. split; auto. intros l Ll. destruct (R l Ll) as (u & v & E & Gu & Gv). exists u, v. split; auto. split; auto.
  rewrite G; auto. apply (bcast_in _ sa sb sy ix eq_refl B I).
Qed.
Lemma matmul_b ta a b y : tf_matmul dot ta true a b y -> exists p b', swap_last (length (shape b)) = Some p /\ f_transpose (Some p) b = Some b' /\ tf_matmul dot ta false a b' y.
Proof.
  intros (sa & sb & sy & m & k & n & Wa & Wb & Wy & Sa & Sb & H). cbv zeta in H. destruct H as (B & Sy & H). cbv iota in *.
  assert (P : swap_last (length (shape b)) = Some (seq 0 (length (shape b) - 2) ++ [length (shape b) - 1; length (shape b) - 2])) by (unfold swap_last; rewrite Sb, app_length, (proj2 (Nat.leb_le 2 _)) by (cbn; lia); reflexivity).
  destruct (swap_spec b sb n k _ Wb Sb P) as (b' & T & Wb' & Sb' & G). eexists _, b'. split; [exact P|]. split; [exact T|].
  exists sa, sb, sy, m, k, n. do 5 (split; [solve [auto]|]). cbv zeta. split; [exact B|]. split; auto. intros ix i j I Li Lj.
  destruct (H ix i j I Li Lj) as (row & (Lr & R) & V). exists row. split; auto. split; auto. intros l Ll. destruct (R l Ll) as (u & v & E & Gu & Gv). exists u, v. split; auto. split; auto.
  rewrite G; auto. apply (bcast_in _ sa sb sy ix eq_refl B I).
Qed.
Lemma matmul_rank ta tb a b y : tf_matmul dot ta tb a b y -> 2 <= length (shape a) /\ 2 <= length (shape b).
Proof. intros (sa & sb & sy & m & k & n & Wa & Wb & Wy & Sa & Sb & H). rewrite Sa, Sb, !app_length. destruct ta, tb; cbn; lia. Qed.

Variable less : A -> Z -> A.
Lemma transposed_a z tb a b y e : transposed z (Some (length (shape a))) (MIn 0) = Some e -> tf_matmul dot (negb (Z.eqb z 0)) tb a b y ->
  exists a', mval dot less [a; b] e a' /\ tf_matmul dot false tb a' b y.
Proof.
  intros E T. assert (R := matmul_rank _ _ _ _ _ T). unfold transposed in E. destruct (Z.eqb z 0) eqn:Z0.
  - injection E as <-. exists a. split; [reflexivity|auto].
  - cbn [negb] in T. destruct (matmul_a _ _ _ _ T) as (p & a' & P & F & T'). destruct (length (shape a)) as [|r] eqn:L; [lia|]. rewrite P in E. injection E as <-.
    exists a'. split; auto. cbn [mval]. exists a. split; auto.
Qed.
Lemma transposed_b z a0 ta a b y e : transposed z (Some (length (shape b))) (MIn 1) = Some e -> tf_matmul dot ta (negb (Z.eqb z 0)) a b y ->
  exists b', mval dot less [a0; b] e b' /\ tf_matmul dot ta false a b' y.
Proof.
  intros E T. assert (R := matmul_rank _ _ _ _ _ T). unfold transposed in E. destruct (Z.eqb z 0) eqn:Z0.
  - injection E as <-. exists b. split; [reflexivity|auto].
  - cbn [negb] in T. destruct (matmul_b _ _ _ _ T) as (p & b' & P & F & T'). destruct (length (shape b)) as [|r] eqn:L; [lia|]. rewrite P in E. injection E as <-.
    exists b'. split; auto. cbn [mval]. exists b. split; auto.
Qed.
Lemma f_unary_id (f : A -> A) t : (forall v, f v = v) -> f_unary f t = t.
Proof. intro H. destruct t as [s d]. unfold f_unary. cbn [shape data]. f_equal. rewrite <- (map_id d) at 2. apply map_ext. auto. Qed.
Definition flags (f1 f2 f3 : option Z) : bool := negb (Z.eqb ((attr_val f1 + attr_val f2 + attr_val f3) mod 2) 0).
Lemma matmul_ok opset at_ t1 t2 ty a b y e : (forall v, less v 0%Z = v) ->
  matmul opset at_ t1 t2 ty (Some (length (shape a))) (Some (length (shape b))) = Some e ->
  tf_matmul dot (flags (transpose_a at_) (adjoint_a at_) (adj_x at_)) (flags (transpose_b at_) (adjoint_b at_) (adj_y at_)) a b y -> mval dot less [a; b] e y.
Proof.
  intros Z0 E T. unfold flags in T.
  assert (K : forall mk, (forall e1 e2 u v, mval dot less [a; b] e1 u -> mval dot less [a; b] e2 v -> f_matmul dot u v = Some y -> mval dot less [a; b] (mk e1 e2) y) ->
    version_1 at_ ty (Some (length (shape a))) (Some (length (shape b))) mk = Some e -> mval dot less [a; b] e y).
  { intros mk Hm V. unfold version_1 in V. cbv zeta in V. destruct (_ && _) in V; [discriminate|].
    destruct (transposed _ _ (MIn 0)) as [ea|] eqn:Ea in V; [|discriminate]. destruct (transposed _ _ (MIn 1)) as [eb|] eqn:Eb in V; [|discriminate].
    destruct (_ || _) in V; [discriminate|]. injection V as <-.
    destruct (transposed_a _ _ _ _ _ _ Ea T) as (a' & Va & T'). destruct (transposed_b _ a _ _ _ _ _ Eb T') as (b' & Vb & T''). apply (Hm _ _ _ _ Va Vb). now apply matmul_spec. }
  unfold matmul in E. cbv zeta in E. destruct (_ && _) in E; apply K in E; auto; intros e1 e2 u v V1 V2 F; cbn [mval]; exists u, v; split; auto; split; auto.
  rewrite !f_unary_id by auto. auto.
Qed.
End Mat.
