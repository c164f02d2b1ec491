(** Proofs about ReduceModel. *)
From Coq Require Import List Arith ZArith Bool String Lia Permutation Reals Lra.
From Flocq Require Import Core BinarySingleNaN.
From Verif Require Import Tensor OnnxSpec ReduceSpec ReduceModel.
From Verif Require ElemSpec ElemModel ElemFloat RangeSpec.
Import ListNotations.
Local Open Scope list_scope.
Local Notation length := List.length.

(** ** indices *)
Lemma in_indices sh ix : In ix (indices sh) <-> inb ix sh.
Proof.
  unfold indices. rewrite in_map_iff. split.
  - intros (k & <- & H). apply in_seq in H. apply unravel_inb. lia.
  - intro H. exists (ravel sh ix). split; [now apply unravel_ravel|]. apply in_seq. assert (L := ravel_lt ix sh H). lia.
Qed.
Fixpoint kept_from (k : nat) (ax sh : list nat) : list nat :=
  match sh with [] => [] | d :: sh' => (if existsb (Nat.eqb k) ax then 1 else d) :: kept_from (S k) ax sh' end.
Lemma kept_rec ax sh : kept ax sh = kept_from 0 ax sh.
Proof.
  unfold kept. assert (G : forall sh k, map (fun j => if existsb (Nat.eqb j) ax then 1 else nth (j - k) sh 0) (seq k (length sh)) = kept_from k ax sh).
  { clear. induction sh as [|d sh IH]; intro k; [reflexivity|]. cbn [length seq map kept_from]. rewrite Nat.sub_diag. f_equal. rewrite <- IH. apply map_ext_in. intros j Hj. apply in_seq in Hj.
    replace (j - k) with (S (j - S k)) by lia. reflexivity. }
  rewrite <- G. apply map_ext. intro j. now rewrite Nat.sub_0_r.
Qed.
Lemma drop_inb ax sh : forall k ix, inb ix (kept_from k ax sh) -> inb (drop_from k ax ix) (drop_from k ax sh).
Proof.
  induction sh as [|d sh IH]; intros k [|i ix] H; cbn in *; try tauto. destruct H as [H K]. destruct (existsb (Nat.eqb k) ax); [now apply IH|]. cbn. auto.
Qed.
Lemma drop_inj ax sh : forall k ix jx, inb ix (kept_from k ax sh) -> inb jx (kept_from k ax sh) -> drop_from k ax ix = drop_from k ax jx -> ix = jx.
Proof.
  induction sh as [|d sh IH]; intros k [|i ix] [|j jx] H1 H2 E; cbn in *; try tauto. destruct H1 as [H1 K1], H2 as [H2 K2]. destruct (existsb (Nat.eqb k) ax).
  - f_equal; [lia|]. now apply (IH (S k)).
  - injection E as -> E. f_equal. now apply (IH (S k)).
Qed.
Lemma drop_surj ax sh : forall k jx, inb jx (drop_from k ax sh) -> exists ix, inb ix (kept_from k ax sh) /\ drop_from k ax ix = jx.
Proof.
  induction sh as [|d sh IH]; intros k jx H; cbn in *.
  - destruct jx; [|destruct H]. exists []. cbn. auto.
  - destruct (existsb (Nat.eqb k) ax) eqn:E.
    + destruct (IH (S k) jx H) as (ix & A & B). exists (0 :: ix). cbn. rewrite E. auto.
    + destruct jx as [|j jx]; [destruct H|]. destruct H as [Hj H]. destruct (IH (S k) jx H) as (ix & A & B). exists (j :: ix). cbn. rewrite E, B. auto.
Qed.
(** the index of the result that belongs to an index with the reduced axes *)
Definition out_ix (keep : bool) (ax ix : list nat) : list nat := if keep then ix else drop_axes ax ix.
Definition out_shape (keep : bool) (ax sh : list nat) : list nat := if keep then kept ax sh else drop_axes ax sh.
Lemma out_inb keep ax sh ix : inb ix (kept ax sh) -> inb (out_ix keep ax ix) (out_shape keep ax sh).
Proof. unfold out_ix, out_shape. destruct keep; auto. rewrite kept_rec. apply drop_inb. Qed.
Lemma out_inj keep ax sh ix jx : inb ix (kept ax sh) -> inb jx (kept ax sh) -> out_ix keep ax ix = out_ix keep ax jx -> ix = jx.
Proof. unfold out_ix. destruct keep; auto. rewrite kept_rec. apply drop_inj. Qed.
Lemma out_surj keep ax sh jx : inb jx (out_shape keep ax sh) -> exists ix, inb ix (kept ax sh) /\ out_ix keep ax ix = jx.
Proof. unfold out_ix, out_shape. destruct keep; [eauto|]. rewrite kept_rec. apply drop_surj. Qed.
Lemma reduces_out {A B} (R : list A -> B -> Prop) ax keep x y : reduces R ax keep x y <->
  (wf x /\ wf y /\ shape y = out_shape keep ax (shape x) /\ forall ix, inb ix (kept ax (shape x)) -> exists vs v, lane x ax ix = map Some vs /\ get y (out_ix keep ax ix) = Some v /\ R vs v).
Proof. reflexivity. Qed.
(** lanes of a well-formed tensor *)
Lemma lane_some {A} (x : tensor A) ax ix : wf x -> exists vs, lane x ax ix = map Some vs.
Proof.
  intro W. unfold lane. assert (G : forall l, (forall jx, In jx l -> inb jx (shape x)) -> exists vs, map (get x) l = map Some vs).
  { induction l as [|jx l IH]; intro H; [exists []; reflexivity|]. destruct (get_wf x jx W (H jx (or_introl eq_refl))) as [v E]. destruct IH as [vs Evs]; [intros; apply H; now right|]. exists (v :: vs). cbn. now rewrite E, Evs. }
  apply G. intros jx H. apply filter_In in H. now apply in_indices.
Qed.
Lemma map_Some_inj {A} (l l' : list A) : map Some l = map Some l' -> l = l'.
Proof. revert l'. induction l as [|a l IH]; intros [|b l'] H; try discriminate; [reflexivity|]. injection H as -> H. f_equal. auto. Qed.
(** a reduction by a function *)
Lemma reduces_unique {A B} (R : list A -> B -> Prop) (Ru : forall l v w, R l v -> R l w -> v = w) ax keep x y z : reduces R ax keep x y -> reduces R ax keep x z -> y = z.
Proof.
  rewrite !reduces_out. intros (W & Wy & Sy & Gy) (_ & Wz & Sz & Gz). apply tensor_ext; auto; [congruence|]. intros jx H. rewrite Sy in H. destruct (out_surj keep ax (shape x) jx H) as (ix & I1 & <-).
  destruct (Gy ix I1) as (vs & v & L & G1 & R1). destruct (Gz ix I1) as (vs' & v' & L' & G2 & R2). rewrite L in L'. apply map_Some_inj in L'. subst vs'. rewrite G1, G2. f_equal. eauto.
Qed.
Lemma reduces_exists {A B} (R : list A -> B -> Prop) ax keep (x : tensor A) : wf x ->
  (forall ix vs, inb ix (kept ax (shape x)) -> lane x ax ix = map Some vs -> exists v, R vs v) -> exists y, reduces R ax keep x y.
Proof.
  intros W H.
  assert (G : forall l, (forall jx, In jx l -> inb jx (out_shape keep ax (shape x))) -> exists ds, length ds = length l /\ forall k jx, nth_error l k = Some jx -> exists d ix vs, nth_error ds k = Some d /\ inb ix (kept ax (shape x)) /\ out_ix keep ax ix = jx /\ lane x ax ix = map Some vs /\ R vs d).
  { induction l as [|jx l IH]; intro Hl.
    - exists []. split; [reflexivity|]. intros [|k] jx E; discriminate.
    - destruct IH as (ds & Ld & Hd); [intros; apply Hl; now right|]. destruct (out_surj keep ax (shape x) jx (Hl jx (or_introl eq_refl))) as (ix & I1 & E1).
      destruct (lane_some x ax ix W) as [vs Ev]. destruct (H ix vs I1 Ev) as [d Rd]. exists (d :: ds). split; [cbn; congruence|]. intros [|k] j' E.
      + injection E as <-. exists d, ix, vs. auto.
      + destruct (Hd k j' E) as (d' & ix' & vs' & P). exists d', ix', vs'. exact P. }
  destruct (G (indices (out_shape keep ax (shape x)))) as (ds & Ld & Hd); [intros jx Hj; now apply in_indices|].
  exists (Tensor (out_shape keep ax (shape x)) ds). assert (Wy : wf (Tensor (out_shape keep ax (shape x)) ds)) by (unfold wf; cbn; rewrite Ld; unfold indices; now rewrite map_length, seq_length).
  rewrite reduces_out. split; [exact W|]. split; [exact Wy|]. split; [reflexivity|]. intros ix I1. assert (O := out_inb keep ax (shape x) ix I1). set (jx := out_ix keep ax ix) in *.
  assert (Lt := ravel_lt _ _ O). destruct (Hd (ravel (out_shape keep ax (shape x)) jx) jx) as (d & ix' & vs & E & I2 & E2 & L & Rv).
  { unfold indices. rewrite nth_error_map. rewrite (nth_error_nth' (seq 0 (size (out_shape keep ax (shape x)))) 0) by now rewrite seq_length. cbn [option_map]. rewrite seq_nth by auto. cbn [Nat.add]. now rewrite unravel_ravel. }
  assert (ix' = ix) by (apply (out_inj keep ax (shape x)); auto). subst ix'. exists vs, d. split; [exact L|]. split; [exact E|exact Rv].
Qed.
(** ** no axes *)
Lemma indices_NoDup sh : NoDup (indices sh).
Proof.
  unfold indices. assert (G : forall l, (forall k, In k l -> k < size sh) -> NoDup l -> NoDup (map (unravel sh) l)).
  { induction l as [|k l IH]; intros Hl N; cbn; [constructor|]. inversion N; subst. constructor; [|apply IH; auto; intros; apply Hl; now right]. rewrite in_map_iff. intros (j & E & Hj).
    apply (f_equal (ravel sh)) in E. assert (j < size sh) by (apply Hl; now right). assert (k < size sh) by (apply Hl; now left). rewrite !ravel_unravel in E by auto. congruence. }
  apply G; [intros k H; apply in_seq in H; lia|apply seq_NoDup].
Qed.
Lemma filter_one {A} (p : A -> bool) (a : A) (l : list A) : NoDup l -> In a l -> (forall b, In b l -> p b = true <-> b = a) -> filter p l = [a].
Proof.
  induction l as [|b l IH]; intros N Ha H; [destruct Ha|]. inversion N as [|? ? Nb N']; subst. cbn [filter]. destruct (p b) eqn:E.
  - assert (b = a) by (apply H; [now left|auto]). subst b. f_equal. assert (F : forall c, In c l -> p c = false).
    { intros c Hc. destruct (p c) eqn:Ec; auto. apply H in Ec; [|now right]. now subst. }
    clear -F. induction l as [|c l IH]; [reflexivity|]. cbn. rewrite (F c (or_introl eq_refl)). apply IH. intros; apply F; now right.
  - destruct Ha as [->|Ha]; [exfalso; assert (p a = true) by (apply H; [now left|auto]); congruence|]. apply IH; auto. intros c Hc. apply H. now right.
Qed.
Lemma kept_nil sh : kept [] sh = sh.
Proof. rewrite kept_rec. generalize 0. induction sh as [|d sh IH]; intro k; cbn; [reflexivity|]. f_equal. apply IH. Qed.
Lemma drop_nil l : drop_axes [] l = l.
Proof. unfold drop_axes. generalize 0. induction l as [|d l IH]; intro k; cbn; [reflexivity|]. f_equal. apply IH. Qed.
Lemma lane_nil {A} (x : tensor A) ix : inb ix (shape x) -> lane x [] ix = [get x ix].
Proof.
  intro H. unfold lane. rewrite (filter_one _ ix); [reflexivity|apply indices_NoDup|now apply in_indices|].
  intros jx Hj. apply in_indices in Hj. assert (L1 := inb_length _ _ H). assert (L2 := inb_length _ _ Hj). unfold matches. rewrite forallb_forall. split.
  - intro F. apply (nth_ext jx ix 0 0); [congruence|]. intros k Hk. specialize (F k ltac:(apply in_seq; lia)). cbn in F. apply Nat.eqb_eq in F. auto.
  - intros -> k _. cbn. apply Nat.eqb_refl.
Qed.
Lemma reduces_nothing {A} (R : list A -> A -> Prop) keep (x y : tensor A) : (forall v w, R [v] w <-> v = w) -> reduces R [] keep x y <-> wf x /\ y = x.
Proof.
  intro H. assert (S0 : forall sh, out_shape keep [] sh = sh) by (intro sh; unfold out_shape; destruct keep; [apply kept_nil|apply drop_nil]).
  assert (I0 : forall ix, out_ix keep [] ix = ix) by (intro ix; unfold out_ix; destruct keep; [reflexivity|apply drop_nil]).
  rewrite reduces_out, S0, kept_nil. split.
  - intros (W & Wy & Sy & G). split; auto. apply tensor_ext; auto. intros ix Hx. rewrite Sy in Hx. destruct (G ix Hx) as (vs & v & L & E & Rv). rewrite I0 in E. rewrite lane_nil in L by auto.
    destruct vs as [|a [|b vs]]; try discriminate. injection L as L. apply H in Rv. subst v. congruence.
  - intros (W & ->). split; auto. split; auto. split; auto. intros ix Hx. rewrite I0, lane_nil by auto. destruct (get_wf x ix W Hx) as [v E]. exists [v], v. rewrite E. repeat split. now apply H.
Qed.
(** ** the axes *)
Lemma norm_shift r l ax : norm_axes r l = Some ax -> norm_axes r (shift_axes r l) = Some ax /\ Forall (fun z => (0 <= z)%Z) (shift_axes r l) /\ (l <> [] -> shift_axes r l <> []).
Proof.
  revert ax. induction l as [|a l IH]; intros ax H; cbn [norm_axes shift_axes map] in *; [split; [exact H|split; [constructor|congruence]]|].
  destruct (norm_axis r a) as [b|] eqn:E; [|discriminate]. destruct (norm_axes r l) as [bs|] eqn:Es; [|discriminate]. injection H as <-. destruct (IH bs eq_refl) as (A & B & _). unfold shift_axes in A. 
  assert (G : norm_axis r (if negative a then (a + Z.of_nat r)%Z else a) = Some b /\ (0 <= (if negative a then (a + Z.of_nat r)%Z else a))%Z).
  { unfold norm_axis, negative in *. destruct (Z.leb_spec 0 a); destruct (Z.ltb_spec a 0); try lia.
    - split; [|lia]. destruct (Z.leb_spec 0 a); [|lia]. exact E.
    - destruct (Z.leb_spec (- Z.of_nat r) a); [|discriminate]. destruct (Z.leb_spec 0 (a + Z.of_nat r)); [|lia]. destruct (Z.ltb_spec (a + Z.of_nat r) (Z.of_nat r)); [|lia]. auto. }
  destruct G as [G1 G2]. rewrite G1, A. split; [reflexivity|]. split; [constructor; auto|discriminate].
Qed.
Lemma no_negative l : existsb negative l = false -> Forall (fun z => (0 <= z)%Z) l.
Proof. induction l as [|a l IH]; cbn; intro H; constructor; apply orb_false_iff in H; destruct H as [H1 H2]; [unfold negative in H1; apply Z.ltb_ge in H1; lia|auto]. Qed.
Lemma axes_run_data l : forall a, data (a_value (axes_run a l)) = data (a_value a).
Proof. induction l as [|s l IH]; intro a; [reflexivity|]. unfold axes_run in *. cbn [fold_left]. rewrite IH. destruct s; reflexivity. Qed.
Lemma reduce_input_ok op t ar keep a : axes_ok a -> t = a_type a -> (ar = None \/ ar = Some (length (shape (a_value a)))) ->
  let steps := (match t with ElemSpec.I64 => [] | _ => [CastI64] end) ++ (match ar with Some 1 => [] | _ => [ReshapeFlat] end) in
  reduce_input op t ar keep = ReduceNode op (AxInput steps) keep true /\ a_type (axes_run a steps) = ElemSpec.I64 /\ length (shape (a_value (axes_run a steps))) = 1.
Proof.
  intros (Ht & W & L) -> Hr steps. split; [reflexivity|]. unfold steps. destruct a as [t v]. cbn [a_type a_value] in *.
  assert (Hr' : ar = Some 1 /\ length (shape v) = 1 \/ (match ar with Some 1 => [] | _ => [ReshapeFlat] end) = [ReshapeFlat]).
  { destruct Hr as [-> | ->]; [now right|]. destruct (length (shape v)) as [|[|n]] eqn:El; [right; reflexivity|left; auto|lia]. }
  destruct Hr' as [[-> E]|E]; [|rewrite E]; destruct Ht as [-> | ->]; cbn; auto.
Qed.
(** ** the reduction node *)
Lemma node_attr {A} opset (R : list A -> A -> Prop) op l keep a x y ax : In op reduce_ops -> opset < input_since op -> l <> [] -> (opset < 11 -> Forall (fun z => (0 <= z)%Z) l) ->
  norm_axes (length (shape x)) l = Some ax -> NoDup ax -> (onnx_reduce opset R (ReduceNode op (AxAttr l) keep false) a x y <-> reduces R ax keep x y).
Proof.
  intros O1 O2 L N E Nd. unfold onnx_reduce. cbn [r_op r_axes r_keep r_noop]. split.
  - intros (_ & _ & _ & _ & _ & ax' & E' & _ & H). congruence.
  - intro H. split; [auto|]. split; [auto|]. split; [reflexivity|]. split; [auto|]. split; [auto|]. exists ax. auto.
Qed.
Lemma norm_nonempty r l ax : norm_axes r l = Some ax -> l = [] -> ax = [].
Proof. intros H ->. cbn in H. congruence. Qed.
Lemma node_input {A} opset (R : list A -> A -> Prop) op steps keep a x y ax : (forall v w, R [v] w <-> v = w) -> In op reduce_ops -> input_since op <= opset ->
  a_type (axes_run a steps) = ElemSpec.I64 -> length (shape (a_value (axes_run a steps))) = 1 ->
  norm_axes (length (shape x)) (data (a_value a)) = Some ax -> NoDup ax -> (onnx_reduce opset R (ReduceNode op (AxInput steps) keep true) a x y <-> reduces R ax keep x y).
Proof.
  intros HR O1 O2 T L E Nd. unfold onnx_reduce. cbn [r_op r_axes r_keep r_noop]. rewrite axes_run_data. cbv zeta. destruct (data (a_value a)) as [|z l] eqn:Ed.
  - assert (ax = []) by (apply (norm_nonempty _ _ _ E eq_refl)). subst ax. rewrite reduces_nothing by auto. tauto.
  - split.
    + intros (_ & _ & _ & _ & ax' & E' & _ & H). congruence.
    + intro H. split; [auto|]. split; [auto|]. split; [auto|]. split; [auto|]. exists ax. auto.
Qed.
Lemma onnx_name_ok tf op : onnx_name tf = Some op -> In (tf, op) same_reduction /\ In op reduce_ops.
Proof.
  unfold onnx_name, same_reduction, reduce_ops. intro H.
  repeat match type of H with (if String.eqb tf ?s then _ else _) = _ => destruct (String.eqb_spec tf s); [injection H as <-; subst; cbn; tauto|] end. discriminate.
Qed.
Lemma reduce_1_ok {A} opset (R : list A -> A -> Prop) op rank l keep n a x y ax : In op reduce_ops -> opset < input_since op ->
  (rank = None \/ rank = Some (length (shape x))) -> l <> [] -> norm_axes (length (shape x)) l = Some ax -> NoDup ax -> reduce_1 opset op rank (Some l) keep = Some n ->
  (onnx_reduce opset R n a x y <-> reduces R ax keep x y) /\ r_op n = op.
Proof.
  intros O1 O2 Hr L E Nd H. unfold reduce_1 in H. destruct Hr as [-> | ->].
  - destruct (existsb negative l && Nat.ltb opset 11) eqn:C; [discriminate|]. injection H as <-. split; [|reflexivity]. apply node_attr; auto. intro O.
    apply andb_false_iff in C. destruct C as [C|C]; [now apply no_negative|]. apply Nat.ltb_ge in C. lia.
  - injection H as <-. destruct (norm_shift _ _ _ E) as (E' & F & L'). split; [|reflexivity]. apply node_attr; auto.
Qed.
Lemma reduce_sound {A} opset (R : list A -> A -> Prop) tf rank axes a axes_rank keep n x y ax :
  (forall v w, R [v] w <-> v = w) -> axes_ok a -> (rank = None \/ rank = Some (length (shape x))) -> (axes = None \/ axes = Some (data (a_value a))) ->
  (axes_rank = None \/ axes_rank = Some (length (shape (a_value a)))) ->
  (opset < 18 -> (opset < 13 \/ tf <> "Sum"%string) -> data (a_value a) <> []) ->
  norm_axes (length (shape x)) (data (a_value a)) = Some ax -> NoDup ax ->
  reduce opset tf rank axes (a_type a) axes_rank keep = Some n -> (onnx_reduce opset R n a x y <-> reduces R ax keep x y) /\ onnx_name tf = Some (r_op n).
Proof.
  intros HR Ha Hr Hx Har Hn E Nd H. unfold reduce in H. destruct (onnx_name tf) as [op|] eqn:En; [|discriminate]. destruct (onnx_name_ok _ _ En) as [Os Oi].
  assert (Sum : String.eqb op "ReduceSum" = true <-> tf = "Sum"%string).
  { cbn in Os. repeat (destruct Os as [Os|Os]; [injection Os as <- <-; cbn; split; congruence|]). destruct Os. }
  destruct (reduce_input_ok op (a_type a) axes_rank keep a Ha eq_refl Har) as (Es & T & L). cbv zeta in Es.
  assert (One : opset < input_since op -> reduce_1 opset op rank axes keep = Some n -> data (a_value a) <> [] -> (onnx_reduce opset R n a x y <-> reduces R ax keep x y) /\ Some op = Some (r_op n)).
  { intros O H1 Ne. destruct Hx as [-> | ->]; [discriminate|]. destruct (reduce_1_ok opset R op rank (data (a_value a)) keep n a x y ax) as [G1 G2]; auto. now rewrite G2. }
  destruct (Nat.ltb_spec opset 13) as [O|O]; [|destruct (Nat.ltb_spec opset 18) as [O'|O']].
  - apply One; auto; [unfold input_since; destruct (String.eqb op _); lia|apply Hn; [lia|auto]].
  - destruct (String.eqb op "ReduceSum") eqn:Eo.
    + rewrite Es in H. injection H as <-. split; [|reflexivity]. apply node_input; auto. unfold input_since. now rewrite Eo.
    + apply One; auto; [unfold input_since; rewrite Eo; lia|apply Hn; [lia|right; intro; apply Sum in H0; congruence]].
  - rewrite Es in H. injection H as <-. split; [|reflexivity]. apply node_input; auto. unfold input_since. destruct (String.eqb op _); lia.
Qed.
(** ** a tensor with given elements, and elementwise nodes before and behind a reduction *)
Lemma out_exists {B} keep ax sh (Q : list nat -> B -> Prop) : (forall ix, inb ix (kept ax sh) -> exists v, Q ix v) ->
  exists z, wf z /\ shape z = out_shape keep ax sh /\ forall ix, inb ix (kept ax sh) -> exists v, get z (out_ix keep ax ix) = Some v /\ Q ix v.
Proof.
  intro H.
  assert (G : forall l, (forall jx, In jx l -> inb jx (out_shape keep ax sh)) -> exists ds, length ds = length l /\ forall k jx, nth_error l k = Some jx -> exists d ix, nth_error ds k = Some d /\ inb ix (kept ax sh) /\ out_ix keep ax ix = jx /\ Q ix d).
  { induction l as [|jx l IH]; intro Hl.
    - exists []. split; [reflexivity|]. intros [|k] jx E; discriminate.
    - destruct IH as (ds & Ld & Hd); [intros; apply Hl; now right|]. destruct (out_surj keep ax sh jx (Hl jx (or_introl eq_refl))) as (ix & I1 & E1).
      destruct (H ix I1) as [d Qd]. exists (d :: ds). split; [cbn; congruence|]. intros [|k] j' E.
      + injection E as <-. exists d, ix. auto.
      + destruct (Hd k j' E) as (d' & ix' & P). exists d', ix'. exact P. }
  destruct (G (indices (out_shape keep ax sh))) as (ds & Ld & Hd); [intros jx Hj; now apply in_indices|].
  exists (Tensor (out_shape keep ax sh) ds). split; [unfold wf; cbn; rewrite Ld; unfold indices; now rewrite map_length, seq_length|]. split; [reflexivity|].
  intros ix I1. assert (O := out_inb keep ax sh ix I1). set (jx := out_ix keep ax ix) in *.
  assert (Lt := ravel_lt _ _ O). destruct (Hd (ravel (out_shape keep ax sh) jx) jx) as (d & ix' & E & I2 & E2 & Qd).
  { unfold indices. rewrite nth_error_map. rewrite (nth_error_nth' (seq 0 (size (out_shape keep ax sh))) 0) by now rewrite seq_length. cbn [option_map]. rewrite seq_nth by auto. cbn [Nat.add]. now rewrite unravel_ravel. }
  assert (ix' = ix) by (apply (out_inj keep ax sh); auto). subst ix'. exists d. auto.
Qed.
Lemma reduces_behind {A B C} (R : list A -> B -> Prop) (T : list A -> C -> Prop) (G : B -> option C) ax keep x y :
  (forall ix vs w, inb ix (kept ax (shape x)) -> lane x ax ix = map Some vs -> (T vs w <-> exists v, R vs v /\ G v = Some w)) ->
  ((exists z, reduces R ax keep x z /\ each G z y) <-> reduces T ax keep x y).
Proof.
  intro H. split.
  - intros (z & Hz & Sy & Wz & Wy & E). apply (proj1 (reduces_out _ _ _ _ _)) in Hz. destruct Hz as (Wx & _ & Sz & Gz). apply (proj2 (reduces_out _ _ _ _ _)). split; [auto|]. split; [auto|]. split; [exact (eq_trans Sy Sz)|].
    intros ix Hi. destruct (Gz ix Hi) as (vs & v & L & Ez & Rv). destruct (E (out_ix keep ax ix)) as (v' & w & E1 & E2 & E3); [rewrite Sz; now apply out_inb|].
    exists vs, w. split; [auto|]. split; [auto|]. apply (H ix); auto. exists v. split; [auto|congruence].
  - intro Hy. apply (proj1 (reduces_out _ _ _ _ _)) in Hy. destruct Hy as (Wx & Wy & Sy & Gy).
    destruct (out_exists keep ax (shape x) (fun ix v => exists vs w, lane x ax ix = map Some vs /\ R vs v /\ G v = Some w /\ get y (out_ix keep ax ix) = Some w)) as (z & Wz & Sz & Gz).
    { intros ix Hi. destruct (Gy ix Hi) as (vs & w & L & E & Tw). apply (H ix) in Tw; auto. destruct Tw as (v & Rv & Gv). exists v, vs, w. auto. }
    exists z. split.
    + apply (proj2 (reduces_out _ _ _ _ _)). split; [auto|]. split; [auto|]. split; [auto|]. intros ix Hi. destruct (Gz ix Hi) as (v & Ez & vs & w & L & Rv & _). exists vs, v. auto.
    + split; [congruence|]. split; [auto|]. split; [auto|]. intros jx Hj. rewrite Sz in Hj. destruct (out_surj keep ax (shape x) jx Hj) as (ix & Hi & <-). destruct (Gz ix Hi) as (v & Ez & vs & w & L & Rv & Gv & Ey). exists v, w. auto.
Qed.
Lemma each_map {A B} (F : A -> B) (x : tensor A) (f : tensor B) : each (fun a => Some (F a)) x f <-> wf x /\ f = Tensor (shape x) (map F (data x)).
Proof.
  assert (W0 : wf x -> wf (Tensor (shape x) (map F (data x)))) by (unfold wf; cbn; now rewrite map_length).
  assert (G0 : forall ix, get (Tensor (shape x) (map F (data x))) ix = option_map F (get x ix)) by (intro ix; unfold get; cbn; now rewrite nth_error_map).
  split.
  - intros (S1 & Wx & Wf & E). split; auto. apply tensor_ext; auto. intros ix Hi. rewrite S1 in Hi. destruct (E ix Hi) as (v & w & E1 & E2 & E3). rewrite G0, E1, E3. cbn. congruence.
  - intros (Wx & ->). split; [reflexivity|]. split; auto. split; auto. intros ix Hi. destruct (get_wf x ix Wx Hi) as [v E]. exists v, (F v). rewrite G0, E. auto.
Qed.
Lemma lane_map {A B} (F : A -> B) (x : tensor A) ax ix : lane (Tensor (shape x) (map F (data x))) ax ix = map (option_map F) (lane x ax ix).
Proof. unfold lane. cbn [shape]. rewrite map_map. apply map_ext. intro jx. unfold get. cbn. now rewrite nth_error_map. Qed.
Lemma reduces_before {A B C} (F : A -> B) (R : list B -> C -> Prop) ax keep (x : tensor A) s :
  (exists f, each (fun a => Some (F a)) x f /\ reduces R ax keep f s) <-> reduces (fun vs => R (map F vs)) ax keep x s.
Proof.
  split.
  - intros (f & Ef & Hs). apply each_map in Ef. destruct Ef as (Wx & ->). apply (proj1 (reduces_out _ _ _ _ _)) in Hs. cbn [shape] in Hs. destruct Hs as (_ & Ws & Ss & G). apply (proj2 (reduces_out _ _ _ _ _)). split; [auto|]. split; [auto|]. split; [auto|].
    intros ix Hi. destruct (G ix Hi) as (vs & v & L & E & Rv). destruct (lane_some x ax ix Wx) as [us Eu]. exists us, v. split; [auto|]. split; [auto|]. rewrite lane_map, Eu, map_map in L. cbn in L.
    rewrite <- (map_map F Some) in L. apply map_Some_inj in L. now subst.
  - intro Hs. apply (proj1 (reduces_out _ _ _ _ _)) in Hs. destruct Hs as (Wx & Ws & Ss & G). exists (Tensor (shape x) (map F (data x))). split; [now apply each_map|]. apply (proj2 (reduces_out _ _ _ _ _)). cbn [shape].
    split; [unfold wf in *; cbn; now rewrite map_length|]. split; [auto|]. split; [auto|]. intros ix Hi. destruct (G ix Hi) as (vs & v & L & E & Rv). exists (map F vs), v. split; [|auto].
    rewrite lane_map, L, !map_map. reflexivity.
Qed.
(** ** the length of a lane along one axis *)
Lemma matches_one ax ix jx : matches [ax] ix jx = true -> length ix = length jx -> forall k, k <> ax -> nth k ix 0 = nth k jx 0.
Proof.
  intros H L k Hk. unfold matches in H. rewrite forallb_forall in H. destruct (Nat.lt_ge_cases k (length jx)) as [Lt|Ge].
  - specialize (H k ltac:(apply in_seq; lia)). cbn in H. rewrite orb_false_r in H. apply orb_true_iff in H. destruct H as [H|H]; apply Nat.eqb_eq in H; [contradiction|auto].
  - rewrite !nth_overflow by lia. reflexivity.
Qed.
Lemma lane_one {A} (x : tensor A) ax ix : length ix = length (shape x) -> ax < length (shape x) -> length (lane x [ax] ix) <= nth ax (shape x) 0.
Proof.
  intros Li La. unfold lane. rewrite map_length. set (l := filter (matches [ax] ix) (indices (shape x))).
  assert (Hin : forall jx, In jx l -> inb jx (shape x) /\ matches [ax] ix jx = true) by (intros jx H; apply filter_In in H; destruct H; split; auto; now apply in_indices).
  rewrite <- (seq_length (nth ax (shape x) 0) 0). rewrite <- (map_length (fun jx => nth ax jx 0) l). apply NoDup_incl_length.
  - assert (N : NoDup l) by (apply NoDup_filter, indices_NoDup). revert Hin N. generalize l. clear l. induction l as [|jx l IH]; intros Hin N; cbn; [constructor|]. inversion N; subst. constructor; [|apply IH; auto; intros; apply Hin; now right].
    rewrite in_map_iff. intros (kx & E & Hk). apply H1. destruct (Hin jx (or_introl eq_refl)) as [J1 J2]. destruct (Hin kx (or_intror Hk)) as [K1 K2]. assert (L1 := inb_length _ _ J1). assert (L2 := inb_length _ _ K1).
    replace jx with kx; auto. apply (nth_ext kx jx 0 0); [congruence|]. intros k _. destruct (Nat.eq_dec k ax) as [->|Hn]; [auto|]. rewrite <- (matches_one ax ix kx K2), <- (matches_one ax ix jx J2); auto; congruence.
  - intros k H. apply in_map_iff in H. destruct H as (jx & <- & H). destruct (Hin jx H) as [J _]. apply in_seq. split; [lia|]. cbn.
    clear -J La. revert ax jx J La. induction (shape x) as [|d sh IH]; intros ax [|j jx] J La; cbn in *; try tauto; try lia. destruct J as [J1 J2]. destruct ax; auto. apply IH; auto. lia.
Qed.
(** ** float sums and minima of 0 and 1 *)
Import ElemSpec ElemFloat.
Local Notation inb := Tensor.inb.
Definition bit (b : bool) : f32 := of_Z F32 (if b then 1 else 0).
Lemma bit_false : bit false = fzero.
Proof. apply zero_spec. Qed.
Definition pos (v : f32) : Prop := Bltb fzero v = true.
Lemma pos_cases v : pos v -> v = B754_infinity false \/ is_finite v = true /\ (0 < B2R v)%R.
Proof.
  unfold pos. destruct v as [s|s| |s m e H]; try destruct s; cbn; try discriminate; auto.
  intros _. right. split; [reflexivity|]. unfold B2R. apply F2R_gt_0. reflexivity.
Qed.
Lemma pos_finite v : is_finite v = true -> (0 < B2R v)%R -> pos v.
Proof. intros Fv Hv. unfold pos. rewrite Bltb_correct by auto. apply Rlt_bool_true. exact Hv. Qed.
Lemma add_pos v w : pos v -> pos w -> pos (add v w).
Proof.
  intros Hv Hw. destruct (pos_cases v Hv) as [->|[Fv Rv]], (pos_cases w Hw) as [->|[Fw Rw]]; try reflexivity.
  - destruct w as [s|s| |s m e H]; try discriminate Fw; reflexivity.
  - destruct v as [s|s| |s m e H]; try discriminate Fv; reflexivity.
  - unfold add. assert (B := Bplus_correct (prec F32) (emax F32) _ _ mode_NE v w Fv Fw). destruct (Rlt_bool _ _) eqn:E.
    + destruct B as (B1 & B2 & _). apply pos_finite; [exact B2|]. rewrite B1. apply Rlt_le_trans with (B2R v); auto.
      rewrite <- (Generic_fmt.round_generic radix2 (fexpo F32) (round_mode mode_NE) (B2R v) (format_fl F32 v)) at 1. apply Generic_fmt.round_le; [apply fexp_correct; reflexivity|apply valid_rnd_round_mode|]. lra.
    + destruct B as (B1 & B2). assert (Sv : Bsign v = false). { destruct v as [s|s| |s m e H]; try discriminate Fv; destruct s; auto; discriminate Hv. }
      rewrite Sv in B1. unfold pos. destruct (Bplus mode_NE v w) as [s|s| |s m e H]; try (cbn in B1; discriminate B1). cbn in B1. injection B1 as ->. reflexivity.
Qed.
Lemma sf_pos v w : sf v w -> pos v -> pos w.
Proof.
  intros [->|E] H; auto. unfold pos in *. destruct v as [s|s| |s m e Hm], w as [s'|s'| |s' m' e' Hm']; try discriminate H; try destruct s; try destruct s'; try discriminate H; try discriminate E; reflexivity.
Qed.
Lemma tree_nonempty {A} (f : A -> A -> A) l v : tree_of f l v -> l <> [].
Proof.
  induction 1 as [x|l r x y _ IH1 _ _|l l' x P _ IH]; [discriminate| |].
  - destruct l; [contradiction|discriminate].
  - intros ->. apply IH. now apply Permutation_nil, Permutation_sym.
Qed.
Lemma tree_exists {A} (f : A -> A -> A) l : l <> [] -> exists v, tree_of f l v.
Proof.
  induction l as [|a l IH]; [contradiction|intros _]. destruct l as [|b l]; [exists a; constructor|]. destruct IH as [v Hv]; [discriminate|]. exists (f a v). apply (tree_node f [a]); [constructor|auto].
Qed.
Lemma tree_one {A} (f : A -> A -> A) a v : tree_of f [a] v <-> a = v.
Proof.
  split; [|intros ->; constructor]. intro H. remember [a] as l eqn:E. revert E. induction H as [x|l r x y H1 _ H2 _|l l' x P _ IH]; intro E.
  - congruence.
  - apply tree_nonempty in H1, H2. destruct l as [|b [|c l]], r as [|d r]; try contradiction; discriminate.
  - subst l'. apply Permutation_sym, Permutation_length_1_inv in P. auto.
Qed.
Definition state (b : bool) (v : f32) : Prop := if b then pos v else v = fzero.
Lemma add_state a b v w : state a v -> state b w -> state (a || b) (add v w).
Proof.
  destruct a, b; cbn [state orb]; intros Hv Hw; try subst.
  - now apply add_pos.
  - apply (sf_pos v); auto. apply add_zero_r.
  - apply (sf_pos w); auto. apply add_zero_l.
  - reflexivity.
Qed.
Lemma existsb_perm (l l' : list bool) : Permutation l l' -> existsb (fun b : bool => b) l = existsb (fun b : bool => b) l'.
Proof. induction 1; cbn; auto; [now rewrite IHPermutation|destruct x, y; reflexivity|congruence]. Qed.
Lemma forallb_perm (l l' : list bool) : Permutation l l' -> forallb (fun b : bool => b) l = forallb (fun b : bool => b) l'.
Proof. induction 1; cbn; auto; [now rewrite IHPermutation|destruct x, y; reflexivity|congruence]. Qed.
Lemma map_split {A B} (f : A -> B) l l1 l2 : map f l = l1 ++ l2 -> exists a b, l = a ++ b /\ map f a = l1 /\ map f b = l2.
Proof.
  revert l. induction l1 as [|c l1 IH]; intros l H; [exists [], l; auto|]. destruct l as [|a l]; [discriminate|]. cbn in H. injection H as H1 H2. destruct (IH l H2) as (a' & b' & -> & <- & <-). exists (a :: a'), b'. rewrite <- H1. auto.
Qed.
Lemma sum_tree_state l v : tree_of (@add F32) l v -> forall bs, l = map bit bs -> state (existsb (fun b : bool => b) bs) v.
Proof.
  induction 1 as [x|l r x y _ IH1 _ IH2|l l' x P _ IH]; intros bs E.
  - destruct bs as [|b [|c bs]]; try discriminate. injection E as ->. destruct b; [reflexivity|]. cbn. apply bit_false.
  - symmetry in E. destruct (map_split _ _ _ _ E) as (a & b & -> & Ea & Eb). rewrite existsb_app. apply add_state; [now apply IH1|now apply IH2].
  - subst l'. apply Permutation_map_inv in P. destruct P as (cs & -> & P'). rewrite (existsb_perm _ _ P'). now apply IH.
Qed.
Lemma sum_state bs v : sum_of (map bit bs) v -> state (existsb (fun b : bool => b) bs) v.
Proof. destruct bs as [|b bs]; [intro H; exact H|]. intro H. now apply (sum_tree_state (map bit (b :: bs))). Qed.
Lemma sum_exists bs : exists v, sum_of (map bit bs) v.
Proof. destruct bs as [|b bs]; [eexists; reflexivity|]. cbn [map]. unfold sum_of. now apply tree_exists. Qed.
Lemma sum_one v w : sum_of [v] w <-> v = w.
Proof. apply tree_one. Qed.
Lemma min_one v w : min_of [v] w <-> v = w.
Proof. apply tree_one. Qed.
Lemma min_bits a b : fmin (bit a) (bit b) = bit (a && b).
Proof. unfold fmin, bit. rewrite !of_Z_nan, ltb_of_Z by (destruct a, b; cbn; lia). destruct a, b; reflexivity. Qed.
Lemma min_tree_state l v : tree_of (@fmin F32) l v -> forall bs, l = map bit bs -> v = bit (forallb (fun b : bool => b) bs).
Proof.
  induction 1 as [x|l r x y _ IH1 _ IH2|l l' x P _ IH]; intros bs E.
  - destruct bs as [|b [|c bs]]; try discriminate. injection E as ->. cbn. now destruct b.
  - symmetry in E. destruct (map_split _ _ _ _ E) as (a & b & -> & Ea & Eb). rewrite forallb_app. rewrite (IH1 a), (IH2 b) by now symmetry. apply min_bits.
  - subst l'. apply Permutation_map_inv in P. destruct P as (cs & -> & P'). rewrite (forallb_perm _ _ P'). now apply IH.
Qed.
Lemma bit_pos b : Bltb fzero (bit b) = b.
Proof. rewrite <- bit_false. unfold bit. rewrite ltb_of_Z by (destruct b; cbn; lia). destruct b; reflexivity. Qed.
Lemma state_pos b v : state b v -> Bltb fzero v = b.
Proof. destruct b; [auto|]. intros ->. reflexivity. Qed.
Lemma forallb_in bs : forallb (fun b : bool => b) bs = true <-> ~ In false bs.
Proof. rewrite forallb_forall. split; [intros H F; discriminate (H _ F)|]. intros H [] F; auto. Qed.
Lemma existsb_in bs : existsb (fun b : bool => b) bs = true <-> In true bs.
Proof. rewrite existsb_exists. split; [intros (b & H & ->); auto|eauto]. Qed.
Lemma existsb_map_negb bs : existsb (fun b : bool => b) (map (xorb true) bs) = negb (forallb (fun b : bool => b) bs).
Proof. induction bs as [|[] bs IH]; cbn in *; auto. Qed.
Lemma each_ext {A B} (f g : A -> option B) x y : (forall v, f v = g v) -> each f x y -> each g x y.
Proof. intros H (S1 & W1 & W2 & G). split; [auto|]. split; [auto|]. split; [auto|]. intros ix Hi. destruct (G ix Hi) as (v & w & E1 & E2 & E3). exists v, w. rewrite <- H. auto. Qed.
Lemma reduces_ext {A B} (R T : list A -> B -> Prop) ax keep x y : (forall l v, R l v -> T l v) -> reduces R ax keep x y -> reduces T ax keep x y.
Proof. intros H (W1 & W2 & S1 & G1). split; [auto|]. split; [auto|]. split; [auto|]. intros ix Hi; destruct (G1 ix Hi) as (vs & v & L & Ev & Rv); exists vs, v; auto. Qed.
Lemma norm_axes_in r l ax k : norm_axes r l = Some ax -> In k ax -> exists z, In z l /\ norm_axis r z = Some k.
Proof.
  revert ax. induction l as [|a l IH]; intros ax H Hk; cbn [norm_axes] in H; [injection H as <-; destruct Hk|]. destruct (norm_axis r a) as [b|] eqn:E; [|discriminate]. destruct (norm_axes r l) as [bs|] eqn:Es; [|discriminate]. injection H as <-.
  destruct Hk as [<-|Hk]; [exists a; split; [now left|auto]|]. destruct (IH bs eq_refl Hk) as (z & Z1 & Z2). exists z. split; [now right|auto].
Qed.
Lemma lane_nonempty {A} (x : tensor A) ax ix : inb ix (kept ax (shape x)) -> (forall k, In k ax -> nth k (shape x) 0 <> 0) -> lane x ax ix <> map Some [].
Proof.
  intros Hi Hk L. cbn in L. unfold lane in L. apply map_eq_nil in L. assert (In ix (filter (matches ax ix) (indices (shape x)))); [|rewrite L in H; destruct H]. apply filter_In. split.
  - apply in_indices. rewrite kept_rec in Hi. assert (G : forall sh k jx, inb jx (kept_from k ax sh) -> (forall j, In j ax -> k <= j -> nth (j - k) sh 0 <> 0 \/ length sh <= j - k) -> inb jx sh).
    { clear. induction sh as [|d sh IH]; intros k [|j jx] H Hn; cbn in *; auto. destruct H as [H1 H2]. split.
      - destruct (existsb (Nat.eqb k) ax) eqn:E; auto. apply existsb_exists in E. destruct E as (j' & J & Ej). apply Nat.eqb_eq in Ej. subst j'. destruct (Hn k J (le_n _)) as [N|N]; rewrite Nat.sub_diag in N; cbn in N; lia.
      - apply (IH (S k)); auto. intros j' J Lj. destruct (Hn j' J ltac:(lia)) as [N|N]; replace (j' - k) with (S (j' - S k)) in N by lia; cbn in N; [left; auto|right; lia]. }
    apply (G (shape x) 0); auto. intros j J _. left. rewrite Nat.sub_0_r. auto.
  - unfold matches. apply forallb_forall. intros k _. rewrite Nat.eqb_refl. apply orb_true_r.
Qed.
(** ** the nodes around the reduction *)
Import ElemModel RangeSpec.
Lemma built_before is_not : exists p, built (to_float is_not) = Some p /\ forall opset b, match scalar_result opset p [VB b] with Some w => as_fl F32 w | None => None end = Some (bit (xorb is_not b)).
Proof. destruct is_not; (eexists; split; [cbv; reflexivity|]); intros opset b; destruct b; reflexivity. Qed.
Lemma built_behind is_not : exists p, built (greater_zero is_not) = Some p /\ forall opset v, match scalar_result opset p [VF F32 v] with Some (VB b) => Some b | _ => None end = Some (xorb is_not (Bltb fzero v)).
Proof. destruct is_not; (eexists; split; [cbv -[fzero fl]; reflexivity|]); intros opset v; [reflexivity|]. transitivity (Some (Bltb fzero v)); [reflexivity|]. now destruct (Bltb fzero v). Qed.
