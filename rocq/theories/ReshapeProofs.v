(** The operations of the symbolic executor agree with the ONNX operators under every valuation. *)
From Coq Require Import String List Arith ZArith Bool Lia Permutation.
From Verif Require Import Tensor FGraph OnnxSpec PushSpec NNSpec FoldModel TensorProofs FoldProofs FoldFunProofs ReshapeSpec ReshapeModel QdqProofs3.
Import ListNotations.
Local Open Scope string_scope.
Local Open Scope list_scope.

Section Eval.
Variable v : nat -> Z.
Definition prodZ' (l : list nat) : Z := fold_right Z.mul 1%Z (map v l).
Definition eval (s : sym) : Z := (constant s * prodZ' (terms s))%Z.
Definition eeval (e : elt) : Z := match e with Raw z => z | Obj s => eval s end.
Lemma prodZ'_app l l' : prodZ' (l ++ l') = (prodZ' l * prodZ' l')%Z.
Proof. induction l as [|x l IH]; cbn [app]; unfold prodZ' in *; cbn [map fold_right]; [destruct (fold_right _ _ _); reflexivity|]. rewrite IH. ring. Qed.
Lemma eval_make ts c : eval (make_sym ts c) = (c * prodZ' ts)%Z.
Proof. unfold make_sym. destruct (Z.eqb_spec c 0) as [->|]; reflexivity. Qed.
Lemma eeval_mul a b : eeval (elt_mul a b) = (eeval a * eeval b)%Z.
Proof.
  destruct a as [x|s], b as [y|u]; cbn [elt_mul eeval]; auto; unfold sym_scale, sym_mul; rewrite eval_make; unfold eval; try ring.
  rewrite prodZ'_app. ring.
Qed.
Lemma eval_from e : eval (from_value e) = eeval e.
Proof. destruct e as [z|s]; cbn [from_value eeval]; auto. unfold from_const. rewrite eval_make. cbn. ring. Qed.
End Eval.

(** ** maps over elements *)
Lemma tmap_wf {A B} (f : A -> B) t : wf t -> wf (tmap f t).
Proof. unfold wf, tmap. cbn. now rewrite map_length. Qed.
Lemma get_tmap {A B} (f : A -> B) t ix : get (tmap f t) ix = option_map f (get t ix).
Proof. unfold get, tmap. cbn [shape data]. apply nth_error_map. Qed.
Lemma sequence_map {A B} (f : A -> B) l : sequence (map (option_map f) l) = option_map (map f) (sequence l).
Proof.
  induction l as [|o l IH]; [reflexivity|]. cbn [map sequence]. rewrite IH. destruct o; [|reflexivity]. cbn. destruct (sequence l); reflexivity.
Qed.
Lemma build_tmap {A B} (f : A -> B) sh g : build sh (fun ix => option_map f (g ix)) = option_map (tmap f) (build sh g).
Proof.
  unfold build. rewrite <- (map_map (fun k => g (unravel sh k)) (option_map f)), sequence_map. destruct (sequence _); reflexivity.
Qed.
Lemma build_ext {A} sh (f g : list nat -> option A) : (forall ix, f ix = g ix) -> build sh f = build sh g.
Proof. intro H. unfold build. rewrite (map_ext _ (fun k => g (unravel sh k))); auto. Qed.
Lemma np_reshape_tmap {A B} (f : A -> B) t l : np_reshape (tmap f t) l = option_map (tmap f) (np_reshape t l).
Proof.
  unfold np_reshape. cbn [tmap shape data]. destruct (filter (fun d => (d <? 0)%Z) l) as [|? [|? ?]]; [| |reflexivity].
  - destruct (_ =? _)%Z; reflexivity.
  - destruct (_ =? 0)%Z; [reflexivity|]. destruct (_ =? 0)%Z; reflexivity.
Qed.
Lemma forallb_map {A B} (f : A -> B) g l : forallb g (map f l) = forallb (fun x => g (f x)) l.
Proof. induction l as [|x l IH]; [reflexivity|]. cbn [map forallb]. now rewrite IH. Qed.
Lemma locate_tmap {A B} (f : A -> B) ax ts : forall c, locate ax c (map (tmap f) ts) = option_map (fun '(u, k) => (tmap f u, k)) (locate ax c ts).
Proof. induction ts as [|t ts IH]; intro c; cbn [map locate]; [reflexivity|]. cbn [tmap shape]. destruct (Nat.ltb _ _); [reflexivity|]. apply IH. Qed.
Lemma np_concatenate_tmap {A B} (f : A -> B) ts axis : np_concatenate (map (tmap f) ts) axis = option_map (tmap f) (np_concatenate ts axis).
Proof.
  unfold np_concatenate. destruct ts as [|t ts]; [reflexivity|]. cbn [map]. cbn [tmap shape]. destruct (py_index _ axis) as [ax|]; [|reflexivity].
  change (tmap f t :: map (tmap f) ts) with (map (tmap f) (t :: ts)).
  rewrite forallb_map, map_map. cbn [tmap shape].
  destruct (forallb _ (t :: ts)); [|reflexivity]. rewrite <- build_tmap.
  match goal with |- build ?a _ = build ?b _ => replace a with b by reflexivity end. apply build_ext. intro ix.
  rewrite locate_tmap. destruct (locate _ _ _) as [[u c]|]; [|reflexivity]. cbn. apply get_tmap.
Qed.
Lemma np_binary_tmap {A B} (f : A -> B) m m' t u : (forall a b, f (m a b) = m' (f a) (f b)) ->
  np_binary m' (tmap f t) (tmap f u) = option_map (tmap f) (np_binary m t u).
Proof.
  intro H. unfold np_binary. cbn [tmap shape]. destruct (bcast_dims _ _) as [sh|]; [|reflexivity]. rewrite <- build_tmap. apply build_ext. intro ix.
  rewrite !get_tmap. destruct (get t _); [|reflexivity]. destruct (get u _); [|reflexivity]. cbn. now rewrite H.
Qed.
Lemma np_slice_tmap {A B} (f : A -> B) t s : np_slice (tmap f t) s = option_map (tmap f) (np_slice t s).
Proof.
  unfold np_slice. cbn [tmap shape]. destruct (sequence _); [|reflexivity]. rewrite <- build_tmap. apply build_ext. intro ix. apply get_tmap.
Qed.
Lemma np_take_tmap {A B} (f : A -> B) t i a : np_take (tmap f t) i a = option_map (tmap f) (np_take t i a).
Proof.
  unfold np_take. cbn [tmap shape]. destruct (py_index _ a) as [ax|]; [|reflexivity]. rewrite <- build_tmap. apply build_ext. intro ix.
  destruct (get i _) as [z|]; [|reflexivity]. destruct (py_index _ z) as [k|]; [|reflexivity]. apply get_tmap.
Qed.
Lemma option_map_inv {A B} (f : A -> B) o y : option_map f o = Some y -> exists x, o = Some x /\ y = f x.
Proof. destruct o; intro H; [|discriminate]. injection H as <-. eauto. Qed.

(** ** Unsqueeze and Squeeze *)
Lemma unsqueeze_ok (t : tensor Z) axes sh z y : wf t -> unsqueeze_shape (shape t) axes = Some sh -> np_reshape t sh = Some z ->
  unsqueeze_rel axes t y -> y = z.
Proof.
  intros W E N R. assert (F : fold_unsqueeze t axes = Some [z]).
  { unfold fold_unsqueeze, unsqueeze_shape in *. destruct (mark_axes _ _) as [out|]; [|discriminate]. rewrite E, N. reflexivity. }
  apply fold_unsqueeze_spec in F; auto.
  - destruct F as (z' & [=->] & F). exact (unsqueeze_fun _ _ _ _ R F).
  - destruct R as (_ & _ & L & ax & Na & _). rewrite <- L, Na. discriminate.
Qed.
Lemma keep_dims_spec axes ax : forall sh k, (forall j, k <= j -> j < k + length sh -> existsb (Z.eqb (Z.of_nat j)) axes = existsb (Nat.eqb j) ax) ->
  keep_dims axes k sh = map Z.of_nat (drop_from k ax sh).
Proof.
  induction sh as [|d sh IH]; intros k H; [reflexivity|]. cbn [keep_dims drop_from]. rewrite (H k) by (cbn; lia).
  rewrite IH by (intros j A B; apply H; cbn; lia). destruct (existsb _ ax); reflexivity.
Qed.
Lemma norm_nonneg r axes : Forall (fun a => 0 <= a)%Z axes -> forall ax, norm_axes r axes = Some ax -> ax = map Z.to_nat axes.
Proof.
  induction 1 as [|a axes P _ IH]; intros ax E; cbn [norm_axes] in E; [now injection E as <-|].
  destruct (norm_axis r a) as [k|] eqn:K; [|discriminate]. destruct (norm_axes r axes) as [l|]; [|discriminate]. injection E as <-.
  cbn [map]. f_equal; auto. unfold norm_axis in K. destruct (Z.leb_spec 0 a); [|lia]. destruct (a <? Z.of_nat r)%Z; congruence.
Qed.
Lemma existsb_ints axes j : Forall (fun a => 0 <= a)%Z axes -> existsb (Z.eqb (Z.of_nat j)) axes = existsb (Nat.eqb j) (map Z.to_nat axes).
Proof.
  induction 1 as [|a axes P _ IH]; [reflexivity|]. cbn [existsb map]. rewrite IH. f_equal.
  destruct (Z.eqb_spec (Z.of_nat j) a), (Nat.eqb_spec j (Z.to_nat a)); auto; lia.
Qed.
Lemma reshape_exact {A} (t y : tensor A) sh z : wf t -> wf y -> np_reshape t (map Z.of_nat sh) = Some z -> shape y = sh -> data y = data t -> y = z.
Proof.
  intros W Wy N S D. assert (P := np_reshape_spec t _ z W N). destruct P as (Wz & Dz & Lz & _ & _ & K).
  destruct y as [ys yd], z as [zs zd]. cbn [shape data] in *. subst ys. f_equal; [|congruence].
  apply nth_error_ext. intro k. destruct (nth_error sh k) as [d|] eqn:E.
  - symmetry. rewrite (K k (Z.of_nat d)); [now rewrite Nat2Z.id|rewrite nth_error_map, E; reflexivity|lia].
  - symmetry. apply nth_error_None. apply nth_error_None in E. rewrite map_length in Lz. lia.
Qed.
Lemma squeeze_data {A} axes (x y : tensor A) : squeeze_rel axes x y -> data y = data x.
Proof.
  intros (W & Wy & ax & Na & Nd & One & S & G). apply nth_error_ext. intro k.
  assert (Hs : size (shape y) = size (shape x)).
  { rewrite S. destruct (Nat.eq_dec (size (shape x)) 0) as [Z0|Z0].
    - rewrite Z0. unfold drop_axes. clear -Z0 One.
      assert (K : forall sh k, size sh = 0 -> (forall a, In a ax -> k <= a -> a < k + length sh -> nth (a - k) sh 0 = 1) -> size (drop_from k ax sh) = 0).
      { induction sh as [|d sh IH]; intros k Z H; [discriminate|]. rewrite size_cons in Z. cbn [drop_from].
        assert (T : forall a, In a ax -> S k <= a -> a < S k + length sh -> nth (a - S k) sh 0 = 1).
        { intros a I1 I2 I3. assert (X := H a I1 ltac:(lia) ltac:(cbn; lia)). replace (a - k) with (S (a - S k)) in X by lia. exact X. }
        destruct (existsb (Nat.eqb k) ax) eqn:E.
        - apply existsb_exists in E. destruct E as (a & I & E). apply Nat.eqb_eq in E. subst a. assert (X := H k I ltac:(lia) ltac:(cbn; lia)).
          rewrite Nat.sub_diag in X. cbn in X. subst d. apply IH; auto. lia.
        - rewrite size_cons. destruct (Nat.eq_dec d 0) as [->|]; [reflexivity|]. rewrite (IH (S k)); auto; nia. }
      apply K; auto. intros. rewrite Nat.sub_0_r. auto.
    - destruct (ravel_drop ax (shape x) (unravel (shape x) 0) 0) as [_ E]; [apply unravel_inb; lia| |exact E].
      intros. rewrite Nat.sub_0_r. auto. }
  destruct (Nat.lt_ge_cases k (size (shape x))) as [L|L].
  - assert (I := unravel_inb _ _ L). assert (X := G _ I). unfold get in X. rewrite S in X. unfold drop_axes in X.
    destruct (ravel_drop ax (shape x) _ 0 I) as [E _]; [intros; rewrite Nat.sub_0_r; auto|]. rewrite <- E, ravel_unravel in X; auto.
  - unfold wf in *. rewrite (proj2 (nth_error_None _ _)), (proj2 (nth_error_None _ _)); auto; lia.
Qed.
Lemma squeeze_ok (t : tensor Z) axes z y : wf t -> Forall (fun a => 0 <= a)%Z axes -> np_reshape t (squeeze_shape (shape t) axes) = Some z ->
  squeeze_rel axes t y -> y = z.
Proof.
  intros W P N R. assert (D := squeeze_data _ _ _ R). destruct R as (_ & Wy & ax & Na & Nd & One & S & G).
  rewrite (norm_nonneg _ _ P _ Na) in *. unfold squeeze_shape in N.
  assert (E : map (fun i => if (0 <=? i)%Z then i else (i + Z.of_nat (length axes))%Z) axes = axes).
  { transitivity (map (fun x => x) axes); [|apply map_id]. apply map_ext_in. intros a I. rewrite Forall_forall in P. specialize (P a I). destruct (Z.leb_spec 0 a); [auto|lia]. }
  rewrite E in N. rewrite (keep_dims_spec axes (map Z.to_nat axes)) in N by (intros; apply existsb_ints; auto).
  exact (reshape_exact t y _ z W Wy N S D).
Qed.

(** ** Gather *)
Lemma inb_split3 ix sh1 sh2 sh3 : inb ix (sh1 ++ sh2 ++ sh3) -> exists pre mid suf, ix = pre ++ mid ++ suf /\
  length pre = length sh1 /\ length mid = length sh2 /\ length suf = length sh3 /\ inb pre sh1 /\ inb mid sh2 /\ inb suf sh3.
Proof.
  intro I. assert (L := inb_length _ _ I). rewrite !app_length in L.
  exists (firstn (length sh1) ix), (firstn (length sh2) (skipn (length sh1) ix)), (skipn (length sh2) (skipn (length sh1) ix)).
  assert (E : ix = firstn (length sh1) ix ++ firstn (length sh2) (skipn (length sh1) ix) ++ skipn (length sh2) (skipn (length sh1) ix)) by (now rewrite !firstn_skipn).
  assert (L1 : length (firstn (length sh1) ix) = length sh1) by (rewrite firstn_length; lia).
  assert (L2 : length (firstn (length sh2) (skipn (length sh1) ix)) = length sh2) by (rewrite firstn_length, skipn_length; lia).
  rewrite E in I. apply inb_app in I; auto. destruct I as [I1 I]. apply inb_app in I; auto. destruct I as [I2 I3].
  repeat (split; auto). now rewrite !skipn_length; lia.
Qed.
Lemma gather_fun {A} axis (x : tensor A) i y z : gather_axis_rel axis x i y -> gather_axis_rel axis x i z -> y = z.
Proof.
  intros (Wx & Wi & Wy & ax & Na & Sy & G) (_ & _ & Wz & ax' & Na' & Sz & G'). assert (ax' = ax) by congruence. subst ax'.
  apply tensor_ext; auto; [congruence|]. intros ix I. assert (La := norm_axis_lt _ _ _ Na). assert (I0 := I). rewrite Sy in I.
  apply inb_split3 in I. destruct I as (pre & mid & suf & -> & L1 & L2 & L3 & _).
  rewrite firstn_length in L1.
  destruct (G pre mid suf) as (z1 & k & A1 & B1 & ->); [lia|auto|auto|]. destruct (G' pre mid suf) as (z2 & k' & A2 & B2 & ->); [lia|auto|rewrite Sz, <- Sy; auto|]. congruence.
Qed.
Lemma take_ok {A} (t : tensor A) idx axis z : wf t -> wf idx -> np_take t idx axis = Some z -> gather_axis_rel axis t idx z.
Proof.
  intros W Wi N. unfold np_take in N. destruct (py_index (length (shape t)) axis) as [ax|] eqn:P; [|discriminate].
  rewrite <- norm_py in P. assert (La := norm_axis_lt _ _ _ P). apply build_spec in N. destruct N as (S & Wz & G).
  split; auto. split; auto. split; auto. exists ax. split; auto. split; auto. intros pre mid suf Lp Lm I.
  assert (Q := G _ ltac:(rewrite <- S; exact I)). cbv beta in Q.
  rewrite skipn_app, (skipn_all2 pre) in Q by lia. replace (ax - length pre) with 0 in Q by lia. cbn [skipn app] in Q.
  rewrite firstn_app, (firstn_all2 mid) in Q by lia. replace (length (shape idx) - length mid) with 0 in Q by lia. rewrite firstn_O, app_nil_r in Q.
  rewrite firstn_app, (firstn_all2 pre) in Q by lia. replace (ax - length pre) with 0 in Q by lia. rewrite firstn_O, app_nil_r in Q.
  rewrite app_assoc, skipn_app, (skipn_all2 (pre ++ mid)) in Q by (rewrite app_length; lia).
  replace (ax + length (shape idx) - length (pre ++ mid)) with 0 in Q by (rewrite app_length; lia). cbn [skipn app] in Q.
  rewrite <- app_assoc in Q. destruct (get_wf z _ Wz I) as [e Ee]. rewrite Ee in Q.
  destruct (get idx mid) as [zi|] eqn:Gi; [|discriminate]. rewrite <- norm_py in Q. destruct (norm_axis _ zi) as [k|] eqn:Nk; [|discriminate].
  exists zi, k. split; auto. split; auto. congruence.
Qed.
