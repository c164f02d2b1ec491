(** C74: the ragged operators become ONNX expressions with the same value. *)
From Coq Require Import String List Arith ZArith Bool Lia.
From Verif Require Import OnnxSpec SegSpec SegProofs RagSpec RagModel RagProofs.
Import ListNotations.
Local Open Scope list_scope.
Local Notation length := List.length.

Definition arg_value {A} (a : arg) : rval A := match a with Scalar z => S0 z | Vector l => V1 l end.
Definition range_env {A} (starts limits deltas : arg) (s : string) : option (rval A) :=
  if String.eqb s "starts" then Some (arg_value starts) else if String.eqb s "limits" then Some (arg_value limits) else if String.eqb s "deltas" then Some (arg_value deltas) else None.
Definition recorded (r : option nat) (a : arg) : Prop := r = None \/ r = Some (match a with Scalar _ => 0 | Vector _ => 1 end).
(** Missing: no rows; three scalars; rows where the limit is on the other side of the start, by less than delta. *)
Theorem C74_ragged_range_partial :
  forall starts limits deltas rows rank_s rank_d,
    tf_ragged_range starts limits deltas rows -> recorded rank_s starts -> recorded rank_d deltas ->
    rows <> [] -> (exists a l, In a [starts; limits; deltas] /\ a = Vector l) ->
    (forall i s l d, i < length rows -> arg_at starts i = Some s -> arg_at limits i = Some l -> arg_at deltas i = Some d -> (0 <= (l - s) * d \/ Z.abs d <= Z.abs (l - s))%Z) ->
    let '(out_splits, out_values) := ragged_range rank_s rank_d in
    value (range_env starts limits deltas) out_splits = Some (@V1 Z (splits rows)) /\ value (range_env starts limits deltas) out_values = Some (@V1 Z (concat rows)).
Proof.
  intros starts limits deltas rows rank_s rank_d ((Hsz & _) & Hrows) Rs Rd Ne (va & vl & Hva & Eva) Hlim. set (n := length rows) in *. assert (n_pos : 0 < n) by (unfold n; destruct rows; [contradiction|cbn; lia]).
  set (env := @range_env Z starts limits deltas).
  set (at_ := fun (a : arg) (i : nat) => match arg_at a i with Some z => z | None => 0%Z end).
  set (vec := fun a => match a with Scalar _ => false | Vector _ => true end).
  assert (Arg : forall a, arg_size n a -> @is_arg Z n (vec a) (arg_value a) (at_ a)).
  { intros [z|l] Ha; cbn [vec is_arg arg_value]; [exists z; split; [reflexivity|reflexivity]|]. f_equal. cbn in Ha. rewrite <- Ha. clear. unfold at_. cbn [arg_at].
    assert (G : forall a, l = map (fun i => match nth_error l (i - a) with Some z => z | None => 0%Z end) (seq a (length l))).
    { induction l as [|x l IH]; intro a; [reflexivity|]. cbn [length seq map]. rewrite Nat.sub_diag. cbn [nth_error]. f_equal. rewrite (IH (S a)) at 1. apply map_ext_in. intros i Hi. apply in_seq in Hi. replace (i - a) with (S (i - S a)) by lia. reflexivity. }
    rewrite (G 0) at 1. apply map_ext. intro i. now rewrite Nat.sub_0_r. }
  assert (Hs : arg_size n starts /\ arg_size n limits /\ arg_size n deltas). { inversion Hsz as [|? ? H1 Hsz1]; subst. inversion Hsz1 as [|? ? H2 Hsz2]; subst. inversion Hsz2; subst. auto. }
  destruct Hs as (Hs1 & Hs2 & Hs3). assert (A1 := Arg _ Hs1). assert (A2 := Arg _ Hs2). assert (A3 := Arg _ Hs3).
  set (s := at_ starts) in *. set (l := at_ limits) in *. set (d := at_ deltas) in *.
  assert (Row : forall i r, nth_error rows i = Some r -> i < n /\ d i <> 0%Z /\ is_range (s i) (l i) (d i) r /\ (0 <= (l i - s i) * d i \/ Z.abs (d i) <= Z.abs (l i - s i))%Z).
  { intros i r Hr. assert (Hi : i < n) by (apply nth_error_Some; congruence). split; [exact Hi|]. destruct (Hrows i r Hr) as (x & y & z & E1 & E2 & E3 & Nz & Ra). unfold s, l, d, at_. rewrite E1, E2, E3. split; [exact Nz|]. split; [exact Ra|]. now apply (Hlim i). }
  assert (Dn : forall i, i < n -> d i <> 0%Z). { intros i Hi. destruct (nth_error rows i) as [r|] eqn:Er; [apply (Row i r Er)|]. apply nth_error_None in Er. fold n in Er. lia. }
  unfold ragged_range. cbv zeta.
  (* row lengths *)
  destruct (arith_arg Z n n_pos Sub _ _ _ _ l s (fun i => l i - s i)%Z A2 A1 ltac:(reflexivity)) as (w1 & W1 & I1).
  destruct (arith_arg Z n n_pos Div _ _ _ _ _ d (fun i => Z.quot (l i - s i) (d i)) I1 A3) as (w2 & W2 & I2).
  { intros i Hi. cbn [arith_of]. replace (Z.eqb (d i) 0) with false by (symmetry; apply Z.eqb_neq; auto). reflexivity. }
  destruct (arith_arg Z n n_pos Mul _ _ _ _ _ d (fun i => Z.quot (l i - s i) (d i) * d i)%Z I2 A3 ltac:(reflexivity)) as (w3 & W3 & I3).
  destruct (compare_arg Z n n_pos Equal _ _ _ _ _ _ I3 I1) as (w4 & W4 & I4).
  destruct (not_arg Z n _ _ _ I4) as (w5 & W5 & I5). destruct (cast_arg Z n _ _ _ I5) as (w6 & W6 & I6).
  destruct (arith_arg Z n n_pos Add _ _ _ _ _ _ (fun i => Z.quot (l i - s i) (d i) + (if negb (Z.eqb (Z.quot (l i - s i) (d i) * d i) (l i - s i)) then 1 else 0))%Z I2 I6 ltac:(reflexivity)) as (w7 & W7 & I7).
  destruct (arith_arg Z n n_pos Maximum _ false _ (S0 0%Z) _ (fun _ => 0%Z) (fun i => range_len (s i) (l i) (d i)) I7 ltac:(exists 0%Z; split; reflexivity) ltac:(reflexivity)) as (w8 & W8 & I8).
  assert (Flag : vec starts || vec limits || vec deltas = true). { cbn in Hva. destruct Hva as [<-|[<-|[<-|[]]]]; rewrite Eva; cbn; now rewrite ?orb_true_r. }
  replace (((vec limits || vec starts) || vec deltas) || ((vec limits || vec starts) || vec deltas || vec deltas || (vec limits || vec starts)) || false) with true in I8 by (revert Flag; destruct (vec starts), (vec limits), (vec deltas); cbn; congruence).
  cbn [is_arg] in I8. set (ls := map (@length Z) rows).
  assert (Ls : map (fun i => range_len (s i) (l i) (d i)) (seq 0 n) = map Z.of_nat ls).
  { unfold ls. rewrite map_map. unfold n. clear -Row Hlim. assert (G : forall (rs : list (list Z)) a, (forall i r, nth_error rs i = Some r -> Z.of_nat (length r) = range_len (s (a + i)) (l (a + i)) (d (a + i))) -> map (fun i => range_len (s i) (l i) (d i)) (seq a (length rs)) = map (fun r => Z.of_nat (length r)) rs).
    { induction rs as [|r rs IH]; intros a H; [reflexivity|]. cbn. f_equal; [rewrite (H 0 r eq_refl), Nat.add_0_r; reflexivity|]. apply IH. intros i r' Hr. rewrite (H (S i) r' Hr), Nat.add_succ_comm. reflexivity. }
    apply G. intros i r Hr. cbn [Nat.add]. destruct (Row i r Hr) as (Hi & Nz & Ra & Li). now apply range_unique. }
  rewrite Ls in I8.
  set (diff := E (KArith Sub) [EIn "limits"%string; EIn "starts"%string]). set (div := E (KArith Div) [diff; EIn "deltas"%string]).
  assert (Vs : value env (EIn "starts"%string) = Some (arg_value starts)) by reflexivity. assert (Vl : value env (EIn "limits"%string) = Some (arg_value limits)) by reflexivity. assert (Vd : value env (EIn "deltas"%string) = Some (arg_value deltas)) by reflexivity.
  assert (X1 : value env diff = Some w1) by (unfold diff; now rewrite (value_2 _ _ _ _ _ _ _ Vl Vs)).
  assert (X2 : value env div = Some w2) by (unfold div; now rewrite (value_2 _ _ _ _ _ _ _ X1 Vd)).
  assert (X3 : value env (E (KArith Mul) [div; EIn "deltas"%string]) = Some w3) by (now rewrite (value_2 _ _ _ _ _ _ _ X2 Vd)).
  assert (X4 := value_2 _ _ (KCompare Equal) _ _ _ _ X3 X1). rewrite W4 in X4. assert (X5 := value_1 _ _ KNot _ _ X4). rewrite W5 in X5. assert (X6 := value_1 _ _ KCastBool _ _ X5). rewrite W6 in X6.
  assert (X7 := value_2 _ _ (KArith Add) _ _ _ _ X2 X6). rewrite W7 in X7. assert (Xz : value env zero = Some (S0 0%Z)) by reflexivity. assert (X8 := value_2 _ _ (KArith Maximum) _ _ _ _ X7 Xz). rewrite W8, I8 in X8.
  set (row_lens := E (KArith Maximum) _) in *. fold diff div row_lens.
  destruct (lengths_to_sparse row_lens) as [[[num_rows num_cols] ri] ci] eqn:El.
  assert (Nls : ls <> []) by (unfold ls; destruct rows; [contradiction|discriminate]).
  destruct (lengths_ok Z env row_lens ls num_rows num_cols ri ci X8 Nls El) as (Y1 & Y2 & Y3 & Y4).
  assert (Lls : length ls = n) by apply map_length.
  assert (Ex : forall r a f nm, value env (EIn nm) = Some (arg_value a) -> recorded r a -> arg_size n a -> @is_arg Z n (vec a) (arg_value a) f -> value env match r with Some 1 => EIn nm | _ => E KExpand [EIn nm; num_rows] end = Some (V1 (map f (seq 0 n)))).
  { intros r a f nm Va Hr Ha Ia. assert (Xp : value env (E KExpand [EIn nm; num_rows]) = Some (V1 (map f (seq 0 n)))).
    { rewrite (value_2 _ _ _ _ _ _ _ Va Y1), Lls. destruct a as [z|x]; cbn [vec is_arg arg_value] in Ia |- *.
      - destruct Ia as (z' & Ez & Hz). injection Ez as <-. cbn [op_value]. replace (Z.leb 0 (Z.of_nat n)) with true by (symmetry; apply Z.leb_le; lia). rewrite Nat2Z.id. do 2 f_equal. clear -Hz. rewrite (map_ext_in _ (fun _ => z)) by (intros i Hi; apply in_seq in Hi; apply Hz; lia).
        generalize 0. induction n as [|m IH]; intro b; [reflexivity|]. cbn. f_equal. apply IH. intros; apply Hz; lia.
      - cbn [op_value]. cbn in Ha. rewrite Ha, Z.eqb_refl. f_equal. exact Ia. }
    destruct Hr as [-> | ->]; [exact Xp|]. destruct a as [z|x]; [exact Xp|]. rewrite Va. f_equal. exact Ia. }
  assert (Gat : forall e f, value env e = Some (V1 (map f (seq 0 n))) -> value env (E KGather [e; ri]) = Some (V1 (map (fun p => f (fst p)) (pairs ls)))).
  { intros e f He. rewrite (value_2 _ _ _ _ _ _ _ He Y3). cbn [op_value]. unfold rows_of. rewrite (RagProofs.all_of_map _ _ (fun p => f (fst p))); [reflexivity|]. intros p Hp. apply in_pairs in Hp. rewrite Lls in Hp. apply take_ok. rewrite nth_error_map, (nth_error_nth' _ 0) by (rewrite seq_length; lia). rewrite seq_nth by lia. reflexivity. }
  split.
  - rewrite (value_2 Z env _ _ _ (V1 [0%Z]) (V1 (cumsum_from false 0 (map Z.of_nat ls)))).
    + cbn [op_value]. unfold splits. rewrite splits_cumsum. unfold ls. rewrite map_map. reflexivity.
    + reflexivity.
    + rewrite (value_2 _ _ _ _ _ _ _ X8 Xz). reflexivity.
  - assert (G1 := Gat _ _ (Ex rank_s starts s _ Vs Rs Hs1 A1)). assert (G2 := Gat _ _ (Ex rank_d deltas d _ Vd Rd Hs3 A3)).
    assert (G3 : value env (E (KArith Mul) [ci; E KGather [match rank_d with Some 1 => EIn "deltas"%string | _ => E KExpand [EIn "deltas"%string; num_rows] end; ri]]) = Some (V1 (map (fun p => Z.of_nat (snd p) * d (fst p))%Z (pairs ls)))).
    { rewrite (value_2 _ _ _ _ _ _ _ Y4 G2). cbn [op_value]. unfold cols_of. rewrite (broadcast_same _ _ _ (fun p => Z.of_nat (snd p) * d (fst p))%Z); reflexivity. }
    rewrite (value_2 _ _ _ _ _ _ _ G1 G3). cbn [op_value]. rewrite (broadcast_same _ _ _ (fun p => s (fst p) + Z.of_nat (snd p) * d (fst p))%Z) by reflexivity. cbn [option_map].
    rewrite (concat_pairs rows (fun i j => s i + Z.of_nat j * d i)%Z); [reflexivity|]. intros i r Hr j x Hx. destruct (Row i r Hr) as (_ & _ & (Ra & _) & _). destruct (Ra j) as [Rj _]; [apply nth_error_Some; congruence|]. congruence.
Qed.
(** The limit of a row may lie on the other side of the start, by less than delta: TensorFlow gives no element, the expression one. *)
Theorem C74_ragged_range_refuted :
  exists starts limits deltas rows, tf_ragged_range starts limits deltas rows /\ rows <> [] /\
    let '(out_splits, out_values) := ragged_range (Some 1) (Some 1) in
    value (range_env starts limits deltas) out_splits <> Some (@V1 Z (splits rows)) /\ value (range_env starts limits deltas) out_values <> Some (@V1 Z (concat rows)).
Proof.
  exists (Vector [2]%Z), (Vector [1]%Z), (Vector [2]%Z), [[]]. split; [|split; [discriminate|split; vm_compute; discriminate]].
  split; [split; [|intro H; destruct (H (Vector [2]%Z) (or_introl eq_refl)); discriminate]|].
  - apply Forall_cons; [reflexivity|]. apply Forall_cons; [reflexivity|]. apply Forall_cons; [reflexivity|constructor].
  - intros i r Hr. destruct i as [|i]; [|destruct i; discriminate]. injection Hr as <-. exists 2%Z, 1%Z, 2%Z. repeat (split; [reflexivity|]). split; [lia|]. split; [intros k Hk; inversion Hk|]. intro H. cbv in H. discriminate.
Qed.
(** Three scalars make one row; the expression has no value. *)
Theorem C74_ragged_range_scalars_refuted :
  exists s l d rows, tf_ragged_range (Scalar s) (Scalar l) (Scalar d) rows /\
    let '(out_splits, out_values) := ragged_range (Some 0) (Some 0) in
    value (@range_env Z (Scalar s) (Scalar l) (Scalar d)) out_splits = None /\ value (@range_env Z (Scalar s) (Scalar l) (Scalar d)) out_values = None.
Proof.
  exists 0%Z, 2%Z, 1%Z, [[0; 1]%Z]. split; [|split; reflexivity]. split; [split; [|reflexivity]|].
  - apply Forall_cons; [exact Logic.I|]. apply Forall_cons; [exact Logic.I|]. apply Forall_cons; [exact Logic.I|constructor].
  - intros i r Hr. destruct i as [|i]; [|destruct i; discriminate]. injection Hr as <-. exists 0%Z, 2%Z, 1%Z. repeat (split; [reflexivity|]). split; [lia|]. split; [|intro H; cbv in H; discriminate].
    intros [|[|k]] Hk; [split; reflexivity|split; reflexivity|cbn in Hk; lia].
Qed.
(** No rows: TensorFlow gives an empty ragged tensor, the expression of the values has no value. *)
Theorem C74_ragged_range_empty_refuted :
  tf_ragged_range (Vector []) (Vector []) (Vector []) [] /\
  value (@range_env Z (Vector []) (Vector []) (Vector [])) (snd (ragged_range (Some 1) (Some 1))) = None.
Proof.
  split; [|reflexivity]. split; [split; [|intro H; destruct (H (Vector []) (or_introl eq_refl)); discriminate]|].
  - apply Forall_cons; [reflexivity|]. apply Forall_cons; [reflexivity|]. apply Forall_cons; [reflexivity|constructor].
  - intros [|i] r Hr; discriminate.
Qed.
(** ** RaggedGather *)
Definition gather_env {A} (rows : list (list A)) (indices : list Z) (s : string) : option (rval A) :=
  if String.eqb s "splits" then Some (V1 (splits rows)) else if String.eqb s "values" then Some (D1 (concat rows)) else if String.eqb s "indices" then Some (V1 indices) else None.
Theorem C74_ragged_gather :
  forall (A : Type) (rows out : list (list A)) indices in_rank out_rank n_splits rank_s rank_v out_splits out_values,
    ragged_gather in_rank out_rank n_splits rank_s rank_v = Some (out_splits, out_values) ->
    tf_ragged_gather rows indices out ->
    (Z.of_nat (length rows) < max_int64)%Z -> (Z.of_nat (length out) < max_int64)%Z ->
    value (gather_env rows indices) out_splits = Some (V1 (splits out)) /\ value (gather_env rows indices) out_values = Some (D1 (concat out)).
Proof.
  intros A rows out ix ir orr n rs rv es ev H G B B'. assert (H' : ragged_gather 1 1 1 None None = Some (es, ev)).
  { unfold ragged_gather in H |- *. destruct (Nat.eqb ir 1); [|discriminate]. destruct (Nat.eqb orr 1); [|discriminate]. destruct (Nat.eqb n 1); [|discriminate]. destruct rs as [[|[|rs]]|]; try discriminate; destruct rv as [[|[|rv]]|]; try discriminate; exact H. }
  exact (gather_ok A (gather_env rows ix) rows out ix eq_refl eq_refl eq_refl G B B' es ev H').
Qed.
(** accepted exactly with one ragged dimension and values that are not known to have another rank *)
Theorem C74_ragged_gather_accepted :
  forall in_rank out_rank n_splits rank_s rank_v,
    (exists r, ragged_gather in_rank out_rank n_splits rank_s rank_v = Some r) <->
    in_rank = 1 /\ out_rank = 1 /\ n_splits = 1 /\ (rank_s = None \/ rank_s = Some 1) /\ (rank_v = None \/ rank_v = Some 1).
Proof.
  intros ir orr n rs rv. split.
  - intros [r H]. unfold ragged_gather in H. destruct (Nat.eqb_spec ir 1); [|discriminate]. destruct (Nat.eqb_spec orr 1); [|discriminate]. destruct (Nat.eqb_spec n 1); [|discriminate]. destruct rs as [[|[|rs]]|]; try discriminate; destruct rv as [[|[|rv]]|]; try discriminate; auto 10.
  - intros (-> & -> & -> & [-> | ->] & [-> | ->]); eexists; reflexivity.
Qed.
(** ** RaggedTensorToSparse: nested splits; lens: the lengths of the rows, for each ragged dimension.
    Missing: a dimension without rows. *)
Theorem C74_ragged_to_sparse_partial :
  forall (A : Type) (env : string -> option (rval A)) nested lens rank out_indices out_shape,
    to_sparse rank nested = Some (out_indices, out_shape) -> fits lens ->
    Forall2 (fun e l => value env e = Some (V1 (sums_from 0 l)) /\ l <> [] /\ (Z.of_nat (length l) < max_int64)%Z) nested lens ->
    value env out_indices = Some (M2 (all_paths lens)) /\ value env out_shape = Some (V1 (dense_dims lens)).
Proof. intros A env nested lens rank oi os H Fit F. exact (to_sparse_ok A env nested lens rank oi os F Fit H). Qed.
Theorem C74_ragged_to_sparse_empty_refuted :
  exists lens nested out_indices out_shape, fits lens /\ to_sparse (Some 1) nested = Some (out_indices, out_shape) /\
    let env := fun s : string => if String.eqb s "a" then Some (@V1 Z (sums_from 0 (nth 0 lens []))) else if String.eqb s "b" then Some (V1 (sums_from 0 (nth 1 lens []))) else None in
    nested = [EIn "a"; EIn "b"]%string /\ value env out_indices = None /\ value env out_shape = None.
Proof. exists [[0; 0]; []], [EIn "a"; EIn "b"]%string. do 2 eexists. split; [cbn; auto|]. split; [reflexivity|]. split; [reflexivity|]. split; reflexivity. Qed.

(** ** concrete cases *)
Example range_case : tf_ragged_range (Vector [1; 5; 0]%Z) (Vector [4; 0; 0]%Z) (Vector [1; -2; 3]%Z) [[1; 2; 3]; [5; 3; 1]; []]%Z /\
  value (range_env (Vector [1; 5; 0]%Z) (Vector [4; 0; 0]%Z) (Vector [1; -2; 3]%Z)) (snd (ragged_range (Some 1) None)) = Some (@V1 Z [1; 2; 3; 5; 3; 1]%Z).
Proof.
  split; [|reflexivity]. split; [split; [|intro H; destruct (H _ (or_introl eq_refl)); discriminate]|].
  - apply Forall_cons; [reflexivity|]. apply Forall_cons; [reflexivity|]. apply Forall_cons; [reflexivity|constructor].
  - intros [|[|[|i]]] r Hr; try (destruct i; discriminate); injection Hr as <-.
    + exists 1%Z, 4%Z, 1%Z. repeat (split; [reflexivity|]). split; [lia|]. split; [|intro H; cbv in H; discriminate]. intros [|[|[|k]]] Hk; try (split; reflexivity). cbn in Hk; lia.
    + exists 5%Z, 0%Z, (-2)%Z. repeat (split; [reflexivity|]). split; [lia|]. split; [|intro H; cbv in H; discriminate]. intros [|[|[|k]]] Hk; try (split; reflexivity). cbn in Hk; lia.
    + exists 0%Z, 0%Z, 3%Z. repeat (split; [reflexivity|]). split; [lia|]. split; [|intro H; cbv in H; discriminate]. intros k Hk. cbn in Hk; lia.
Qed.
Example gather_case : tf_ragged_gather [[1; 2]; []; [3]; [4; 5; 6]]%Z [3; 1; 0; 0; 2]%Z [[4; 5; 6]; []; [1; 2]; [1; 2]; [3]]%Z /\
  exists r, ragged_gather 1 1 1 (Some 1) None = Some r /\ value (gather_env [[1; 2]; []; [3]; [4; 5; 6]]%Z [3; 1; 0; 0; 2]%Z) (snd r) = Some (D1 [4; 5; 6; 1; 2; 1; 2; 3]%Z).
Proof. split; [reflexivity|]. eexists. split; reflexivity. Qed.
Example sparse_case : all_paths [[2; 1]; [1; 0; 2]] = [[0; 0; 0]; [1; 0; 0]; [1; 0; 1]]%Z /\ dense_dims [[2; 1]; [1; 0; 2]] = [2; 2; 2]%Z /\ fits [[2; 1]; [1; 0; 2]] /\
  exists r, to_sparse None [EIn "a"; EIn "b"]%string = Some r /\
    value (fun s => if String.eqb s "a" then Some (@V1 Z [0; 2; 3]%Z) else Some (V1 [0; 1; 1; 3]%Z)) (fst r) = Some (M2 [[0; 0; 0]; [1; 0; 0]; [1; 0; 1]]%Z).
Proof. split; [reflexivity|]. split; [reflexivity|]. split; [cbn; auto|]. eexists. split; reflexivity. Qed.

Print Assumptions C74_ragged_range_partial.
Print Assumptions C74_ragged_range_refuted.
Print Assumptions C74_ragged_range_scalars_refuted.
Print Assumptions C74_ragged_range_empty_refuted.
Print Assumptions C74_ragged_gather.
Print Assumptions C74_ragged_gather_accepted.
Print Assumptions C74_ragged_to_sparse_partial.
Print Assumptions C74_ragged_to_sparse_empty_refuted.
