(** C76: SparseReshape, SparseFillEmptyRows, SparseToDense and RaggedTensorToTensor become ONNX expressions with the same value. *)
From Coq Require Import String List Arith ZArith Bool Lia Permutation.
From Verif Require Import OnnxSpec SegSpec RagSpec RagModel RagIdsProofs SpSpec SpModel SpProofs.
From Verif Require RagProofs.
Import ListNotations.
Local Open Scope list_scope.
Local Notation length := List.length.

(** ** SparseReshape *)
Definition reshape_env (dims ns : list Z) (ixs : list (list Z)) (s : string) : option (spval unit) :=
  if String.eqb s "indices" then Some (M2 (length dims) ixs) else if String.eqb s "shape" then Some (V1 dims) else if String.eqb s "new_shape" then Some (V1 ns) else None.
(** the recorded shape of a vector of n elements *)
Definition recorded_vector (shape : option (list Z)) (n : nat) : Prop := shape = None \/ shape = Some [(-1)%Z] \/ shape = Some [Z.of_nat n].
(** Missing: a new shape that contains 0. *)
Theorem C76_sparse_reshape_partial :
  forall dims new_shape out_dims ixs out rec_shape rec_new out_indices out_shape,
    tf_reshape dims new_shape out_dims ixs out -> ~ In 0%Z new_shape ->
    recorded_vector rec_shape (length dims) -> recorded_vector rec_new (length new_shape) ->
    sparse_reshape rec_shape rec_new = Some (out_indices, out_shape) ->
    cvalue (reshape_env dims new_shape ixs) out_indices = Some (M2 (length out_dims) out) /\
    cvalue (reshape_env dims new_shape ixs) out_shape = Some (V1 out_dims).
Proof.
  intros dims ns od ixs out ss sn ei es T Nz K1 K2 H. apply (reshape_ok (reshape_env dims ns ixs) dims ns od ixs out ss sn ei es); auto.
  - clear -Nz. induction ns as [|z ns IH]; [discriminate|]. rewrite prod_cons. intro E. apply Z.mul_eq_0 in E. destruct E as [E|E]; [apply Nz; now left|]. apply IH; [intro; apply Nz; now right|exact E].
  - destruct T as [_ Same _ _ _ _]. replace (length od) with (length ns); [exact K2|]. clear -Same. induction Same; cbn; congruence.
Qed.
Theorem C76_sparse_reshape_accepted :
  forall rec_shape rec_new n m, recorded_vector rec_shape n -> recorded_vector rec_new m -> exists r, sparse_reshape rec_shape rec_new = Some r.
Proof.
  intros ss sn n m K1 K2. unfold sparse_reshape. assert (G : forall s k v, recorded_vector s k -> exists e, cum_prod s v = Some e).
  { intros s k v [-> | [-> | ->]]; [eexists; reflexivity|eexists; reflexivity|]. unfold cum_prod. destruct (Z.eqb (Z.of_nat k) (-1)); eexists; reflexivity. }
  destruct (G ss n (CIn "shape"%string) K1) as [e1 E1]. cbv zeta. rewrite E1. destruct (G sn m (C CWhere [C CLess [CIn "new_shape"%string; zero64]; C CNeg [C CDiv [C CReduceProd [CIn "shape"%string]; C CReduceProd [CIn "new_shape"%string]]]; CIn "new_shape"%string]) K2) as [e2 E2]. rewrite E2. eexists. reflexivity.
Qed.
(** An empty sparse tensor with a dimension 0: the division by the product of the new shape has no value. *)
Theorem C76_sparse_reshape_refuted :
  exists dims new_shape out_dims, tf_reshape dims new_shape out_dims [] [] /\
    forall rec_shape rec_new out_indices out_shape, recorded_vector rec_shape (length dims) -> recorded_vector rec_new (length new_shape) -> sparse_reshape rec_shape rec_new = Some (out_indices, out_shape) ->
      cvalue (reshape_env dims new_shape []) out_indices = None /\ cvalue (reshape_env dims new_shape []) out_shape = None.
Proof.
  exists [6; 0]%Z, [0; 3]%Z, [0; 3]%Z. split.
  - constructor; try reflexivity.
    + split; (apply Forall_cons; [lia|]; apply Forall_cons; [lia|]; constructor).
    + constructor; [now left|]. constructor; [now left|constructor].
    + intros [|[|i]] j H; try discriminate. destruct i; discriminate.
    + intros [E|[E|[]]]; discriminate.
    + constructor.
  - intros ss sn ei es [-> | [-> | ->]] [-> | [-> | ->]] H; injection H as <- <-; split; reflexivity.
Qed.
(** ** SparseFillEmptyRows *)
Definition fill_env {A} (n r : nat) (dims : list Z) (default : A) (entries : list (list Z * A)) (s : string) : option (spval A) :=
  if String.eqb s "indices" then Some (M2 r (map fst entries)) else if String.eqb s "values" then Some (D1 (map snd entries))
  else if String.eqb s "default" then Some (A0 default) else if String.eqb s "dense_shape" then Some (V1 (Z.of_nat n :: dims)) else None.
(** Missing: the order of the entries of the result (f_order). *)
Theorem C76_fill_empty_rows_partial :
  forall (A : Type) n r dims (default : A) entries consumers e_indices e_values e_indicator,
    fill_empty_rows consumers = Some (e_indices, e_values, e_indicator) -> 1 <= r ->
    Forall (fun e => length (fst e) = r /\ exists k, k < n /\ row_is k e) entries ->
    let env := fill_env n r dims default entries in
    exists out indicator,
      cvalue env e_indices = Some (M2 r (map fst out)) /\ cvalue env e_values = Some (D1 (map snd out)) /\ cvalue env e_indicator = Some (B1 indicator) /\
      length indicator = n /\ (forall k, k < n -> (nth_error indicator k = Some true <-> Forall (fun e => ~ row_is k e) entries)) /\
      (exists rows, NoDup rows /\ (forall k, In k rows <-> nth_error indicator k = Some true) /\ Permutation out (entries ++ filled r default rows)) /\
      (exists rest, out = entries ++ rest).
Proof.
  intros A n r dims default entries consumers ei ev eb H R F env. destruct (fill_ok env n r dims default entries eq_refl eq_refl eq_refl eq_refl R F ei ev eb consumers H) as (E1 & E2 & E3).
  set (rows := filter (empty_row entries) (seq 0 n)) in *. exists (entries ++ filled r default rows), (map (empty_row entries) (seq 0 n)). split; [exact E1|]. split; [exact E2|]. split; [exact E3|]. split; [now rewrite map_length, seq_length|].
  assert (Ind : forall k, nth_error (map (empty_row entries) (seq 0 n)) k = Some true <-> k < n /\ empty_row entries k = true).
  { intro k. destruct (Nat.lt_ge_cases k n) as [L|L].
    - rewrite (map_nth_error _ k (seq 0 n) (d := k)); [split; [intro X; split; [exact L|congruence]|intros [_ ->]; reflexivity]|]. rewrite (nth_error_nth' _ 0) by (now rewrite seq_length). now rewrite seq_nth.
    - split; [|lia]. intro X. assert (nth_error (map (empty_row entries) (seq 0 n)) k = None) by (apply nth_error_None; rewrite map_length, seq_length; exact L). congruence. }
  split.
  { intros k L. rewrite Ind. unfold empty_row. rewrite negb_true_iff, Forall_forall. split.
    - intros [_ N] e He Hr. assert (existsb (fun e => Nat.eqb (row_no e) k) entries = true); [|congruence]. apply existsb_exists. exists e. split; [exact He|]. unfold row_is in Hr. unfold row_no. rewrite (nth_error_nth _ _ 0%Z Hr), Nat2Z.id. apply Nat.eqb_refl.
    - intro N. split; [exact L|]. destruct (existsb (fun e => Nat.eqb (row_no e) k) entries) eqn:Ex; [|reflexivity]. apply existsb_exists in Ex. destruct Ex as (e & He & Hk). apply Nat.eqb_eq in Hk. exfalso. apply (N e He). destruct (row_no_ok n r entries F e He) as [G _]. now rewrite Hk in G. }
  split; [|eexists; reflexivity]. exists rows. split; [apply NoDup_filter, seq_NoDup|]. split; [|reflexivity]. intro k. rewrite Ind. unfold rows. rewrite filter_In, in_seq. split; intros [? ?]; split; auto; lia.
Qed.
(** converted exactly if nothing reads reverse_index_map *)
Theorem C76_fill_empty_rows_accepted : forall consumers, (exists r, fill_empty_rows consumers = Some r) <-> consumers = 0.
Proof. intros [|k]; split; [reflexivity|eexists; reflexivity|intros [r H]; discriminate|discriminate]. Qed.
(** The filled rows come behind all entries, not in the order of the rows. *)
Theorem C76_fill_empty_rows_refuted :
  exists n r dims (default : nat) entries out indicator e_indices e_values e_indicator,
    tf_fill_empty_rows n r default entries out indicator /\ fill_empty_rows 0 = Some (e_indices, e_values, e_indicator) /\
    cvalue (fill_env n r dims default entries) e_indices <> Some (M2 r (map fst out)) /\ cvalue (fill_env n r dims default entries) e_values <> Some (D1 (map snd out)).
Proof.
  exists 2, 2, [3%Z], 7, [([1; 2]%Z, 5)], [([0; 0]%Z, 7); ([1; 2]%Z, 5)], [true; false]. do 3 eexists. split; [|split; [reflexivity|split; discriminate]]. constructor.
  - apply Forall_cons; [split; [reflexivity|exists 1; split; [lia|reflexivity]]|constructor].
  - split; [reflexivity|]. intros [|[|k]] L; [| |lia].
    + split; [intros _; apply Forall_cons; [intro E; discriminate E|constructor]|reflexivity].
    + split; [discriminate|]. intro G. exfalso. inversion G as [|? ? G1 _]. apply G1. reflexivity.
  - exists [0]. split; [repeat constructor; intros []|]. split; [|apply perm_swap]. intros [|[|[|k]]]; split; try discriminate; try (intros [E|[]]; discriminate); try reflexivity. intros _. now left.
  - intros p q e e' k k' H1 H2 R1 R2 L. unfold row_is in *. destruct p as [|[|p]], q as [|[|q]]; try lia; try (destruct p; discriminate); try (destruct q; discriminate). cbn in H1, H2. injection H1 as <-. injection H2 as <-. cbn in R1, R2. injection R1 as R1. injection R2 as R2. lia.
Qed.
(** ** SparseToDense *)
Definition dense_env {A} (default : A) (dims : list Z) (indices values : spval A) (s : string) : option (spval A) :=
  if String.eqb s "default" then Some (A0 default) else if String.eqb s "out_shape" then Some (V1 dims) else if String.eqb s "sparse_indices" then Some indices else if String.eqb s "sparse_vals" then Some values else None.
(** indices: a matrix, values: a vector.  Missing: scalar or vector indices, scalar values *)
Theorem C76_sparse_to_dense_partial :
  forall (A : Type) (default : A) dims entries rec_indices rec_values e,
    sparse_to_dense rec_indices rec_values = Some e ->
    Forall (fun d => (0 <= d)%Z) dims -> NoDup (map fst entries) -> Forall (fun e => in_bounds dims (fst e)) entries ->
    exists f, cvalue (dense_env default dims (M2 (length dims) (map fst entries)) (D1 (map snd entries))) e = Some (Dense dims f) /\ tf_to_dense default entries dims f.
Proof.
  intros A default dims entries ri rv e H P Nd B. unfold sparse_to_dense in H.
  assert (E : e = C CScatterND [C CExpandDense [CIn "default"; CIn "out_shape"]; CIn "sparse_indices"; CIn "sparse_vals"]%string). { destruct rv as [[|v rv]|]; try discriminate; destruct ri as [[|i ri]|]; try discriminate; destruct (_ : bool) in H; try discriminate; now injection H as <-. }
  subst e. apply (scatter_ok (dense_env default dims (M2 (length dims) (map fst entries)) (D1 (map snd entries))) default (CIn "out_shape"%string) dims (CIn "sparse_indices"%string) (CIn "sparse_vals"%string) entries); auto.
Qed.
(** refused: values of a recorded length 1 if the indices are not recorded with length 1; and recorded scalars (an exception) *)
Theorem C76_sparse_to_dense_accepted :
  forall rec_indices rec_values,
    (exists e, sparse_to_dense rec_indices rec_values = Some e) <->
    rec_indices <> Some [] /\ rec_values <> Some [] /\ ((exists l, rec_values = Some (1%Z :: l)) -> exists l, rec_indices = Some (1%Z :: l)).
Proof.
  intros ri rv. unfold sparse_to_dense. split.
  - intros [e H]. destruct rv as [[|v rv]|]; try discriminate; destruct ri as [[|i ri]|]; try discriminate; repeat split; try discriminate; intros [l E]; try discriminate; injection E as -> ->; cbn [Z.eqb negb orb] in H; [|discriminate].
    destruct (Z.eqb_spec i 1); [subst; eexists; reflexivity|]. change (Z.eqb 1 1) with true in H. cbn [negb orb] in H. discriminate.
  - intros (H1 & H2 & H3). destruct rv as [[|v rv]|]; [contradiction| |destruct ri as [[|i ri]|]; [contradiction| |]; eexists; reflexivity]. destruct (Z.eqb_spec v 1).
    + subst v. destruct H3 as [l ->]; [eexists; reflexivity|]. eexists. reflexivity.
    + destruct ri as [[|i ri]|]; [contradiction| |]; eexists; reflexivity.
Qed.
(** Indices given as a vector (for a vector): ScatterND takes them as one index tuple. *)
Theorem C76_sparse_to_dense_vector_refuted :
  exists e, sparse_to_dense (Some [2%Z]) (Some [2%Z]) = Some e /\ cvalue (dense_env 0 [4%Z] (V1 [1; 3]%Z) (D1 [8; 9])) e = None /\
    tf_to_dense 0 [([1%Z], 8); ([3%Z], 9)] [4%Z] (fun ix => match ix with [1%Z] => 8 | [3%Z] => 9 | _ => 0 end).
Proof.
  eexists. split; [reflexivity|]. split; [reflexivity|]. split; [|split].
  - constructor; [intros [E|[]]; discriminate|]. constructor; [intros []|constructor].
  - apply Forall_cons; [constructor; [lia|constructor]|]. apply Forall_cons; [constructor; [lia|constructor]|constructor].
  - intros ix _. split.
    + intros a [E|[E|[]]]; injection E as <- <-; reflexivity.
    + intro N. cbn [map fst In] in N. destruct ix as [|z [|z' ix]]; try reflexivity; [|destruct z as [|p|p]; try reflexivity; do 2 (destruct p; try reflexivity)]. destruct (Z.eq_dec z 1) as [->|N1]; [tauto|]. destruct (Z.eq_dec z 3) as [->|N3]; [tauto|]. destruct z as [|p|p]; try reflexivity. destruct p as [p|p|]; try reflexivity; [|lia]. destruct p as [p|p|]; try reflexivity. lia.
Qed.
(** ** RaggedTensorToTensor *)
(** the row partition tensors of rows with these lengths (lens: for each ragged dimension); no empty dimension *)
Definition partitioned {A} (env : string -> option (rval A)) (types : list string) (partitions : list expr) (lens : list (list nat)) : Prop :=
  (types = map (fun _ => "ROW_SPLITS"%string) partitions /\ Forall2 (fun e l => value env e = Some (RagSpec.V1 (sums_from 0 l)) /\ l <> [] /\ (Z.of_nat (length l) < max_int64)%Z) partitions lens) \/
  (exists first ids, partitions = first :: ids /\ ids <> [] /\ types = "FIRST_DIM_SIZE"%string :: map (fun _ => "VALUE_ROWIDS"%string) ids /\
     value env first = Some (RagSpec.S0 (Z.of_nat (length (nth 0 lens [])))) /\ Forall2 (fun e l => value env e = Some (RagSpec.V1 (row_ids l)) /\ 0 < list_sum l) ids lens).
Definition tensor_env {A} (default : A) (rank : nat) (indices : list (list Z)) (dense : list Z) (values : list A) (shape : option (list Z)) (s : string) : option (spval A) :=
  if String.eqb s "default" then Some (A0 default) else if String.eqb s "sparse_indices" then Some (M2 rank indices) else if String.eqb s "dense_shape" then Some (V1 dense)
  else if String.eqb s "values" then Some (D1 values) else if String.eqb s "shape" then Some (match shape with None => S0 (-1)%Z | Some l => V1 l end) else None.
Lemma layout_splits {X} (l : list X) : layout_of (map (fun _ => "ROW_SPLITS"%string) l) = Some RowSplits.
Proof. unfold layout_of. replace (forallb (String.eqb "ROW_SPLITS") (map (fun _ => "ROW_SPLITS"%string) l)) with true by (symmetry; apply forallb_forall; intros s H; apply in_map_iff in H; destruct H as (x & <- & _); reflexivity). destruct l as [|x [|y l]]; reflexivity. Qed.
Lemma layout_ids {X} (l : list X) : l <> [] -> layout_of ("FIRST_DIM_SIZE"%string :: map (fun _ => "VALUE_ROWIDS"%string) l) = Some RowIds.
Proof. intro N. unfold layout_of. replace (forallb (String.eqb "VALUE_ROWIDS") (map (fun _ => "VALUE_ROWIDS"%string) l)) with true by (symmetry; apply forallb_forall; intros s H; apply in_map_iff in H; destruct H as (x & <- & _); reflexivity). destruct l as [|x l]; [contradiction|reflexivity]. Qed.
(** the indices and the dense shape *)
Theorem C76_ragged_partitions_partial :
  forall (A : Type) (env : string -> option (rval A)) types partitions lens e_indices e_dense,
    partitioned env types partitions lens -> fits lens -> to_tensor_indices types partitions = Some (e_indices, e_dense) ->
    value env e_indices = Some (RagSpec.M2 (all_paths lens)) /\ value env e_dense = Some (RagSpec.V1 (dense_dims lens)).
Proof.
  intros A env types ps lens ei ed [(Et & F)|(first & ids & -> & Ne & -> & Hf & F)] Fit H; unfold to_tensor_indices in H.
  - subst types. rewrite layout_splits in H. apply (RagProofs.to_sparse_ok A env ps lens None ei ed F Fit H).
  - rewrite layout_ids in H by exact Ne. apply (ids_to_sparse_ok A env first ids lens ei ed Hf F Fit H).
Qed.
(** both stages.  Missing: a ragged dimension without rows (ROW_SPLITS) or without items (VALUE_ROWIDS). *)
Theorem C76_ragged_to_tensor_partial :
  forall (A : Type) (env : string -> option (rval A)) types partitions lens e_indices e_dense rank (default : A) values shape out_dims,
    partitioned env types partitions lens -> lens <> [] -> fits lens -> to_tensor_indices types partitions = Some (e_indices, e_dense) ->
    length values = length (all_paths lens) -> (rank = None \/ rank = Some (match shape with None => 0 | Some _ => 1 end)) ->
    match shape with None => out_dims = dense_dims lens | Some l => wanted_dims (dense_dims lens) l out_dims end ->
    exists indices dense, value env e_indices = Some (RagSpec.M2 indices) /\ value env e_dense = Some (RagSpec.V1 dense) /\
    exists f, cvalue (tensor_env default (S (length lens)) indices dense values shape) (to_tensor rank) = Some (Dense out_dims f) /\ tf_to_tensor default (combine (all_paths lens) values) out_dims f.
Proof.
  intros A env types ps lens ei ed rank default values shape od Hp Ne Fit H L Hr Hw. destruct (C76_ragged_partitions_partial A env types ps lens ei ed Hp Fit H) as [E1 E2]. exists (all_paths lens), (dense_dims lens). split; [exact E1|]. split; [exact E2|].
  set (entries := combine (all_paths lens) values). assert (Ef : map fst entries = all_paths lens) by (apply SegProofs.combine_fst; symmetry; exact L).
  assert (Es : map snd entries = values). { unfold entries. clear -L. generalize dependent (all_paths lens). induction values as [|v l IH]; intros [|p ps] L; try discriminate; [reflexivity|]. cbn. f_equal. apply IH. cbn in L. congruence. }
  assert (Ld : length (dense_dims lens) = S (length lens)) by (unfold dense_dims; destruct lens as [|l lens]; [contradiction|]; cbn; now rewrite map_length).
  apply (to_tensor_ok (tensor_env default (S (length lens)) (all_paths lens) (dense_dims lens) values shape) default entries (dense_dims lens) od shape rank).
  - reflexivity.
  - rewrite Ld, Ef. reflexivity.
  - rewrite Es. reflexivity.
  - reflexivity.
  - reflexivity.
  - exact Hr.
  - exact Hw.
  - intro E. rewrite E in Ld. discriminate.
  - unfold dense_dims. destruct lens as [|l lens]; [constructor|]. apply Forall_cons; [lia|]. apply Forall_forall. intros d Hd. apply in_map_iff in Hd. destruct Hd as (x & <- & _). lia.
  - rewrite Ef. apply all_paths_depth, Ne.
  - assert (G := all_paths_bounds lens Ne Fit). apply Forall_forall. intros e He. rewrite Forall_forall in G. apply G. rewrite <- Ef. now apply in_map.
Qed.
(** the conversion is refused for any other combination of partition types *)
Theorem C76_partition_types :
  forall types partitions, length types = length partitions ->
    (exists r, to_tensor_indices types partitions = Some r) <->
    types <> [] /\ (Forall (eq "ROW_SPLITS"%string) types \/ exists rest, types = "FIRST_DIM_SIZE"%string :: rest /\ rest <> [] /\ Forall (eq "VALUE_ROWIDS"%string) rest).
Proof.
  assert (FA : forall s l, forallb (String.eqb s) l = true <-> Forall (eq s) l). { intros s l. rewrite forallb_forall, Forall_forall. split; intros H x Hx; specialize (H x Hx); [now apply String.eqb_eq|now apply String.eqb_eq]. }
  assert (CA : forall l, l <> [] -> exists d, concat_all l = Some d). { induction l as [|e l IH]; [contradiction|]. intros _. destruct l as [|e' l]; [eexists; reflexivity|]. destruct IH as [d Hd]; [discriminate|]. exists (E KConcat [e; d]). change (concat_all (e :: e' :: l)) with (match concat_all (e' :: l) with Some r => Some (E KConcat [e; r]) | None => None end). now rewrite Hd. }
  assert (SL : forall l sp dims, dims <> [] -> exists sp' dims', nested_splits_loop l (Some sp) dims = (Some sp', dims') /\ dims' <> []).
  { induction l as [|e l IH]; intros sp dims N; [exists sp, dims; auto|]. cbn [nested_splits_loop]. destruct (lengths_to_sparse (lengths_of e)) as [[[a b] c] d]. apply IH. destruct dims; discriminate. }
  assert (SO : forall l, l <> [] -> exists r, nested_splits_to_sparse l = Some r).
  { intros [|e l] N; [contradiction|]. unfold nested_splits_to_sparse. cbn [nested_splits_loop]. destruct (lengths_to_sparse (lengths_of e)) as [[[a b] c] d]. destruct (SL l (E KConcat1 [E KUnsqueeze1 [c]; E KUnsqueeze1 [d]]) ([a] ++ [b]) ltac:(discriminate)) as (sp & dims & -> & Nd). destruct (CA dims Nd) as [q ->]. eexists. reflexivity. }
  assert (IL : forall l sp dims, dims <> [] -> exists sp' dims', nested_row_ids_loop l (Some sp) dims = (Some sp', dims') /\ dims' <> []).
  { induction l as [|e l IH]; intros sp dims N; [exists sp, dims; auto|]. cbn [nested_row_ids_loop]. destruct (row_ids_to_sparse e) as [a b]. apply IH. destruct dims; discriminate. }
  assert (IO : forall f l, l <> [] -> exists r, nested_row_ids_to_sparse f l = Some r).
  { intros f [|e l] N; [contradiction|]. unfold nested_row_ids_to_sparse. cbn [nested_row_ids_loop]. destruct (row_ids_to_sparse e) as [a b]. destruct (IL l (E KConcat1 [E KUnsqueeze1 [e]; E KUnsqueeze1 [b]]) ([E KUnsqueeze0 [f]] ++ [a]) ltac:(discriminate)) as (sp & dims & -> & Nd). destruct (CA dims Nd) as [q ->]. eexists. reflexivity. }
  intros types ps L. split.
  - intros [r H]. unfold to_tensor_indices in H. destruct (layout_of types) as [[]|] eqn:El; [| |discriminate]; unfold layout_of in El.
    + destruct (_ && _) in El; [discriminate|]. destruct (forallb (String.eqb "ROW_SPLITS") types) eqn:Ef; [|discriminate]. split; [|left; now apply FA]. destruct types; [|discriminate]. destruct ps; [discriminate H|discriminate].
    + destruct (_ && _) eqn:Ec in El; [|destruct (forallb (String.eqb "ROW_SPLITS") types); discriminate]. apply andb_true_iff in Ec. destruct Ec as [E1 E2]. destruct types as [|t rest]; [discriminate|]. split; [discriminate|]. right. apply andb_true_iff in E2. destruct E2 as [E2 E3]. apply String.eqb_eq in E2. subst t. exists rest. split; [reflexivity|]. split; [destruct rest; discriminate|now apply FA].
  - intros [Ne [F|(rest & -> & Nr & F)]]; unfold to_tensor_indices.
    + assert (G : layout_of types = Some RowSplits). { unfold layout_of. destruct types as [|t rest]; [contradiction|]. inversion F; subst. replace (String.eqb "ROW_SPLITS" "FIRST_DIM_SIZE") with false by reflexivity. cbn [andb]. rewrite andb_false_r. apply FA in F. now rewrite F. }
      rewrite G. apply SO. destruct types, ps; try discriminate. contradiction.
    + assert (G : layout_of ("FIRST_DIM_SIZE"%string :: rest) = Some RowIds). { unfold layout_of. apply FA in F. rewrite F. destruct rest; [contradiction|reflexivity]. }
      rewrite G. destruct ps as [|f l]; [discriminate|]. apply IO. destruct rest, l; discriminate || contradiction.
Qed.
(** A tensor of empty rows, with VALUE_ROWIDS: TensorFlow gives the dims [2; 0], the expression of the dims has no value. *)
Theorem C76_ragged_to_tensor_empty_refuted :
  exists lens types partitions e_indices e_dense, fits lens /\ to_tensor_indices types partitions = Some (e_indices, e_dense) /\
    types = ["FIRST_DIM_SIZE"; "VALUE_ROWIDS"]%string /\ dense_dims lens = [2; 0]%Z /\ all_paths lens = [] /\
    let env := fun s : string => if String.eqb s "first" then Some (@RagSpec.S0 Z 2) else if String.eqb s "ids" then Some (RagSpec.V1 (row_ids (nth 0 lens []))) else None in
    partitions = [EIn "first"; EIn "ids"]%string /\ value env e_dense = None.
Proof. exists [[0; 0]], ["FIRST_DIM_SIZE"; "VALUE_ROWIDS"]%string, [EIn "first"; EIn "ids"]%string. do 2 eexists. repeat split; reflexivity. Qed.

(** ** concrete cases *)
Example reshape_case : tf_reshape [2; 3; 6]%Z [9; -1]%Z [9; 4]%Z [[0; 0; 0]; [0; 0; 1]; [0; 1; 0]; [1; 0; 0]; [1; 2; 3]]%Z [[0; 0]; [0; 1]; [1; 2]; [4; 2]; [8; 1]]%Z /\
  exists r, sparse_reshape (Some [3%Z]) None = Some r /\ cvalue (reshape_env [2; 3; 6]%Z [9; -1]%Z [[0; 0; 0]; [0; 0; 1]; [0; 1; 0]; [1; 0; 0]; [1; 2; 3]]%Z) (fst r) = Some (M2 2 [[0; 0]; [0; 1]; [1; 2]; [4; 2]; [8; 1]]%Z).
Proof.
  split; [|eexists; split; reflexivity]. constructor; try reflexivity.
  - split; repeat (apply Forall_cons; [lia|]); constructor.
  - constructor; [now left|]. constructor; [now right|constructor].
  - intros [|[|[|i]]] [|[|[|j]]] H1 H2; try discriminate; reflexivity.
  - intros _ [E|[E|[]]]; discriminate.
  - repeat (apply Forall2_cons; [split; [|split; [|reflexivity]]; repeat (apply Forall2_cons; [lia|]); constructor|]); constructor.
Qed.
Example fill_case : exists r, fill_empty_rows 0 = Some r /\ let env := fill_env 4 2 [5%Z] 9 [([1; 2]%Z, 5); ([3; 0]%Z, 6)] in
  cvalue env (fst (fst r)) = Some (M2 2 [[1; 2]; [3; 0]; [0; 0]; [2; 0]]%Z) /\ cvalue env (snd r) = Some (B1 [true; false; true; false]).
Proof. eexists. split; [reflexivity|]. split; reflexivity. Qed.
Example tensor_case : exists r, to_tensor_indices ["FIRST_DIM_SIZE"; "VALUE_ROWIDS"]%string [EIn "first"; EIn "ids"]%string = Some r /\
  let env := fun s => if String.eqb s "first" then Some (@RagSpec.S0 Z 4) else Some (RagSpec.V1 [0; 0; 0; 2; 3; 3]%Z) in
  row_ids [3; 0; 1; 2] = [0; 0; 0; 2; 3; 3]%Z /\ value env (fst r) = Some (RagSpec.M2 [[0; 0]; [0; 1]; [0; 2]; [2; 0]; [3; 0]; [3; 1]]%Z) /\ value env (snd r) = Some (RagSpec.V1 [4; 3]%Z).
Proof. eexists. repeat split; reflexivity. Qed.

Print Assumptions C76_sparse_reshape_partial.
Print Assumptions C76_sparse_reshape_accepted.
Print Assumptions C76_sparse_reshape_refuted.
Print Assumptions C76_fill_empty_rows_partial.
Print Assumptions C76_fill_empty_rows_accepted.
Print Assumptions C76_fill_empty_rows_refuted.
Print Assumptions C76_sparse_to_dense_partial.
Print Assumptions C76_sparse_to_dense_accepted.
Print Assumptions C76_sparse_to_dense_vector_refuted.
Print Assumptions C76_ragged_partitions_partial.
Print Assumptions C76_ragged_to_tensor_partial.
Print Assumptions C76_partition_types.
Print Assumptions C76_ragged_to_tensor_empty_refuted.
