(** C73: the segment reductions become an ONNX graph with the same value. *)
From Coq Require Import List Arith ZArith Bool String Lia Permutation Sorting.Sorted Reals.
From Flocq Require Import Core BinarySingleNaN.
From Verif Require Import OnnxSpec SegSpec SegModel SegProofs SegFloat.
From Verif Require ElemSpec ElemFloat ReduceSpec ReduceProofs.
Import ListNotations.
Local Open Scope list_scope.
Local Notation length := List.length.

(** What the reductions do on rows: [R] in ONNX (on all elements along an axis), [T] in TensorFlow (Sum, Prod, Max, Min of the
    rows of a segment); rows of the identities; amounts, by which sums are divided; [default]: TensorFlow's row for a segment
    without rows. *)
Record semantics (A F : Type) := Semantics {
  R : rop -> list A -> A -> Prop; T : reduction -> list A -> A -> Prop; row_of : identity -> A;
  amount_of : Z -> F; sqrt_of : F -> F; max_one : F -> F; divide : A -> F -> A; default : form -> reduction -> A }.
Arguments R {A F}. Arguments T {A F}. Arguments row_of {A F}. Arguments amount_of {A F}. Arguments sqrt_of {A F}. Arguments max_one {A F}. Arguments divide {A F}. Arguments default {A F}.
Definition same_reductions : list (reduction * rop * identity) := [(Sum, RSum, IZero); (Prod, RProd, IOne); (Max, RMax, INegInf); (Min, RMin, IPosInf)].
Record sem_ok {A F} (s : semantics A F) : Prop := {
  (** the ONNX reduction of the rows and some identity rows, in any order, is a TensorFlow reduction of the rows *)
  ok_pad : forall red r i l k l' v, In (red, r, i) same_reductions -> l <> [] -> Permutation l' (l ++ repeat (row_of s i) k) -> R s r l' v -> T s red l v;
  ok_identity : forall red r i k v, In (red, r, i) same_reductions -> R s r (repeat (row_of s i) (S k)) v -> v = row_of s i;
  ok_total : forall r l, l <> [] -> exists v, R s r l v;
  ok_sum : forall f, default s f Sum = row_of s IZero; ok_prod : forall f, default s f Prod = row_of s IOne;
  ok_mean : forall f, default s f Mean = row_of s IZero; ok_sqrtn : forall f, default s f SqrtN = row_of s IZero;
  ok_max : forall c, (0 < c)%Z -> max_one s (amount_of s c) = amount_of s c /\ max_one s (sqrt_of s (amount_of s c)) = sqrt_of s (amount_of s c);
  ok_divide : divide s (row_of s IZero) (max_one s (amount_of s 0)) = row_of s IZero /\ divide s (row_of s IZero) (max_one s (sqrt_of s (amount_of s 0))) = row_of s IZero }.
(** the mean is the sum divided by the number of rows, sqrtn the sum divided by its square root *)
Definition tf_reduced {A F} (s : semantics A F) (red : reduction) (l : list A) (v : A) : Prop :=
  match red with
  | Mean => exists u, T s Sum l u /\ v = divide s u (amount_of s (Z.of_nat (length l)))
  | SqrtN => exists u, T s Sum l u /\ v = divide s u (sqrt_of s (amount_of s (Z.of_nat (length l))))
  | _ => T s red l v
  end.
Definition tf_out {A F} (s : semantics A F) (k : kind) (i : inputs A) (out : list A) : Prop := tf_segment (tf_reduced s) (default s) k i out.
(** the graph on the inputs of the operator *)
Definition graph_inputs {A F} (k : kind) (i : inputs A) : env A F :=
  [("data"%string, Rows (i_data i)); ("segment_inp"%string, Vec (i_ids i))] ++ (match k_form k with Sparse => [("indices_inp"%string, Vec (i_indices i))] | _ => [] end)
  ++ (if k_num k then [("num_segments"%string, Sc (i_num i))] else []).
Definition is_float32 (d : ElemSpec.dtype) : bool := match d with ElemSpec.FLT ElemSpec.F32 => true | _ => false end.
Definition seg_run {A F} (s : semantics A F) (d : ElemSpec.dtype) (g : seg_graph) (k : kind) (i : inputs A) (out : list A) : Prop :=
  exists e l red, exec (row_of s) (amount_of s) (sqrt_of s) (max_one s) (is_float32 d) (g_nodes g) (graph_inputs k i) = Some e /\
    find_in e (g_grid g) = Some (Grid l) /\ Forall2 (R s (g_reduce g)) l red /\
    match g_scale g with
    | None => out = red
    | Some n => exists am, find_in e n = Some (Amount am) /\ length am = length red /\ out = zip (divide s) red am
    end.
Definition is_mean (r : reduction) : Prop := r = Mean \/ r = SqrtN.
(** Missing: no data at all; negative ids; segments without rows for Max, Min, and for Mean and SqrtN without num_segments; Mean
    and SqrtN with num_segments of other types than float32. *)
Theorem C73_segment_partial :
  forall A F (s : semantics A F) tf k d num_const g i out0,
    In (tf, k) kinds -> sem_ok s ->
    segment_graph tf d (Some 1) num_const = Some g -> num_const = None \/ num_const = Some (i_num i) ->
    tf_out s k i out0 -> i_ids i <> [] -> Forall (fun z => (0 <= z)%Z) (i_ids i) ->
    (k_red k = Max \/ k_red k = Min \/ (is_mean (k_red k) /\ k_num k = false) -> forall j, (0 <= j < tf_count k i)%Z -> In j (i_ids i)) ->
    (is_mean (k_red k) -> k_num k = true -> d = ElemSpec.FLT ElemSpec.F32) ->
    (exists out, seg_run s d g k i out) /\ forall out, seg_run s d g k i out -> tf_out s k i out.
Proof.
  intros A F s tf k d num_const g i out0 Hk Ok Hg Hn (rows & Hr & Hl & Hs & Hc & Hlt & _) Ne Hp Gap Flt.
  destruct (parse_ok tf k Hk) as (t1 & P1 & P2). unfold segment_graph in Hg. rewrite P1, P2 in Hg.
  destruct (reduction_of (seg_name (k_red k)) match d with ElemSpec.FLT _ => true | _ => false end) as [[r id]|] eqn:Er; [|destruct d as [|[]|]; discriminate].
  destruct (reduction_table _ _ _ _ Er) as (base & Hb & Hmean).
  assert (N0 : tf_count k i = if k_num k then i_num i else (match i_ids i with [] => 0 | z :: l => fold_right Z.max z l end + 1)%Z).
  { unfold tf_count. destruct (k_num k) eqn:Ek; [reflexivity|]. assert (Hu : k_form k <> Unsorted) by (destruct (num_unsorted tf k Hk); congruence). destruct (Hs Hu) as [So _]. destruct (i_ids i) as [|z l] eqn:Ei; [contradiction|]. now rewrite (max_last (z :: l)) by (congruence || exact So). }
  set (N := tf_count k i) in *.
  set (nc := if k_num k then num_const else None) in Hg.
  destruct (scale_nodes (seg_name (k_red k)) (k_num k) nc) as [sn am] eqn:Esn.
  set (data_inp := if match k_form k with Sparse => true | _ => false end then "data_gathered"%string else "data"%string) in Hg.
  assert (Hg' : g = SegGraph ((if match k_form k with Sparse => true | _ => false end then [SNode OGather ["data"; "indices_inp"] ["data_gathered"]] else [])%string ++ (if k_num k then [] else num_nodes) ++ sort_nodes ++ sn ++ grid_nodes data_inp id) "data_grid"%string r am).
  { destruct d as [|[]|]; try discriminate; injection Hg as <-; reflexivity. }
  clear Hg. set (f32 := is_float32 d).
  (* gather *)
  set (e0 := @graph_inputs A F k i).
  assert (Ga : exists e1, exec (row_of s) (amount_of s) (sqrt_of s) (max_one s) f32 (if match k_form k with Sparse => true | _ => false end then [SNode OGather ["data"; "indices_inp"] ["data_gathered"]] else [])%string e0 = Some e1 /\
     find_in e1 data_inp = Some (Rows rows) /\ find_in e1 "segment_inp"%string = Some (Vec (i_ids i)) /\ (k_num k = true -> find_in e1 "num_segments"%string = Some (Sc (i_num i)))).
  { unfold data_inp, e0, graph_inputs. destruct (k_form k).
    - cbn in Hr. injection Hr as <-. eexists. split; [reflexivity|]. split; [reflexivity|]. split; [reflexivity|]. intros ->. reflexivity.
    - cbn in Hr. apply gathered_all in Hr. eexists. split; [erewrite exec_step; [|reflexivity|cbn [op_result]; rewrite Hr; reflexivity|reflexivity]; reflexivity|]. split; [reflexivity|]. split; [reflexivity|]. intros ->. reflexivity.
    - cbn in Hr. injection Hr as <-. eexists. split; [reflexivity|]. split; [reflexivity|]. split; [reflexivity|]. intros ->. reflexivity. }
  destruct Ga as (e1 & X1 & F1 & F2 & F3).
  (* the number of segments *)
  assert (Nu : exists e2, exec (row_of s) (amount_of s) (sqrt_of s) (max_one s) f32 (if k_num k then [] else num_nodes) e1 = Some e2 /\ find_in e2 data_inp = Some (Rows rows) /\ find_in e2 "segment_inp"%string = Some (Vec (i_ids i)) /\ find_in e2 "num_segments"%string = Some (Sc N)).
  { destruct (k_num k) eqn:Ek.
    - exists e1. rewrite N0. split; [reflexivity|]. auto.
    - destruct (num_exec A F (row_of s) (amount_of s) (sqrt_of s) (max_one s) f32 (i_ids i) N Ne Hp Hlt e1 F2) as (e2 & X2 & G1 & G2). exists e2. rewrite N0. split; [exact X2|]. split; [|split; [|exact G1]].
      + rewrite G2; [exact F1|]. unfold data_inp. destruct (match k_form k with Sparse => true | _ => false end); intros [H|[H|[H|[]]]]; discriminate.
      + rewrite G2; [exact F2|]. intros [H|[H|[H|[]]]]; discriminate. }
  destruct Nu as (e2 & X2 & F4 & F5 & F6).
  destruct (sort_exec A F (row_of s) (amount_of s) (sqrt_of s) (max_one s) f32 (i_ids i) N Ne e2 F5 F6) as (e3 & X3 & S3 & Fr3).
  assert (D3 : find_in e3 data_inp = Some (Rows rows)).
  { rewrite Fr3; [exact F4|]. unfold data_inp. destruct (match k_form k with Sparse => true | _ => false end); cbn; intuition discriminate. }
  assert (Hnc : nc = None \/ nc = Some N). { unfold nc. rewrite N0. destruct (k_num k); [|auto]. exact Hn. }
  destruct (scale_exec A F (row_of s) (amount_of s) (sqrt_of s) (max_one s) f32 (i_ids i) N Ne Hp Hlt e3 (seg_name (k_red k)) (k_num k) nc S3 Hnc) as (e4 & X4 & Fr4 & A4).
  { intros Hg Ht. unfold f32. rewrite Flt; [reflexivity| |auto]. unfold is_mean. destruct (k_red k); cbn in Ht; destruct Ht; auto; discriminate. }
  rewrite Esn in X4, A4. cbn [fst snd] in X4, A4.
  assert (S4 : sorted_env A F (i_ids i) N e4). { unfold sorted_env in *. rewrite !Fr4 by (cbn; intuition discriminate). exact S3. }
  assert (D4 : find_in e4 data_inp = Some (Rows rows)). { rewrite Fr4; [exact D3|]. unfold data_inp. destruct (match k_form k with Sparse => true | _ => false end); cbn; intuition discriminate. }
  destruct (grid_exec A F (row_of s) (amount_of s) (sqrt_of s) (max_one s) f32 (i_ids i) N Ne Hp Hlt e4 data_inp id rows S4 D4 Hl) as (e5 & X5 & G5 & Fr5).
  { unfold data_inp. destruct (match k_form k with Sparse => true | _ => false end); auto. }
  assert (X : exec (row_of s) (amount_of s) (sqrt_of s) (max_one s) f32 (g_nodes g) e0 = Some e5).
  { rewrite Hg'. cbn [g_nodes]. rewrite exec_app, X1, exec_app, X2, exec_app, X3, exec_app, X4. exact X5. }
  set (grid := map (s_row (row_of s id) rows (i_ids i)) (seq 0 (Z.to_nat N))) in *.
  assert (Row : forall j, s_row (row_of s id) rows (i_ids i) j <> []).
  { intro j. unfold s_row. assert (M := s_max_pos (i_ids i) Ne). destruct (Z.to_nat (s_max (i_ids i))) eqn:Em; [lia|]. discriminate. }
  assert (Amt : am = None \/ exists n, am = Some n /\ is_mean (k_red k) /\ find_in e5 n = Some (Amount (amounts F (amount_of s) (sqrt_of s) (max_one s) (i_ids i) N (String.eqb (seg_name (k_red k)) "SegmentSqrtN") (k_num k)))).
  { destruct am as [n|]; [right|auto]. destruct A4 as (A4 & A5 & A6). exists n. split; [reflexivity|]. split; [unfold is_mean; destruct (k_red k); cbn in A5; destruct A5; auto; discriminate|]. rewrite Fr5 by auto. exact A6. }
  assert (NoAmt : am = None -> ~ is_mean (k_red k)). { intros -> [E|E]; rewrite E in A4; cbn in A4; destruct A4; congruence. }
  assert (One : forall j v, j < Z.to_nat N -> R s r (s_row (row_of s id) rows (i_ids i) j) v -> match segment (i_ids i) rows j with [] => v = row_of s id | l => T s base l v end).
  { intros j v Hj Rv. assert (P := s_row_perm (row_of s id) rows (i_ids i) j Hl Hp). destruct (segment (i_ids i) rows j) as [|a l] eqn:Es.
    - cbn [app length] in P. rewrite Nat.sub_0_r in P. assert (M := s_max_pos (i_ids i) Ne). destruct (Z.to_nat (s_max (i_ids i))) as [|m] eqn:Em; [lia|].
      assert (E : s_row (row_of s id) rows (i_ids i) j = repeat (row_of s id) (S m)) by (apply perm_repeat; exact P). rewrite E in Rv. now apply (ok_identity s Ok base r id m).
    - apply (ok_pad s Ok base r id (a :: l) _ (s_row (row_of s id) rows (i_ids i) j) v Hb ltac:(discriminate) P Rv). }
  assert (Has : forall j, j < Z.to_nat N -> In (Z.of_nat j) (i_ids i) -> segment (i_ids i) rows j <> []).
  { intros j Hj I1 E. assert (L := segment_length (i_ids i) rows j Hl). rewrite E in L. cbn in L. apply count_pos in I1. lia. }
  split.
  - assert (Ex : exists red, Forall2 (R s r) grid red).
    { unfold grid. clear -Row Ok. induction (seq 0 (Z.to_nat N)) as [|j l IH]; cbn; [exists []; constructor|]. destruct IH as [red IH]. destruct (ok_total s Ok r _ (Row j)) as [v Hv]. exists (v :: red). now constructor. }
    destruct Ex as [red Ex]. destruct Amt as [->|(n & -> & _ & An)].
    + exists red, e5, grid, red. rewrite Hg'. cbn [g_grid g_reduce g_scale]. rewrite Hg' in X. auto.
    + eexists. exists e5, grid, red. rewrite Hg'. cbn [g_grid g_reduce g_scale]. rewrite Hg' in X. split; [exact X|]. split; [exact G5|]. split; [exact Ex|]. eexists. split; [exact An|]. split; [|reflexivity].
      apply Forall2_length in Ex. rewrite <- Ex. unfold amounts, grid. now rewrite !map_length.
  - intros out (e & l & red & X' & G' & F' & Out). assert (e = e5) by (unfold f32, e0 in X; congruence). subst e. rewrite Hg' in G', F', Out. cbn [g_grid g_reduce g_scale] in *. assert (l = grid) by congruence. subst l.
    exists rows. split; [exact Hr|]. split; [exact Hl|]. split; [exact Hs|]. split; [exact Hc|]. split; [exact Hlt|].
    assert (Lr : length red = Z.to_nat N) by (apply Forall2_length in F'; rewrite <- F'; unfold grid; now rewrite map_length, seq_length).
    assert (Nth : forall j u, nth_error red j = Some u -> j < Z.to_nat N /\ R s r (s_row (row_of s id) rows (i_ids i) j) u).
    { intros j u Hu. assert (Lj : j < Z.to_nat N) by (rewrite <- Lr; apply nth_error_Some; congruence). split; [auto|].
      destruct (Forall2_nth _ _ _ F' j u Hu) as (a & Ea & Ra). unfold grid in Ea. rewrite nth_error_map, (nth_error_nth' _ 0) in Ea by (rewrite seq_length; lia). cbn [option_map] in Ea. rewrite seq_nth in Ea by lia. injection Ea as <-. exact Ra. }
    destruct Amt as [->|(n & -> & Hm & An)].
    + subst out. split; [exact Lr|]. intros j v Hv. destruct (Nth j v Hv) as [Lj Rv]. assert (O := One j v Lj Rv). assert (Nm := NoAmt eq_refl). specialize (Hmean Nm). subst base.
      destruct (segment (i_ids i) rows j) as [|a l'] eqn:Es.
      * rewrite O. destruct (k_red k) eqn:Ek; cbn in Hb; destruct Hb as [Hb|[Hb|[Hb|[Hb|[]]]]]; try discriminate Hb; injection Hb as <- <-.
        -- symmetry. apply (ok_sum s Ok).
        -- symmetry. apply (ok_prod s Ok).
        -- exfalso. apply (Has j Lj); auto. apply Gap; auto. lia.
        -- exfalso. apply (Has j Lj); auto. apply Gap; auto. lia.
      * unfold tf_reduced. destruct (k_red k) eqn:Ek; auto; exfalso; apply Nm; unfold is_mean; auto.
    + destruct Out as (am' & Ea & La & ->). rewrite An in Ea. injection Ea as <-. assert (Hb' : base = Sum /\ r = RSum /\ id = IZero).
      { destruct Hm as [Em|Em]; rewrite Em in Er; cbn in Er; injection Er as <- <-; cbn in Hb; destruct Hb as [Hb|[Hb|[Hb|[Hb|[]]]]]; try discriminate Hb; injection Hb as <-; auto. }
      destruct Hb' as (-> & -> & ->). split; [rewrite zip_length; auto|]. intros j v Hv. rewrite nth_error_zip in Hv. destruct (nth_error red j) as [u|] eqn:Eu; [|discriminate]. destruct (Nth j u Eu) as [Lj Ru]. assert (O := One j u Lj Ru).
      unfold amounts in Hv. rewrite nth_error_map, (nth_error_nth' _ 0) in Hv by (rewrite seq_length; lia). cbn [option_map] in Hv. rewrite seq_nth in Hv by lia. cbn [Nat.add] in Hv. rewrite <- (segment_length (i_ids i) rows j Hl) in Hv. cbv zeta in Hv. injection Hv as <-.
      destruct (segment (i_ids i) rows j) as [|a l'] eqn:Es.
      * cbn [length]. change (Z.of_nat 0) with 0%Z. destruct (k_num k) eqn:Ekn.
        -- rewrite O. destruct (ok_divide s Ok) as [D1 D2]. destruct Hm as [Em|Em]; rewrite Em; cbn [seg_name]; strings; [rewrite D1; symmetry; apply (ok_mean s Ok)|rewrite D2; symmetry; apply (ok_sqrtn s Ok)].
        -- exfalso. apply (Has j Lj); auto. apply Gap; [right; right; auto|lia].
      * set (c := Z.of_nat (length (a :: l'))). assert (Pc : (0 < c)%Z) by (unfold c; cbn [length]; lia). destruct (ok_max s Ok c Pc) as [M1 M2].
        destruct Hm as [Em|Em]; rewrite Em; cbn [seg_name tf_reduced]; strings; exists u; (split; [exact O|]); destruct (k_num k); rewrite ?M1, ?M2; reflexivity.
Qed.
(** ** float32: reductions in any order and grouping, results equal up to the sign of zero *)
Local Notation f32 := (ElemSpec.fl ElemSpec.F32).
Definition float_op (r : rop) : f32 -> f32 -> f32 := match r with RSum => ElemSpec.add | RProd => ElemSpec.mul | RMax => ElemSpec.fmax | RMin => ElemSpec.fmin end.
Definition tf_op (r : reduction) : f32 -> f32 -> f32 := match r with Prod => ElemSpec.mul | Max => ElemSpec.fmax | Min => ElemSpec.fmin | _ => ElemSpec.add end.
Definition neg_inf : f32 := B754_infinity true.
Definition pos_inf : f32 := B754_infinity false.
(** the largest finite float32 is (2^24 - 1) * 2^104 *)
Definition float_default (f : form) (r : reduction) : f32 :=
  match r, f with
  | Prod, _ => ElemSpec.of_Z ElemSpec.F32 1
  | Max, Unsorted => ElemSpec.round_to ElemSpec.F32 (- (2 ^ 24 - 1)) 104
  | Min, Unsorted => ElemSpec.round_to ElemSpec.F32 (2 ^ 24 - 1) 104
  | _, _ => ElemSpec.fzero
  end.
Definition float_sem : semantics f32 f32 := {|
  R := fun r l v => ReduceSpec.tree_of (float_op r) l v; T := fun r l v => exists w, ReduceSpec.tree_of (tf_op r) l w /\ ElemFloat.sf w v;
  row_of := fun i => match i with IZero => ElemSpec.fzero | IOne => ElemSpec.of_Z ElemSpec.F32 1 | INegInf => neg_inf | IPosInf => pos_inf end;
  amount_of := ElemSpec.of_Z ElemSpec.F32; sqrt_of := fsqrt; max_one := fun x => ElemSpec.fmax x (ElemSpec.of_Z ElemSpec.F32 1);
  divide := ElemSpec.div; default := float_default |}.
(** rows of w elements: everything elementwise *)
Definition rows_sem {A F} (w : nat) (s : semantics A F) : semantics (list A) F :=
  let d := row_of s IZero in
  let columnwise (P : list A -> A -> Prop) (l : list (list A)) (v : list A) := length v = w /\ forall c, c < w -> P (map (fun row => nth c row d) l) (nth c v d) in {|
  R := fun r => columnwise (R s r); T := fun r => columnwise (T s r); row_of := fun i => repeat (row_of s i) w; amount_of := amount_of s; sqrt_of := sqrt_of s; max_one := max_one s;
  divide := fun row am => map (fun a => divide s a am) row; default := fun f r => repeat (default s f r) w |}.
Theorem C73_rows : forall A F (s : semantics A F) w, sem_ok s -> sem_ok (rows_sem w s).
Proof.
  intros A F s w Ok. constructor; unfold rows_sem; cbn [R T row_of amount_of sqrt_of max_one divide default].
  - intros red r i l k l' v Hi Ne P (L & H). split; [exact L|]. intros c Hc. apply (ok_pad s Ok red r i _ k (map (fun row => nth c row (row_of s IZero)) l')); auto.
    + destruct l; [contradiction|discriminate].
    + apply (Permutation_map (fun row => nth c row (row_of s IZero))) in P. rewrite map_app, map_rep, nth_rep in P by auto. exact P.
  - intros red r i k v Hi (L & H). apply (all_same v _ (row_of s IZero)); [exact L|]. intros c Hc. specialize (H c Hc). rewrite map_rep, nth_rep in H by auto. now apply (ok_identity s Ok red r i k).
  - intros r l Ne. apply (choose (fun c a => R s r (map (fun row => nth c row (row_of s IZero)) l) a)). intro c. apply (ok_total s Ok). destruct l; [contradiction|discriminate].
  - intro f. now rewrite (ok_sum s Ok).
  - intro f. now rewrite (ok_prod s Ok).
  - intro f. now rewrite (ok_mean s Ok).
  - intro f. now rewrite (ok_sqrtn s Ok).
  - apply (ok_max s Ok).
  - rewrite !map_rep. destruct (ok_divide s Ok) as [-> ->]. auto.
Qed.
Theorem C73_float32 : sem_ok float_sem.
Proof.
  constructor; unfold float_sem; cbn [R T row_of amount_of sqrt_of max_one divide default].
  - intros red r i l k l' v Hi Ne P Tv. cbn in Hi.
    destruct Hi as [Hi|[Hi|[Hi|[Hi|[]]]]]; injection Hi as <- <- <-; cbn [float_op tf_op] in *.
    + destruct (tree_pad _ (@ElemSpec.add ElemSpec.F32) _ sf_refl (ElemFloat.sf_trans _) add_sf (fun x => ElemFloat.add_zero_r _ x false) (fun x => ElemFloat.add_zero_l _ x false) _ _ Tv _ _ P) as [[E _]|W]; [contradiction|exact W].
    + destruct (tree_pad _ (@ElemSpec.mul ElemSpec.F32) _ sf_refl (ElemFloat.sf_trans _) mul_sf (ElemFloat.mul_one _) (ElemFloat.one_mul _) _ _ Tv _ _ P) as [[E _]|W]; [contradiction|exact W].
    + destruct (tree_pad _ (@ElemSpec.fmax ElemSpec.F32) neg_inf sf_refl (ElemFloat.sf_trans _) fmax_sf (fun x => or_introl (eq_sym (proj1 (fmax_inf x)))) (fun x => or_introl (eq_sym (proj2 (fmax_inf x)))) _ _ Tv _ _ P) as [[E _]|W]; [contradiction|exact W].
    + destruct (tree_pad _ (@ElemSpec.fmin ElemSpec.F32) pos_inf sf_refl (ElemFloat.sf_trans _) fmin_sf (fun x => or_introl (eq_sym (proj1 (fmin_inf x)))) (fun x => or_introl (eq_sym (proj2 (fmin_inf x)))) _ _ Tv _ _ P) as [[E _]|W]; [contradiction|exact W].
  - intros red r i k v Hi Tv. cbn in Hi.
    destruct Hi as [Hi|[Hi|[Hi|[Hi|[]]]]]; injection Hi as <- <- <-; cbn [float_op] in *; (eapply tree_repeat; [|exact Tv|intros b Hb; now apply repeat_spec in Hb]).
    + reflexivity.
    + apply one_one.
    + apply fmax_inf.
    + apply fmin_inf.
  - intros r l Ne. now apply ReduceProofs.tree_exists.
  - reflexivity.
  - reflexivity.
  - reflexivity.
  - reflexivity.
  - intros c Hc. split; [apply big_max, big_of_Z, Hc|apply big_max, big_sqrt, big_of_Z, Hc].
  - assert (M : ElemSpec.fmax (ElemSpec.of_Z ElemSpec.F32 0) (ElemSpec.of_Z ElemSpec.F32 1) = ElemSpec.of_Z ElemSpec.F32 1).
    { unfold ElemSpec.fmax. now rewrite !ElemFloat.of_Z_nan, ElemFloat.ltb_of_Z by (cbn; lia). }
    assert (M' : fsqrt (ElemSpec.of_Z ElemSpec.F32 0) = ElemSpec.of_Z ElemSpec.F32 0) by (rewrite ElemFloat.zero_spec; reflexivity).
    rewrite M', M. destruct (ElemFloat.one_spec ElemSpec.F32) as (m & e & H & E & _). rewrite E. split; reflexivity.
Qed.
(** Acceptance: floats and signed integers, ids of rank 1; but no integers for Max and Min. *)
Theorem C73_accepted : forall tf k d seg_rank num_const,
  In (tf, k) kinds ->
  (segment_graph tf d seg_rank num_const <> None <->
   seg_rank = Some 1 /\ ((exists f, d = ElemSpec.FLT f) \/ (In d (map ElemSpec.INT [ElemSpec.I8; ElemSpec.I16; ElemSpec.I32; ElemSpec.I64]) /\ k_red k <> Max /\ k_red k <> Min))).
Proof.
  intros tf k d seg_rank num_const Hk. destruct (parse_ok tf k Hk) as (t1 & P1 & P2). unfold segment_graph. rewrite P1, P2. destruct (scale_nodes (seg_name (k_red k)) (k_num k) (if k_num k then num_const else None)) as [sn am].
  split.
  - intro H. destruct seg_rank as [[|[|n]]|]; try contradiction. split; [reflexivity|].
    destruct d as [|[]|f]; try contradiction; [right|right|right|right|left; eauto]; destruct (k_red k); try (exfalso; apply H; reflexivity); (split; [cbn; tauto|split; discriminate]).
  - intros (-> & [(f & ->)|(Hd & N1 & N2)]).
    + destruct (k_red k); cbn; discriminate.
    + cbn in Hd. destruct Hd as [<-|[<-|[<-|[<-|[]]]]]; destruct (k_red k); cbn; try discriminate; contradiction.
Qed.
(** ** What does not hold.  [wrong]: TensorFlow has a result, the graph has one, and no result of the graph is a result of
    TensorFlow. *)
Definition wrong {A F} (s : semantics A F) tf k d g i : Prop :=
  In (tf, k) kinds /\ segment_graph tf d (Some 1) None = Some g /\ (exists out, tf_out s k i out) /\ (exists out, seg_run s d g k i out) /\
  forall out, seg_run s d g k i out -> ~ tf_out s k i out.
Lemma run_grid {A F} (s : semantics A F) d g k i l out :
  match exec (row_of s) (amount_of s) (sqrt_of s) (max_one s) (is_float32 d) (g_nodes g) (graph_inputs k i) with Some e => find_in e (g_grid g) = Some (Grid l) | None => False end ->
  g_scale g = None -> (seg_run s d g k i out <-> Forall2 (R s (g_reduce g)) l out).
Proof.
  intros H Hs. unfold seg_run. rewrite Hs. destruct (exec _ _ _ _ _ _ _) as [e|]; [|contradiction]. split.
  - intros (e' & l' & red & E & G & Fa & ->). injection E as <-. rewrite H in G. injection G as <-. exact Fa.
  - intro Fa. exists e, l, out. auto.
Qed.
Definition the_graph (o : option seg_graph) : seg_graph := match o with Some g => g | None => SegGraph [] "" RSum None end.
Definition two : f32 := ElemSpec.of_Z ElemSpec.F32 2.
Local Notation one := (ElemSpec.of_Z ElemSpec.F32 1).
Local Notation FLOAT := (ElemSpec.FLT ElemSpec.F32).
Lemma one_not_zero : one <> ElemSpec.fzero.
Proof. destruct (ElemFloat.one_spec ElemSpec.F32) as (m & e & H & E & _). rewrite E. discriminate. Qed.
Ltac two_rows H := inversion H as [|? v0 ? l1 H0 H1]; subst; inversion H1 as [|? v1 ? l2 H2 H3]; subst; inversion H3; subst; clear H H1 H3.
Ltac tree1 H := unfold R, float_sem in H; apply ReduceProofs.tree_one in H; subst.
(** rows with a negative id are added to a segment from the end, where TensorFlow drops them *)
Theorem C73_negative_refuted : exists g, wrong float_sem "UnsortedSegmentSum" (Kind Unsorted Sum true) FLOAT g (Inputs [one; two] [] [-1; 0]%Z 2).
Proof.
  set (k := Kind Unsorted Sum true). set (i := Inputs [one; two] [] [-1; 0]%Z 2). set (g := the_graph (segment_graph "UnsortedSegmentSum" FLOAT (Some 1) None)).
  exists g. assert (G : forall A F (s : semantics A F) x y, match exec (row_of s) (amount_of s) (sqrt_of s) (max_one s) true (g_nodes g) (graph_inputs k (Inputs [x; y] [] [-1; 0]%Z 2)) with Some e => find_in e (g_grid g) = Some (Grid [[y]; [x]]) | None => False end).
  { intros. vm_compute. reflexivity. }
  assert (W := fun out => run_grid float_sem FLOAT g k i _ out (G _ _ float_sem one two) eq_refl).
  split; [cbn; tauto|]. split; [reflexivity|]. split; [|split].
  - exists [two; ElemSpec.fzero]. exists [one; two]. split; [reflexivity|]. split; [reflexivity|]. split; [intro H; exfalso; now apply H|]. split; [cbn; lia|]. split; [repeat (apply Forall_cons; [cbn; lia|]); apply Forall_nil|]. split; [reflexivity|].
    intros [|[|[|j]]] v Hv; cbn in Hv; try discriminate; injection Hv as <-; cbn.
    + exists two. split; [constructor|apply sf_refl].
    + reflexivity.
  - exists [two; one]. apply W. repeat constructor.
  - intros out H. apply W in H. two_rows H. tree1 H0. tree1 H2.
    intros (rows & E & _ & _ & _ & _ & _ & V). cbn in E. injection E as <-. specialize (V 1 one eq_refl). cbn in V. now apply one_not_zero.
Qed.
(** Max of a segment without rows: -inf, where TensorFlow has 0 (SegmentMax) or the lowest float (UnsortedSegmentMax) *)
Theorem C73_empty_max_refuted :
  (exists g, wrong float_sem "SegmentMax" (Kind Sorted Max false) FLOAT g (Inputs [one; two] [] [0; 2]%Z 0)) /\
  (exists g, wrong float_sem "UnsortedSegmentMax" (Kind Unsorted Max true) FLOAT g (Inputs [one] [] [0]%Z 2)).
Proof.
  split.
  - set (k := Kind Sorted Max false). set (i := Inputs [one; two] [] [0; 2]%Z 0). set (g := the_graph (segment_graph "SegmentMax" FLOAT (Some 1) None)).
    exists g. assert (G : forall A F (s : semantics A F) x y, match exec (row_of s) (amount_of s) (sqrt_of s) (max_one s) true (g_nodes g) (graph_inputs k (Inputs [x; y] [] [0; 2]%Z 0)) with Some e => find_in e (g_grid g) = Some (Grid [[x]; [row_of s INegInf]; [y]]) | None => False end).
    { intros. vm_compute. reflexivity. }
    assert (W := fun out => run_grid float_sem FLOAT g k i _ out (G _ _ float_sem one two) eq_refl).
    split; [cbn; tauto|]. split; [reflexivity|]. split; [|split].
    + exists [one; ElemSpec.fzero; two]. exists [one; two]. split; [reflexivity|]. split; [reflexivity|]. split.
      { intros _. split; [|repeat (apply Forall_cons; [cbn; lia|]); apply Forall_nil]. intros [|[|p]] [|[|q]] a b Ha Hb Hpq; cbn in Ha, Hb; try (destruct p; discriminate Ha); try (destruct q; discriminate Hb); injection Ha as <-; injection Hb as <-; lia. }
      split; [cbn; lia|]. split; [repeat (apply Forall_cons; [cbn; lia|]); apply Forall_nil|]. split; [reflexivity|].
      intros [|[|[|j]]] v Hv; cbn in Hv; try (destruct j; discriminate Hv); injection Hv as <-; cbn.
      * exists one. split; [constructor|apply sf_refl].
      * reflexivity.
      * exists two. split; [constructor|apply sf_refl].
    + exists [one; neg_inf; two]. apply W. repeat constructor.
    + intros out H. apply W in H. inversion H as [|? v0 ? l1 H0 H1]; subst. inversion H1 as [|? v1 ? l2 H2 H3]; subst. tree1 H2.
      intros (rows & E & _ & _ & _ & _ & _ & V). cbn in E. injection E as <-. specialize (V 1 _ eq_refl). cbn in V. discriminate V.
  - set (k := Kind Unsorted Max true). set (i := Inputs [one] [] [0]%Z 2). set (g := the_graph (segment_graph "UnsortedSegmentMax" FLOAT (Some 1) None)).
    exists g. assert (G : forall A F (s : semantics A F) x, match exec (row_of s) (amount_of s) (sqrt_of s) (max_one s) true (g_nodes g) (graph_inputs k (Inputs [x] [] [0]%Z 2)) with Some e => find_in e (g_grid g) = Some (Grid [[x]; [row_of s INegInf]]) | None => False end).
    { intros. vm_compute. reflexivity. }
    assert (W := fun out => run_grid float_sem FLOAT g k i _ out (G _ _ float_sem one) eq_refl).
    split; [cbn; tauto|]. split; [reflexivity|]. split; [|split].
    + exists [one; float_default Unsorted Max]. exists [one]. split; [reflexivity|]. split; [reflexivity|]. split; [intro H; exfalso; now apply H|]. split; [cbn; lia|]. split; [repeat (apply Forall_cons; [cbn; lia|]); apply Forall_nil|]. split; [reflexivity|].
      intros [|[|j]] v Hv; cbn in Hv; try (destruct j; discriminate Hv); injection Hv as <-; cbn.
      * exists one. split; [constructor|apply sf_refl].
      * reflexivity.
    + exists [one; neg_inf]. apply W. repeat constructor.
    + intros out H. apply W in H. two_rows H. tree1 H0. tree1 H2.
      intros (rows & E & _ & _ & _ & _ & _ & V). cbn in E. injection E as <-. specialize (V 1 _ eq_refl). cbn in V.
      assert (Fi : is_finite (float_default Unsorted Max) = true).
      { unfold float_default, ElemSpec.round_to. reflexivity. }
      change (neg_inf = float_default Unsorted Max) in V. rewrite <- V in Fi. discriminate Fi.
Qed.
(** the mean of a segment without rows: 0/0, where TensorFlow has 0 *)
Theorem C73_empty_mean_refuted : exists g, wrong float_sem "SegmentMean" (Kind Sorted Mean false) FLOAT g (Inputs [one; two] [] [0; 2]%Z 0).
Proof.
  set (k := Kind Sorted Mean false). set (i := Inputs [one; two] [] [0; 2]%Z 0). set (g := the_graph (segment_graph "SegmentMean" FLOAT (Some 1) None)).
  exists g. assert (G : forall A F (s : semantics A F) x y, match exec (row_of s) (amount_of s) (sqrt_of s) (max_one s) true (g_nodes g) (graph_inputs k (Inputs [x; y] [] [0; 2]%Z 0)) with
    Some e => find_in e (g_grid g) = Some (Grid [[x]; [row_of s IZero]; [y]]) /\ find_in e "seg_cnts_float"%string = Some (Amount [amount_of s 1%Z; amount_of s 0%Z; amount_of s 1%Z]) | None => False end).
  { intros. vm_compute. split; reflexivity. }
  assert (W : forall out, seg_run float_sem FLOAT g k i out <-> out = [ElemSpec.div one one; ElemSpec.div ElemSpec.fzero (ElemSpec.of_Z ElemSpec.F32 0); ElemSpec.div two one]).
  { intro out. unfold seg_run. specialize (G _ _ float_sem one two). change (is_float32 FLOAT) with true.
    fold i in G. destruct (exec (row_of float_sem) (amount_of float_sem) (sqrt_of float_sem) (max_one float_sem) true (g_nodes g) (graph_inputs k i)) as [e|]; [|contradiction]. destruct G as [G1 G2]. change (g_scale g) with (Some "seg_cnts_float"%string). cbv iota. split.
    - intros (e' & l & red & E & Gr & Fa & am & Ea & La & ->). injection E as <-. rewrite G1 in Gr. injection Gr as <-. rewrite G2 in Ea. injection Ea as <-.
      inversion Fa as [|? v0 ? l1 H0 H1]; subst. inversion H1 as [|? v1 ? l2 H2 H3]; subst. inversion H3 as [|? v2 ? l3 H4 H5]; subst. inversion H5; subst. tree1 H0. tree1 H2. tree1 H4. reflexivity.
    - intros ->. exists e, [[one]; [ElemSpec.fzero]; [two]], [one; ElemSpec.fzero; two]. split; [reflexivity|]. split; [exact G1|]. split; [repeat constructor|]. eexists. split; [exact G2|]. split; reflexivity. }
  split; [cbn; tauto|]. split; [reflexivity|]. split; [|split].
  - exists [ElemSpec.div one one; ElemSpec.fzero; ElemSpec.div two one]. exists [one; two]. split; [reflexivity|]. split; [reflexivity|]. split.
    { intros _. split; [|repeat (apply Forall_cons; [cbn; lia|]); apply Forall_nil]. intros [|[|p]] [|[|q]] a b Ha Hb Hpq; cbn in Ha, Hb; try (destruct p; discriminate Ha); try (destruct q; discriminate Hb); injection Ha as <-; injection Hb as <-; lia. }
    split; [cbn; lia|]. split; [repeat (apply Forall_cons; [cbn; lia|]); apply Forall_nil|]. split; [reflexivity|].
    intros [|[|[|j]]] v Hv; cbn [nth_error] in Hv; try (destruct j; discriminate Hv); injection Hv as <-.
    + exists one. split; [exists one; split; [constructor|apply sf_refl]|reflexivity].
    + reflexivity.
    + exists two. split; [exists two; split; [constructor|apply sf_refl]|reflexivity].
  - eexists. apply W. reflexivity.
  - intros out H. apply W in H. subst out. intros (rows & E & _ & _ & _ & _ & _ & V). cbn in E. injection E as <-. specialize (V 1 _ eq_refl). change (ElemSpec.div ElemSpec.fzero (ElemSpec.of_Z ElemSpec.F32 0) = ElemSpec.fzero) in V.
    rewrite ElemFloat.zero_spec in V. discriminate V.
Qed.
(** the graph has no result, TensorFlow has: no data at all; the mean with num_segments of float64 data, where Max has a float32
    constant *)
Theorem C73_no_result_refuted :
  (exists g, segment_graph "UnsortedSegmentSum" FLOAT (Some 1) None = Some g /\ let i := Inputs [] [] [] 2 in let k := Kind Unsorted Sum true in
     (exists out, tf_out float_sem k i out) /\ forall out, ~ seg_run float_sem FLOAT g k i out) /\
  (exists g, segment_graph "SparseSegmentMeanWithNumSegments" (ElemSpec.FLT ElemSpec.F64) (Some 1) None = Some g /\
     forall A F (s : semantics A F) x u, T s Sum [x] u -> let i := Inputs [x] [0]%Z [0]%Z 1 in let k := Kind Sparse Mean true in
     (exists out, tf_out s k i out) /\ forall out, ~ seg_run s (ElemSpec.FLT ElemSpec.F64) g k i out).
Proof.
  split.
  - set (g := the_graph (segment_graph "UnsortedSegmentSum" FLOAT (Some 1) None)). exists g. split; [reflexivity|]. cbv zeta. split.
    + exists [ElemSpec.fzero; ElemSpec.fzero]. exists []. split; [reflexivity|]. split; [reflexivity|]. split; [intro H; exfalso; now apply H|]. split; [cbn; lia|]. split; [apply Forall_nil|]. split; [reflexivity|].
      intros [|[|j]] v Hv; cbn in Hv; try (destruct j; discriminate Hv); injection Hv as <-; reflexivity.
    + intros out (e & l & red & E & _). assert (N : forall A F (s : semantics A F), exec (row_of s) (amount_of s) (sqrt_of s) (max_one s) true (g_nodes g) (graph_inputs (Kind Unsorted Sum true) (Inputs [] [] [] 2)) = None) by (intros; vm_compute; reflexivity).
      change (is_float32 FLOAT) with true in E. rewrite N in E. discriminate E.
  - set (g := the_graph (segment_graph "SparseSegmentMeanWithNumSegments" (ElemSpec.FLT ElemSpec.F64) (Some 1) None)). exists g. split; [reflexivity|]. intros A F s x u Hu. cbv zeta. split.
    + exists [divide s u (amount_of s 1)]. exists [x]. split; [reflexivity|]. split; [reflexivity|]. split.
      { intros _. split; [|repeat (apply Forall_cons; [cbn; lia|]); apply Forall_nil]. intros [|p] [|q] a b Ha Hb Hpq; cbn in Ha, Hb; try (destruct p; discriminate Ha); try (destruct q; discriminate Hb). injection Ha as <-. injection Hb as <-. lia. }
      split; [cbn; lia|]. split; [repeat (apply Forall_cons; [cbn; lia|]); apply Forall_nil|]. split; [reflexivity|].
      intros [|j] v Hv; cbn in Hv; try (destruct j; discriminate Hv). injection Hv as <-. exists u. split; [exact Hu|reflexivity].
    + intros out (e & l & red & E & _). assert (N : exec (row_of s) (amount_of s) (sqrt_of s) (max_one s) false (g_nodes g) (graph_inputs (Kind Sparse Mean true) (Inputs [x] [0]%Z [0]%Z 1)) = None) by (vm_compute; reflexivity).
      change (is_float32 (ElemSpec.FLT ElemSpec.F64)) with false in E. rewrite N in E. discriminate E.
Qed.
(** The hypotheses of C73_segment_partial and what follows, on rows of two floats: unsorted ids, and a segment without rows. *)
Example C73_witness :
  let k := Kind Unsorted Sum true in let s := rows_sem 2 float_sem in
  let i := Inputs [[one; one]; [two; one]; [two; two]] [] [2; 0; 2]%Z 3 in
  exists g, segment_graph "UnsortedSegmentSum" FLOAT (Some 1) (Some 3%Z) = Some g /\ exists out, seg_run s FLOAT g k i out /\ tf_out s k i out.
Proof.
  cbv zeta. set (k := Kind Unsorted Sum true). set (i := Inputs [[one; one]; [two; one]; [two; two]] [] [2; 0; 2]%Z 3). exists (the_graph (segment_graph "UnsortedSegmentSum" FLOAT (Some 1) (Some 3%Z))). split; [reflexivity|].
  assert (X : tf_out (rows_sem 2 float_sem) k i [[two; one]; [ElemSpec.fzero; ElemSpec.fzero]; [ElemSpec.add one two; ElemSpec.add one two]]).
  { exists (i_data i). split; [reflexivity|]. split; [reflexivity|]. split; [intro H; exfalso; now apply H|]. unfold i. split; [cbn; lia|]. split; [cbn [i_ids]; repeat (apply Forall_cons; [cbn; lia|]); apply Forall_nil|]. split; [reflexivity|].
    intros [|[|[|j]]] v Hv; cbn [nth_error] in Hv; try (destruct j; discriminate Hv); apply (f_equal (fun o => match o with Some w => w | None => [] end)) in Hv; cbv beta iota in Hv; subst v.
    - split; [reflexivity|]. intros [|[|c]] Hc; [exists two|exists one|lia]; (split; [constructor|apply sf_refl]).
    - reflexivity.
    - split; [reflexivity|]. intros [|[|c]] Hc; [| |lia]; (exists (ElemSpec.add one two); split; [apply (ReduceSpec.tree_node _ [one] [two]); constructor|apply sf_refl]). }
  destruct (C73_segment_partial _ _ (rows_sem 2 float_sem) "UnsortedSegmentSum" k FLOAT (Some 3%Z) (the_graph (segment_graph "UnsortedSegmentSum" FLOAT (Some 1) (Some 3%Z))) i _ ltac:(cbn; tauto) (C73_rows _ _ _ 2 C73_float32) eq_refl (or_intror eq_refl) X) as [[out Ho] H].
  - discriminate.
  - unfold i. cbn [i_ids]. repeat (apply Forall_cons; [lia|]); apply Forall_nil.
  - intros [E|[E|[[E|E] _]]]; discriminate E.
  - intros [E|E]; discriminate E.
  - exists out. auto.
Qed.
Print Assumptions C73_segment_partial.
Print Assumptions C73_float32.
Print Assumptions C73_rows.
Print Assumptions C73_accepted.
Print Assumptions C73_negative_refuted.
Print Assumptions C73_empty_max_refuted.
Print Assumptions C73_empty_mean_refuted.
Print Assumptions C73_no_result_refuted.
