(** C01-C04, C38, C41: naming properties. *)
From Coq Require Import List String Ascii NArith ZArith Bool.
From Verif Require Import NamesModel NamesSpec NamesProofs.
Import ListNotations.
Local Open Scope string_scope.

(** C01: over any history of make_name calls (interleaved with counter initialisations from any
    models) from any counter value, all generated names are pairwise different. *)
Theorem C01_make_name_never_repeats :
  forall (counter : N) (history : list name_op), NoDup (snd (run_names counter history)).
Proof. exact (fun c h => run_names_nodup h c). Qed.
Print Assumptions C01_make_name_never_repeats.

Example C01_witness :
  snd (run_names 1 [OpMakeName "a"; OpMakeName "a__2"; OpInit (PGraph [PNode "n__7" ["n__9:0"] []] [] []);
                    OpMakeName "a"]) = ["a__2"; "a__2__3"; "a__11"].
Proof. vm_compute. reflexivity. Qed.

(** C01 (shape of names): the name is the base, two underscores and a number. *)
Theorem C01_make_name_keeps_base :
  forall counter base, exists k, snd (make_name counter base) = base ++ "__" ++ str_of_N k /\ (k > counter)%N.
Proof. intros c b. exists (c + 1)%N. split; [reflexivity|]. apply N.lt_gt, N.lt_add_pos_r. reflexivity. Qed.
Print Assumptions C01_make_name_keeps_base.

(** C02: after the counter was initialised from a model, no generated name, and no output
    "name:port" derived from it, equals a node name or node output name of that model. *)
Theorem C02_generated_names_fresh :
  forall counter model history name,
    In name (snd (run_names (initialize_name_counter counter model) history)) ->
    ~ scanned_name model name /\ forall port, ~ scanned_name model (port_name name port).
Proof.
  exact (fun c m h s H =>
    conj (fun K => generated_fresh c m h s None H (eq_ind_r (scanned_name m) K (append_nil_r' s)))
         (fun p => generated_fresh c m h s (Some p) H)).
Qed.
Print Assumptions C02_generated_names_fresh.

Example C02_witness :
  let m := PGraph [PNode "conv__12" ["conv__30:0"]
                     [PGraph [PNode "inner__45" ["x"] []] [] []]] [] [] in
  initialize_name_counter 1 m = 46%N /\ scanned_name m "inner__45".
Proof.
  split; [vm_compute; reflexivity|].
  exists (PGraph [PNode "inner__45" ["x"] []] [] []), (PNode "inner__45" ["x"] []).
  split; [|split; [left; reflexivity|left; reflexivity]].
  eapply gi_sub; [left; reflexivity|left; reflexivity|apply gi_self].
Qed.

(** C41 refuted: initializer names (and graph input names) are not scanned, so a generated name can
    equal the name of an initializer of the loaded model. *)
Theorem C41_initializer_names_fresh_refuted :
  exists model history name,
    In name (snd (run_names (initialize_name_counter 1 model) history)) /\ model_name model name.
Proof.
  exists (PGraph [PNode "Add" ["y"] []] ["const__2"] ["x"]), [OpMakeName "const"], "const__2".
  split; [left; reflexivity|]. right. eexists. split; [apply gi_self|]. left. left. reflexivity.
Qed.
Print Assumptions C41_initializer_names_fresh_refuted.

(** C41 partial: if every initializer and graph input name is also a node output or node name (or has
    no generated-looking suffix, which the next theorem covers), generated names are fresh; what is
    missing is the general case refuted above. *)
Theorem C41_fresh_against_all_names_partial :
  forall counter model history name,
    (forall s, model_name model s -> scanned_name model s \/ search_suffix s = None) ->
    In name (snd (run_names (initialize_name_counter counter model) history)) ->
    ~ model_name model name.
Proof.
  intros c m h s Hs Hin Hm. destruct (Hs s Hm) as [K|K].
  - exact (proj1 (C02_generated_names_fresh c m h s Hin) K).
  - destruct (run_names (initialize_name_counter c m) h) as [c' ss] eqn:E.
    destruct (run_names_bound _ _ _ _ E) as [_ F]. destruct (F s Hin) as (b & k & E2 & _).
    subst s. rewrite search_generated0 in K. discriminate.
Qed.
Print Assumptions C41_fresh_against_all_names_partial.

(** C03: tensor names split back into node name and port; distinct (node, port) pairs give distinct
    tensor names; a bare node name is its own node name. *)
Theorem C03_node_name_of_port_name :
  forall name nr, has_char ":" name = false -> node_name (port_name name nr) = name.
Proof. exact node_name_port. Qed.
Print Assumptions C03_node_name_of_port_name.

Theorem C03_port_name_injective :
  forall a n b m, has_char ":" a = false -> has_char ":" b = false ->
    port_name a n = port_name b m -> a = b /\ n = m.
Proof. exact port_name_inj. Qed.
Print Assumptions C03_port_name_injective.

Theorem C03_bare_node_name :
  forall name, has_char ":" name = false -> node_name name = name.
Proof. exact node_name_no_colon. Qed.
Print Assumptions C03_bare_node_name.

Example C03_witness : has_char ":" "model/dense/MatMul" = false /\
  node_name (port_name "model/dense/MatMul" 12) = "model/dense/MatMul".
Proof. split; reflexivity. Qed.

(** C04: pairs of non-negative seeds whose combined value is exactly representable as a double
    (sum of the seeds below about 1.3e8) give different ONNX seeds; no seed at all is produced
    exactly for (0,0).  What is missing is the range where float rounding collides (below). *)
Theorem C04_combine_seeds_injective_partial :
  forall a b c d : Z, (0 <= a)%Z -> (0 <= b)%Z -> (0 <= c)%Z -> (0 <= d)%Z ->
    ((a + b + 1) * (a + b + 2) < 2 ^ 54)%Z -> ((c + d + 1) * (c + d + 2) < 2 ^ 54)%Z ->
    combine_seeds a b = combine_seeds c d -> a = c /\ b = d.
Proof. exact combine_seeds_inj. Qed.
Print Assumptions C04_combine_seeds_injective_partial.

Theorem C04_combine_seeds_none : forall a b, combine_seeds a b = None <-> a = 0%Z /\ b = 0%Z.
Proof. exact combine_seeds_none. Qed.
Print Assumptions C04_combine_seeds_none.

(** the integer before the conversion to float is injective on all non-negative seeds *)
Theorem C04_combined_integer_injective_partial :
  forall a b c d : Z, (0 <= a)%Z -> (0 <= b)%Z -> (0 <= c)%Z -> (0 <= d)%Z ->
    combine_seeds_int a b = combine_seeds_int c d -> a = c /\ b = d.
Proof. exact combine_seeds_int_inj. Qed.
Print Assumptions C04_combined_integer_injective_partial.

(** C04 refuted in general: rounding to a double makes large seeds collide. *)
Theorem C04_combine_seeds_injective_refuted :
  exists a b c d : Z, (0 <= a /\ 0 <= b /\ 0 <= c /\ 0 <= d)%Z /\ (a, b) <> (c, d) /\
    combine_seeds a b = combine_seeds c d.
Proof.
  exists 300000000%Z, 0%Z, 299999999%Z, 1%Z.
  split; [repeat split; discriminate|]. split; [congruence|]. vm_compute. reflexivity.
Qed.
Print Assumptions C04_combine_seeds_injective_refuted.

Example C04_witness : combine_seeds 1234567 42 = Some 762130308788%Z /\ combine_seeds 0 0 = None /\
  ((1234567 + 42 + 1) * (1234567 + 42 + 2) < 2 ^ 54)%Z.
Proof. vm_compute. repeat split. Qed.

(** C38: storing any sequence of constants, each stored tensor is read back from its own location
    (external keys are pairwise different). *)
Theorem C38_external_data_not_overwritten :
  forall (D : Type) (nodes : list (const_node D)), coherent nodes ->
    let (s, locs) := store_all empty_storage nodes in
    NoDup (map fst (st_data s)) /\
    Forall2 (fun n l => read_location s l = Some (cn_data n)) nodes locs.
Proof. exact @external_data_ok. Qed.
Print Assumptions C38_external_data_not_overwritten.

Example C38_witness :
  let ns := [mkConst 0 "a/b" 5000 "d0"; mkConst 1 "a:b" 5000 "d1"; mkConst 0 "a/b" 5000 "d0";
             mkConst 2 "small" 3 "d2"] in
  coherent ns /\
  snd (store_all empty_storage ns) = [External "a_b_0"; External "a_b_1"; External "a_b_0"; Inline "d2"].
Proof.
  split; [|vm_compute; reflexivity].
  intros a b Ha Hb. simpl in Ha, Hb.
  repeat (destruct Ha as [<-|Ha]; [repeat (destruct Hb as [<-|Hb]; [simpl; congruence|]); destruct Hb|]).
  destruct Ha.
Qed.

(** C38: writing the model and its external tensors to a zip and loading it gives back the model
    and all tensors. *)
Theorem C38_zip_roundtrip :
  forall (D : Type) (model : D) (nodes : list (const_node D)),
    let s := fst (store_all empty_storage nodes) in
    fst (load_zip (zip_members model s) None []) = Some model /\
    forall k, assoc_str k (snd (load_zip (zip_members model s) None [])) = assoc_str k (st_data s).
Proof. exact @zip_roundtrip. Qed.
Print Assumptions C38_zip_roundtrip.
