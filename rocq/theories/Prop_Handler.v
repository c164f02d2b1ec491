(** C26, C27, C45, C46: the converter registry and the schema table. *)
From Coq Require Import String List Arith Bool Lia.
From Verif Require Import HandlerModel HandlerSpec HandlerProofs.
Import ListNotations.
Local Open Scope string_scope. Local Open Scope list_scope.

(** C26.  After any history of registrations, for any requested opsets, the converter the mapping selects for an op is
    exactly the newest usable one. *)
Theorem C26_chosen_handler_is_newest :
  forall H (hist : list (registration H)) max_onnx extra name f,
    dget (create_mapping (run H hist) max_onnx extra) name = Some f <-> newest "" max_onnx extra hist name f.
Proof. intros. apply create_mapping_spec. Qed.
Print Assumptions C26_chosen_handler_is_newest.
Theorem C26_unsupported_iff_no_usable_version :
  forall H (hist : list (registration H)) max_onnx extra name,
    dget (create_mapping (run H hist) max_onnx extra) name = None <-> ~ supported "" max_onnx extra hist name.
Proof. intros. apply create_mapping_none. Qed.
Print Assumptions C26_unsupported_iff_no_usable_version.
(** user supplied handlers override the registry, and nothing else *)
Theorem C26_custom_handlers_take_precedence :
  forall H (reg : registry H) max_onnx extra custom name,
    NoDup (map fst custom) ->
    (forall used kept, In (name, (used, kept)) custom -> dget (fst (conversion reg max_onnx extra custom)) name = Some used) /\
    (~ In name (map fst custom) ->
      dget (fst (conversion reg max_onnx extra custom)) name = dget (create_mapping reg max_onnx extra) name).
Proof.
  intros H reg mx extra custom name ND.
  assert (E : dget (rev custom) name = dget custom name) by (apply (lastof_nodup custom name ND)). split.
  - intros used kept I. rewrite custom_on_top, E, (In_dget _ _ _ ND I). reflexivity.
  - intro N. rewrite custom_on_top, E. apply dget_None in N. rewrite N. reflexivity.
Qed.
Print Assumptions C26_custom_handlers_take_precedence.

Definition reg3 : list (registration string) :=
  [Registration "eq1" 1 ["Equal"] ""; Registration "less1" 1 ["Less"] ""; Registration "eq7" 7 ["Equal"; "Less"] "";
   Registration "eq11" 11 ["Equal"] ""; Registration "m12" 12 ["Max"] ""; Registration "str" 1 ["Equal"] "contrib"].
Example C26_witness :
  dget (create_mapping (run _ reg3) 10 []) "Equal" = Some "eq7" /\
  dget (create_mapping (run _ reg3) 12 []) "Less" = Some "eq7" /\
  dget (create_mapping (run _ reg3) 6 []) "Max" = None /\
  dget (create_mapping (run _ reg3) 12 [("contrib", 1)]) "Equal" = Some "str".
Proof. vm_compute. auto. Qed.
Example C26_witness_custom : dget (fst (conversion (run _ reg3) 12 [] [("Less", ("mine", "kept"))])) "Less" = Some "mine".
Proof. reflexivity. Qed.

(** C46.  find_effective_op with a domain is meant to return the converter that domain alone would use; it does not: with
    opset 11 the onnx domain's newest converter of Equal is the one of version 11, and version 7 is returned. *)
Theorem C46_domain_fallback_is_newest_refuted :
  ~ (forall H (hist : list (registration H)) max_onnx extra d name f,
       newest_in "" max_onnx extra hist d name f -> find_effective_op (run H hist) max_onnx extra name (Some d) = Some f).
Proof.
  intro C. specialize (C string reg3 11 [] "" "Equal" "eq11").
  assert (N : newest_in "" 11 [] reg3 "" "Equal" "eq11").
  { exists 3, 11. split; [|split].
    - exists (Registration "eq11" 11 ["Equal"] ""). cbn. repeat split; auto.
    - exists 11. split; [right; split; [cbn; tauto|auto]|lia].
    - intros j v' f' (r & Hr & Hd & <- & HI & _) U.
      clear U. assert (B : j < 6) by (apply (nth_error_Some reg3); congruence).
      destruct j as [|[|[|[|[|[|j]]]]]]; cbn [nth_error reg3] in Hr; try (injection Hr as <-); cbn [rversion rdomain rnames] in *;
        try (discriminate Hd); try (destruct HI as [HI|[]]; discriminate HI); lia. }
  specialize (C N). vm_compute in C. discriminate.
Qed.
Print Assumptions C46_domain_fallback_is_newest_refuted.
(** what holds: for the domain registered first (the onnx domain), if that domain has a usable registration of a larger
    version for any op.  Missing: the other domains, and the case that the op itself has the largest usable version. *)
Theorem C46_domain_fallback_partial :
  forall H (hist : list (registration H)) max_onnx extra d name f i v w,
    first_use hist d 0 -> registered_at hist i d v name f ->
    (forall j v' f', registered_at hist j d v' name f' -> usable "" max_onnx extra d v' -> v' < v \/ (v' = v /\ j <= i)) ->
    v < w -> usable "" max_onnx extra d w -> (exists j name' f', registered_at hist j d w name' f') ->
    find_effective_op (run H hist) max_onnx extra name (Some d) = Some f.
Proof. intros. eapply domain_lookup; eauto. Qed.
Print Assumptions C46_domain_fallback_partial.
Example C46_witness : find_effective_op (run _ reg3) 12 [("contrib", 1)] "Equal" (Some "") = Some "eq11" /\
  find_effective_op (run _ reg3) 12 [("contrib", 1)] "Equal" None = Some "str".
Proof. vm_compute. auto. Qed.

(** C45.  The converters a conversion uses should not depend on conversions made before it in the same process; they do
    when the custom-op domain is requested. *)
Theorem C45_conversions_are_independent_refuted :
  ~ (forall H (hist : list (registration H)) mx mx' extra extra' custom custom' name,
       dget (fst (conversion (snd (conversion (run H hist) mx extra custom)) mx' extra' custom')) name =
       dget (fst (conversion (run H hist) mx' extra' custom')) name).
Proof.
  intro C. specialize (C string reg3 12 12 [] [("ai.onnx.converters.tensorflow", 1)] [("Less", ("mine", "kept"))] [] "Less").
  vm_compute in C. discriminate.
Qed.
Print Assumptions C45_conversions_are_independent_refuted.
(** independent of all earlier conversions if the custom-op domain is not requested *)
Theorem C45_conversions_are_independent_partial :
  forall H (hist : list (registration H)) (earlier : list (nat * list (string * nat) * list (string * (H * H)))) mx extra custom name,
    ~ In "ai.onnx.converters.tensorflow" (map fst extra) ->
    dget (fst (conversion (fold_left (fun r c => snd (conversion r (fst (fst c)) (snd (fst c)) (snd c))) earlier (run H hist)) mx extra custom)) name =
    dget (fst (conversion (run H hist) mx extra custom)) name.
Proof.
  intros H hist earlier mx extra custom name N.
  assert (K : exists l, fold_left (fun r c => snd (conversion r (fst (fst c)) (snd (fst c)) (snd c))) earlier (run H hist) = run H (hist ++ l)
            /\ forall r, In r l -> rdomain r = TF_DOMAIN).
  { induction earlier as [|c earlier IH] using rev_ind.
    - exists []. rewrite app_nil_r. cbn. tauto.
    - destruct IH as (l & E & Hl). rewrite fold_left_app. cbn [fold_left]. rewrite E, conversion_registry.
      exists (l ++ custom_regs H (snd c)). rewrite app_assoc. split; auto. intros r I. apply in_app_iff in I. destruct I as [I|I]; auto.
      unfold custom_regs in I. apply in_map_iff in I. destruct I as (e & <- & _). reflexivity. }
  destruct K as (l & -> & Hl). rewrite !custom_on_top. destruct (dget (rev custom) name) as [[a b]|]; auto.
  apply unrequested_irrelevant2. intros r I v (m & R & _). rewrite (Hl _ I) in R.
  destruct R as [(l1 & l2 & -> & _)|(_ & Q & _)].
  - apply N. rewrite map_app, in_app_iff. right. left. reflexivity.
  - discriminate.
Qed.
Print Assumptions C45_conversions_are_independent_partial.
Example C45_witness : dget (fst (conversion (snd (conversion (run _ reg3) 12 [] [("Less", ("mine", "kept"))])) 12 [("contrib", 1)] [])) "Less" = Some "eq7".
Proof. reflexivity. Qed.

(** C27.  The schema looked up is the last registered one with the largest version not above the requested one. *)
Definition schema_at {S'} (all : list (entry S')) (i : nat) (name domain : string) (v : nat) (s : S') : Prop :=
  exists e, nth_error all i = Some e /\ ename e = name /\ edomain e = domain /\ eversion e = v /\ eschema e = s.
Theorem C27_schema_is_newest :
  forall S' (all : list (entry S')) name domain maxv s,
    get_schema all name maxv domain = Some s ->
    exists i v, schema_at all i name domain v s /\ v <= maxv /\
      forall j v' s', schema_at all j name domain v' s' -> v' <= maxv -> v' < v \/ (v' = v /\ j <= i).
Proof. intros. eapply schema_newest; eauto. Qed.
Print Assumptions C27_schema_is_newest.
Theorem C27_no_schema_iff_none_old_enough :
  forall S' (all : list (entry S')) name domain maxv,
    get_schema all name maxv domain = None <-> (forall j v s, schema_at all j name domain v s -> maxv < v).
Proof. intros. apply schema_none. Qed.
Print Assumptions C27_no_schema_iff_none_old_enough.
Theorem C27_max_supported_version :
  forall S' (all : list (entry S')) domain,
    match max_supported all domain with
    | Some m => (exists i name s, schema_at all i name domain m s) /\ forall i name v s, schema_at all i name domain v s -> v <= m
    | None => forall i name v s, ~ schema_at all i name domain v s
    end.
Proof. intros. apply max_supported_spec. Qed.
Print Assumptions C27_max_supported_version.
Definition tab := [Entry "Add" "" 6 "a6"; Entry "Add" "" 13 "a13"; Entry "Add" "" 1 "a1"; Entry "Gelu" "ms" 1 "g"; Entry "Add" "" 7 "a7"].
Example C27_witness : get_schema tab "Add" 12 "" = Some "a7" /\ get_schema tab "Add" 0 "" = None /\ max_supported tab "" = Some 13.
Proof. vm_compute. auto. Qed.
