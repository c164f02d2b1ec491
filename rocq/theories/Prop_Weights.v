(** C30 TFLite string tensors; C31 TF.js weights. *)
From Coq Require Import String ZArith List Bool Lia.
From Verif Require Import FlexModel FlexSpec HandlerModel WeightsModel WeightsSpec FlexProofs WeightsProofs.
Import ListNotations.
Local Open Scope Z_scope.

(** C30: parsing what was serialised gives the strings back. *)
Theorem C30_string_tensor_roundtrip ss : Z.of_nat (length (tflite_strings ss)) < 2 ^ 31 -> parse_string_tensor (tflite_strings ss) = Some ss.
Proof. exact (string_tensor_roundtrip ss). Qed.
(** C30: hence different lists of strings have different encodings *)
Theorem C30_encoding_injective s1 s2 : Z.of_nat (length (tflite_strings s1)) < 2 ^ 31 -> tflite_strings s1 = tflite_strings s2 -> s1 = s2.
Proof.
  intros L E. apply string_tensor_roundtrip in L as H. rewrite E in L. apply string_tensor_roundtrip in L. rewrite E, L in H. congruence.
Qed.
Example C30_witness : parse_string_tensor (tflite_strings [[104;105]; []; [33]]) = Some [[104;105]; []; [33]].
Proof. reflexivity. Qed.

(** C31: however the written weights are split into shard files, reading the manifest group returns each weight's content
    under its name (strings without trailing NUL bytes). *)
Theorem C31_weights_roundtrip_partial ws cs shards :
  Forall2 conforms ws cs -> Forall nul_clean cs -> NoDup (map wname ws) -> concat shards = concat (map content_bytes cs) ->
  exists d, load_weights [(ws, shards)] = Some d /\ forall w c, In (w, c) (combine ws cs) -> dget d (wname w) = Some c.
Proof.
  intros F NC ND E. unfold load_weights. rewrite E.
  assert (A : bytes_at (concat (map content_bytes cs)) 0 (concat (map content_bytes cs))) by (exists [], []; rewrite app_nil_r; auto).
  rewrite (read_all_at _ ws cs 0 F NC A). cbn [bind snd fst]. rewrite Z.add_0_l, Z.eqb_refl. eexists. split; [reflexivity|].
  assert (L := F2_length _ _ _ F). intros w c I. apply dupdate_In.
  - rewrite combine_fst; auto. rewrite map_length. exact L.
  - clear - I. revert cs I. induction ws as [|w0 ws IH]; intros [|c0 cs] I; try contradiction. cbn in *. destruct I as [I|I]; [inversion I; auto|auto].
Qed.
(** C31: whenever a manifest group is accepted, the shard files are exactly the encodings of weights of the declared sizes one
    after the other - nothing missing, overlapping or left over - and each name is bound to its weight up to trailing NULs. *)
Theorem C31_accepted_weights_sound ws shards rest d :
  Forall is_byte (concat shards) -> load_weights ((ws, shards) :: rest) = Some d ->
  exists cs cs', Forall2 conforms ws cs /\ concat shards = concat (map content_bytes cs) /\ Forall2 same_up_to_nuls cs cs' /\
    (NoDup (map wname ws) -> forall w c, In (w, c) (combine ws cs') -> dget d (wname w) = Some c).
Proof.
  intros FB E. unfold load_weights in E. destruct (read_all ws (concat shards) 0) as [[r j]|] eqn:Er; [|discriminate]. cbn [bind fst snd] in E.
  destruct (Z.eqb_spec (len (concat shards)) j) as [<-|]; [|discriminate]. inversion E; subst.
  apply read_all_inv in Er; auto; try lia. destruct Er as (cs & cs' & -> & S & F & A & J). exists cs, cs'. split; [exact F|].
  split; [apply bytes_at_all; auto; lia|]. split; [exact S|]. intros ND w c I.
  assert (L1 := F2_length _ _ _ F). assert (L2 := F2_length _ _ _ S). apply dupdate_In.
  - rewrite combine_fst; auto. rewrite map_length. congruence.
  - clear - I. revert cs' I. induction ws as [|w0 ws IH]; intros [|c0 cs] I; try contradiction. cbn in *. destruct I as [I|I]; [inversion I; auto|auto].
Qed.
Definition ws1 := [Weight "a" [2%nat] SString; Weight "b" [2%nat;1%nat] (SFixed 2); Weight "c" [] (SFixed 1)].
Definition cs1 := [CStrings [[1;2;3];[]]; CFixed [[1;2];[3;4]]; CFixed [[9]]].
Example C31_witness : Forall2 conforms ws1 cs1 /\ Forall nul_clean cs1 /\ NoDup (map wname ws1) /\
  load_weights [(ws1, [[3;0;0;0;1]; [2;3;0;0;0;0]; []; [1;2;3;4;9]])] = Some (combine (map wname ws1) cs1).
Proof.
  split; [repeat constructor|]. split; [|split; [|reflexivity]].
  - constructor; [|repeat constructor]. constructor; [|constructor; [|constructor]]; intros p H.
    + apply (f_equal (fun l => last l 7)) in H. rewrite last_last in H. discriminate.
    + destruct p; discriminate.
  - cbn. repeat constructor; cbn; intuition congruence.
Qed.

(** C31, refuted: a string weight ending in a NUL byte is read back without it. *)
Theorem C31_trailing_nul_refuted :
  exists ws cs, Forall2 conforms ws cs /\ NoDup (map wname ws) /\
    exists d, load_weights [(ws, [concat (map content_bytes cs)])] = Some d /\
    exists w c, In (w, c) (combine ws cs) /\ dget d (wname w) <> Some c.
Proof.
  exists [Weight "s" [1%nat] SString], [CStrings [[97;0]]]. split; [repeat constructor|]. split; [cbn; repeat constructor; cbn; tauto|].
  eexists. split; [reflexivity|]. do 2 eexists. split; [left; reflexivity|]. cbn. discriminate.
Qed.
(** C31, refuted: with more than one group in the manifest the weights of the later groups are lost. *)
Theorem C31_several_groups_refuted :
  exists ws1 cs1 ws2 cs2, Forall2 conforms ws1 cs1 /\ Forall2 conforms ws2 cs2 /\ NoDup (map wname (ws1 ++ ws2)) /\
    exists d, load_weights [(ws1, [concat (map content_bytes cs1)]); (ws2, [concat (map content_bytes cs2)])] = Some d /\
    exists w c, In (w, c) (combine ws2 cs2) /\ dget d (wname w) = None.
Proof.
  exists [Weight "a" [] (SFixed 1)], [CFixed [[1]]], [Weight "b" [] (SFixed 1)], [CFixed [[2]]].
  split; [repeat constructor|]. split; [repeat constructor|]. split; [cbn; repeat constructor; cbn; intuition congruence|].
  eexists. split; [reflexivity|]. do 2 eexists. split; [left; reflexivity|]. reflexivity.
Qed.
Print Assumptions C30_string_tensor_roundtrip.
Print Assumptions C30_encoding_injective.
Print Assumptions C31_weights_roundtrip_partial.
Print Assumptions C31_accepted_weights_sound.
Print Assumptions C31_trailing_nul_refuted.
Print Assumptions C31_several_groups_refuted.
