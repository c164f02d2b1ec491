(** C29: FlexBuffer decoding inverts encoding. *)
From Coq Require Import ZArith List Lia.
From Verif Require Import FlexModel FlexSpec FlexProofs FlexWriter.
Import ListNotations.
Local Open Scope Z_scope.

(** Whatever conforming writer produced the buffer (any mixture of widths, inline or indirect scalars, typed, untyped and
    fixed-size vectors, maps, any nesting), reading it gives the value that was written. *)
Theorem C29_decoding_inverts_any_encoding :
  forall buf v, document buf v -> exists depth, forall fuel, (depth <= fuel)%nat -> read_flexbuffer fuel buf = Some v.
Proof. exact document_reads. Qed.
Print Assumptions C29_decoding_inverts_any_encoding.
(** hence a buffer stands for one value only *)
Theorem C29_encoding_is_unambiguous : forall buf v v', document buf v -> document buf v' -> v = v'.
Proof.
  intros buf v v' D D'. apply document_reads in D as (f & Hf). apply document_reads in D' as (f' & Hf').
  specialize (Hf (Nat.max f f') ltac:(lia)). specialize (Hf' (Nat.max f f') ltac:(lia)). congruence.
Qed.
Print Assumptions C29_encoding_is_unambiguous.
(** Every value of the supported types can be written, and reading what was written gives it back. *)
Theorem C29_roundtrip :
  forall v, representable v -> len (encode v) < 2 ^ 63 ->
    document (encode v) v /\ exists depth, forall fuel, (depth <= fuel)%nat -> read_flexbuffer fuel (encode v) = Some v.
Proof. intros v R L. split; [apply encode_document; auto|]. apply document_reads. apply encode_document; auto. Qed.
Print Assumptions C29_roundtrip.

Definition sample := VMap [([97], VList [VInt (-5); VBool true; VStr [104; 105]; VNull]); ([98; 99], VMap [([120], VFloat [0; 0; 128; 63]); ([121], VBytes [0; 0; 255])])].
Example C29_witness : read_flexbuffer 10 (encode sample) = Some sample.
Proof. vm_compute. reflexivity. Qed.
Example C29_witness_representable : representable sample.
Proof.
  constructor.
  - repeat constructor; cbn; intuition discriminate.
  - intros k v [E|[E|[]]]; inversion E; subst; repeat constructor; lia.
  - intros k v [E|[E|[]]]; inversion E; subst.
    + constructor. intros v [<-|[<-|[<-|[<-|[]]]]]; constructor; try lia. repeat constructor; unfold is_byte; lia.
    + constructor.
      * repeat constructor; cbn; intuition discriminate.
      * intros k v [E'|[E'|[]]]; inversion E'; subst; repeat constructor; lia.
      * intros k v [E'|[E'|[]]]; inversion E'; subst; constructor; auto.
Qed.
(** a hand written buffer with 1 byte slots: the typed vector [1,2,3] *)
Example C29_witness_typed : read_flexbuffer 3 [3; 1; 2; 3; 3; 44; 1] = Some (VList [VInt 1; VInt 2; VInt 3]).
Proof. reflexivity. Qed.
(** a typed string vector whose size fields are 2 bytes wide *)
Example C29_witness_strings : read_flexbuffer 3 [2; 0; 104; 105; 0; 1; 4; 1; 60; 1] = Some (VList [VStr [104; 105]]).
Proof. reflexivity. Qed.

