(** Which numbers the ONNX element types can hold.  Numbers are rationals; NaN and infinities are left out. *)
From Coq Require Import ZArith QArith.
From Verif Require Import B2BModel.
Local Open Scope Q_scope.

Definition pow2 (e : Z) : Q := if (0 <=? e)%Z then inject_Z (2 ^ e) else / inject_Z (2 ^ (- e)).
Definition in_range (lo hi : Z) (v : Q) : Prop := exists z, v == inject_Z z /\ (lo <= z < hi)%Z.
(** m * 2^e with at most p bits in m *)
Definition binary (p emin emax : Z) (v : Q) : Prop :=
  exists m e, v == inject_Z m * pow2 e /\ (Z.abs m < 2 ^ p)%Z /\ (emin <= e <= emax)%Z.
Definition rep (t : dtype) (v : Q) : Prop :=
  match t with
  | TInt8 => in_range (- 2 ^ 7) (2 ^ 7) v | TInt16 => in_range (- 2 ^ 15) (2 ^ 15) v
  | TInt32 => in_range (- 2 ^ 31) (2 ^ 31) v | TInt64 => in_range (- 2 ^ 63) (2 ^ 63) v
  | TUint8 => in_range 0 (2 ^ 8) v | TUint16 => in_range 0 (2 ^ 16) v
  | TUint32 => in_range 0 (2 ^ 32) v | TUint64 => in_range 0 (2 ^ 64) v
  | TBool => in_range 0 2 v
  | TFloat16 => binary 11 (-24) 5 v | TBFloat16 => binary 8 (-133) 120 v
  | TFloat => binary 24 (-149) 104 v | TDouble => binary 53 (-1074) 971 v
  | _ => False
  end.
(** pairs (source, first cast) where nothing can be lost: every value of the source type is a value of the other *)
Definition lossless (s t : dtype) : Prop := forall v, rep s v -> rep t v.
