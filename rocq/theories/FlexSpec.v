(** Specification for C29: the FlexBuffer format (what a conforming writer produces), as a relation between a buffer and a
    value; independent of how the reader works.  Numbers are described in the writing direction. *)
From Coq Require Import ZArith List.
From Verif Require Import FlexModel.
Import ListNotations.
Local Open Scope Z_scope.

Definition is_byte (b : Z) : Prop := 0 <= b < 256.
(** [bs] is what the buffer holds from offset [off] on *)
Definition bytes_at (buf : list Z) (off : Z) (bs : list Z) : Prop :=
  exists pre post, buf = pre ++ bs ++ post /\ Z.of_nat (length pre) = off.
(** little endian *)
Fixpoint uint_bytes (k : nat) (n : Z) : list Z :=
  match k with O => [] | S k' => n mod 256 :: uint_bytes k' (n / 256) end.
(** a width code is 0..3, for 1, 2, 4 or 8 bytes *)
Definition nbytes (w : nat) : nat := Nat.pow 2 w.
Definition zbytes (w : nat) : Z := Z.of_nat (nbytes w).
Definition uint_at buf off (w : nat) (n : Z) : Prop :=
  (w <= 3)%nat /\ 0 <= n < 2 ^ (8 * zbytes w) /\ bytes_at buf off (uint_bytes (nbytes w) n).
Definition int_at buf off (w : nat) (z : Z) : Prop :=
  (w <= 3)%nat /\ - 2 ^ (8 * zbytes w - 1) <= z < 2 ^ (8 * zbytes w - 1) /\
  bytes_at buf off (uint_bytes (nbytes w) (z mod 2 ^ (8 * zbytes w))).
(** a slot of width [w] pointing back to [t] *)
Definition points buf off w t : Prop := 0 <= t /\ uint_at buf off w (off - t).
Definition nul_free (s : list Z) : Prop := Forall (fun b => 0 < b < 256) s.

(** the type codes of the format *)
Definition T_NULL := 0. Definition T_INT := 1. Definition T_UINT := 2. Definition T_FLOAT := 3. Definition T_KEY := 4.
Definition T_STRING := 5. Definition T_INDIRECT_INT := 6. Definition T_INDIRECT_UINT := 7. Definition T_INDIRECT_FLOAT := 8.
Definition T_MAP := 9. Definition T_VECTOR := 10. Definition T_VECTOR_INT := 11. Definition T_VECTOR_UINT := 12.
Definition T_VECTOR_FLOAT := 13. Definition T_VECTOR_KEY := 14. Definition T_VECTOR_STRING := 15.
Definition T_VECTOR_INT2 := 16. Definition T_BLOB := 25. Definition T_BOOL := 26. Definition T_VECTOR_BOOL := 36.
Inductive vector_of : Z -> Z -> Prop :=   (* type of the vector, type of its elements *)
| vo_int : vector_of T_VECTOR_INT T_INT | vo_uint : vector_of T_VECTOR_UINT T_UINT | vo_float : vector_of T_VECTOR_FLOAT T_FLOAT
| vo_key : vector_of T_VECTOR_KEY T_KEY | vo_bool : vector_of T_VECTOR_BOOL T_BOOL.
Inductive fixed_of : Z -> nat -> Z -> Prop :=   (* VECTOR_INT2, VECTOR_UINT2, VECTOR_FLOAT2, VECTOR_INT3, ... VECTOR_FLOAT4 *)
| fo n k : (2 <= n <= 4)%nat -> 0 <= k < 3 -> fixed_of (T_VECTOR_INT2 + 3 * (Z.of_nat n - 2) + k) n (T_INT + k).

(** [stored buf off w ty bw v]: the slot of width [w] at [off] represents [v] with type [ty] and child width [bw] *)
Inductive stored (buf : list Z) : Z -> nat -> Z -> nat -> value -> Prop :=
| st_null off w bw : stored buf off w T_NULL bw VNull
| st_int off w bw z : int_at buf off w z -> stored buf off w T_INT bw (VInt z)
| st_uint off w bw z : uint_at buf off w z -> stored buf off w T_UINT bw (VInt z)
| st_float off w bw bs : (2 <= w <= 3)%nat -> bytes_at buf off bs -> length bs = nbytes w -> stored buf off w T_FLOAT bw (VFloat bs)
| st_bool off w bw z b : uint_at buf off w z -> (b = true <-> z <> 0) -> stored buf off w T_BOOL bw (VBool b)
| st_key off w bw t s : points buf off w t -> nul_free s -> bytes_at buf t (s ++ [0]) -> stored buf off w T_KEY bw (VStr s)
| st_string off w bw t s : points buf off w t -> zbytes bw <= t -> Forall is_byte s -> uint_at buf (t - zbytes bw) bw (Z.of_nat (length s)) ->
    bytes_at buf t (s ++ [0]) -> stored buf off w T_STRING bw (VStr s)
| st_indirect_int off w bw t z : points buf off w t -> int_at buf t bw z -> stored buf off w T_INDIRECT_INT bw (VInt z)
| st_indirect_uint off w bw t z : points buf off w t -> uint_at buf t bw z -> stored buf off w T_INDIRECT_UINT bw (VInt z)
| st_indirect_float off w bw t bs : points buf off w t -> (2 <= bw <= 3)%nat -> bytes_at buf t bs -> length bs = nbytes bw ->
    stored buf off w T_INDIRECT_FLOAT bw (VFloat bs)
| st_blob off w bw t bs : points buf off w t -> uint_at buf (t - zbytes bw) bw (Z.of_nat (length bs)) -> bytes_at buf t bs ->
    stored buf off w T_BLOB bw (VBytes bs)
| st_vector off w bw t vs tys : points buf off w t ->
    uint_at buf (t - zbytes bw) bw (Z.of_nat (length vs)) -> length tys = length vs ->
    (forall i v ty tw, nth_error vs i = Some v -> nth_error tys i = Some (ty, tw) ->
       0 <= ty < 64 /\ (tw <= 3)%nat /\
       bytes_at buf (t + Z.of_nat (length vs) * zbytes bw + Z.of_nat i) [ty * 4 + Z.of_nat tw]) ->
    (forall i v ty tw, nth_error vs i = Some v -> nth_error tys i = Some (ty, tw) ->
       stored buf (t + Z.of_nat i * zbytes bw) bw ty tw v) ->
    stored buf off w T_VECTOR bw (VList vs)
| st_typed off w bw t vs vty ty : vector_of vty ty -> points buf off w t ->
    uint_at buf (t - zbytes bw) bw (Z.of_nat (length vs)) ->
    (forall i v, nth_error vs i = Some v -> stored buf (t + Z.of_nat i * zbytes bw) bw ty 0 v) ->
    stored buf off w vty bw (VList vs)
| st_strings off w bw t ss sw : points buf off w t ->   (* the size fields have some width that is not recorded *)
    uint_at buf (t - zbytes bw) bw (Z.of_nat (length ss)) -> (forall s, In s ss -> nul_free s) ->
    (forall i s, nth_error ss i = Some s -> stored buf (t + Z.of_nat i * zbytes bw) bw T_STRING sw (VStr s)) ->
    stored buf off w T_VECTOR_STRING bw (VList (map VStr ss))
| st_fixed off w bw t vs vty ty : (bw <= 3)%nat -> fixed_of vty (length vs) ty -> points buf off w t ->
    (forall i v, nth_error vs i = Some v -> stored buf (t + Z.of_nat i * zbytes bw) bw ty 0 v) ->
    stored buf off w vty bw (VList vs)
| st_map off w bw t kv kw kvs tys : points buf off w t ->
    uint_at buf (t - zbytes bw) bw (Z.of_nat (length kvs)) -> length tys = length kvs -> NoDup (map fst kvs) ->
    points buf (t - zbytes bw * 3) bw kv -> (kw <= 3)%nat -> uint_at buf (t - zbytes bw * 2) bw (zbytes kw) ->
    (forall i k v, nth_error kvs i = Some (k, v) -> stored buf (kv + Z.of_nat i * zbytes kw) kw T_KEY kw (VStr k)) ->
    (forall i k v ty tw, nth_error kvs i = Some (k, v) -> nth_error tys i = Some (ty, tw) ->
       0 <= ty < 64 /\ (tw <= 3)%nat /\
       bytes_at buf (t + Z.of_nat (length kvs) * zbytes bw + Z.of_nat i) [ty * 4 + Z.of_nat tw]) ->
    (forall i k v ty tw, nth_error kvs i = Some (k, v) -> nth_error tys i = Some (ty, tw) ->
       stored buf (t + Z.of_nat i * zbytes bw) bw ty tw v) ->
    stored buf off w T_MAP bw (VMap kvs).

(** a whole buffer: data, root slot, root type, root width in bytes *)
Definition document (buf : list Z) (v : value) : Prop :=
  exists body slot ty tw w, (w <= 3)%nat /\ (tw <= 3)%nat /\ 0 <= ty < 64 /\ length slot = nbytes w /\
    buf = body ++ slot ++ [ty * 4 + Z.of_nat tw; zbytes w] /\
    stored buf (Z.of_nat (length body)) w ty tw v.
