(** Model of tf2onnx/flexbuffers.py (whole file).  Bytes are integers; a raised exception is [None].  Floats are kept as
    their bytes: struct.unpack('<f'/'<d') is not modelled beyond the width.  Strings are kept as bytes
    (decode_strings=False; with decode_strings=True each string is additionally passed through bytes.decode). *)
From Coq Require Import ZArith List Bool.
Import ListNotations.
Local Open Scope Z_scope.

Inductive value :=
| VNull | VInt (z : Z) | VBool (b : bool) | VFloat (bytes : list Z) | VStr (bytes : list Z) | VBytes (bytes : list Z)
| VList (l : list value) | VMap (l : list (list Z * value)).

Definition len {A} (l : list A) : Z := Z.of_nat (length l).
(** buffer[a:b] *)
Definition norm (n i : Z) : Z := if i <? 0 then Z.max 0 (n + i) else Z.min i n.
Definition slice (buf : list Z) (a b : Z) : list Z :=
  let a' := norm (len buf) a in let b' := norm (len buf) b in
  firstn (Z.to_nat (b' - a')) (skipn (Z.to_nat a') buf).
Fixpoint le_uint (bs : list Z) : Z := match bs with [] => 0 | b :: bs' => b + 256 * le_uint bs' end.
Definition size_of (bit_size : nat) : Z := 2 ^ Z.of_nat bit_size.
(** struct.unpack('<' + c, buffer[offset:offset+size]); 'BHIQ'[bit_size] fails for bit_size > 3 *)
Definition read_bytes_exact (buf : list Z) (off : Z) (w : nat) : option (list Z) :=
  if Nat.leb w 3 then
    let bs := slice buf off (off + size_of w) in
    if len bs =? size_of w then Some bs else None
  else None.
(** lines 22-25 *)
Definition read_uint (buf : list Z) (off : Z) (w : nat) : option Z := option_map le_uint (read_bytes_exact buf off w).
(** lines 16-19 *)
Definition to_signed (w : nat) (u : Z) : Z := if u <? 2 ^ (8 * size_of w - 1) then u else u - 2 ^ (8 * size_of w).
Definition read_int (buf : list Z) (off : Z) (w : nat) : option Z := option_map (to_signed w) (read_uint buf off w).
(** lines 28-33 *)
Definition read_float (buf : list Z) (off : Z) (w : nat) : option value :=
  if Nat.eqb w 2 || Nat.eqb w 3 then option_map VFloat (read_bytes_exact buf off w) else None.
(** lines 44-45 *)
Definition read_indirect (buf : list Z) (off : Z) (w : nat) : option Z := option_map (fun d => off - d) (read_uint buf off w).

(** lines 77-80: the while loop looking for the terminator of a key *)
Fixpoint key_size (n : nat) (buf : list Z) (off size : Z) : option Z :=
  match n with
  | O => None
  | S n' => match read_int buf (off + size) 0 with
            | None => None
            | Some 0 => Some size
            | Some _ => key_size n' buf off (size + 1)
            end
  end.
(** lines 83-90: the size of a string, widening the size field until the terminator is where it should be *)
Fixpoint str_size (n : nat) (buf : list Z) (off : Z) (w : nat) : option Z :=
  match n with
  | O => None
  | S n' => match read_uint buf (off - size_of w) w with
            | None => None
            | Some size => match read_int buf (off + size) 0 with
                           | None => None
                           | Some 0 => Some size
                           | Some _ => str_size n' buf off (S w)
                           end
            end
  end.
(** the dictionary {1: 0, 2: 1, 4: 2, 8: 3, 16: 4} *)
Definition width_of_bytes (b : Z) : option nat :=
  if b =? 1 then Some 0%nat else if b =? 2 then Some 1%nat else if b =? 4 then Some 2%nat
  else if b =? 8 then Some 3%nat else if b =? 16 then Some 4%nat else None.
Definition bytes_eq_dec : forall a b : list Z, {a = b} + {a <> b} := list_eq_dec Z.eq_dec.
(** obj[key] = value *)
Fixpoint mset (d : list (list Z * value)) (k : list Z) (v : value) : list (list Z * value) :=
  match d with [] => [(k, v)] | (k', v') :: d' => if bytes_eq_dec k' k then (k', v) :: d' else (k', v') :: mset d' k v end.

(** lines 52-58 read_array and the loops of read_buffer: collects the results of [f] for i, i+1, ... *)
Fixpoint collect {A} (f : Z -> option A) (i : Z) (n : nat) : option (list A) :=
  match n with
  | O => Some []
  | S n' => match f i with None => None | Some v => match collect f (i + 1) n' with None => None | Some l => Some (v :: l) end end
  end.
Definition bind {A B} (o : option A) (f : A -> option B) : option B := match o with None => None | Some a => f a end.
Notation "'do' x <- a ; b" := (bind a (fun x => b)) (at level 200, x name, a at level 100, b at level 200).

(** lines 61-147 read_buffer; the recursion follows the offsets in the buffer, hence the fuel (Python's recursion limit) *)
Fixpoint read_buffer (fuel : nat) (buf : list Z) (off : Z) (pw : nat) (packed : Z) : option value :=
  match fuel with
  | O => None
  | S fuel' =>
  let w := Z.to_nat (Z.land packed 3) in
  let ty := Z.shiftr packed 2 in
  let bs := size_of w in
  let strings := S (length buf) in
  if ty =? 0 then Some VNull
  else if ty =? 1 then option_map VInt (read_int buf off pw)
  else if ty =? 2 then option_map VInt (read_uint buf off pw)
  else if ty =? 3 then read_float buf off pw
  else if ty =? 4 then
    do t <- read_indirect buf off pw; do n <- key_size strings buf t 0; Some (VStr (slice buf t (t + n)))
  else if ty =? 5 then
    do t <- read_indirect buf off pw; do n <- str_size strings buf t w; Some (VStr (slice buf t (t + n)))
  else if ty =? 6 then do t <- read_indirect buf off pw; option_map VInt (read_int buf t w)
  else if ty =? 7 then do t <- read_indirect buf off pw; option_map VInt (read_uint buf t w)
  else if ty =? 8 then do t <- read_indirect buf off pw; read_float buf t w
  else if ty =? 9 then
    do t <- read_indirect buf off pw;
    do n <- read_uint buf (t - bs) w;
    let keys_offset := t - bs * 3 in
    do kv <- read_indirect buf keys_offset w;
    do kb <- read_uint buf (keys_offset + bs) w;
    do kw <- width_of_bytes kb;
    let types := t + n * bs in
    do items <- collect (fun i =>
      do k <- read_buffer fuel' buf (kv + i * kb) kw (Z.lor (Z.shiftl 4 2) (Z.of_nat kw));
      do ty' <- read_uint buf (types + i) 0;
      do v <- read_buffer fuel' buf (t + i * bs) w ty';
      match k with VStr k => Some (k, v) | _ => None end) 0 (Z.to_nat n);
    Some (VMap (fold_left (fun d kv => mset d (fst kv) (snd kv)) items []))
  else if ty =? 10 then
    do t <- read_indirect buf off pw;
    do n <- read_uint buf (t - bs) w;
    let types := t + n * bs in
    do items <- collect (fun i =>
      do ty' <- read_uint buf (types + i) 0; read_buffer fuel' buf (t + i * bs) w ty') 0 (Z.to_nat n);
    Some (VList items)
  else if ((11 <=? ty) && (ty <=? 15)) || (ty =? 36) then
    do t <- read_indirect buf off pw;
    do n <- read_uint buf (t - bs) w;
    do items <- collect (fun i => read_buffer fuel' buf (t + i * bs) w (Z.shiftl (ty - 11 + 1) 2)) 0 (Z.to_nat n);
    Some (VList items)
  else if (16 <=? ty) && (ty <=? 24) then
    let n := (ty - 16) / 3 + 2 in
    do t <- read_indirect buf off pw;
    do items <- collect (fun i => read_buffer fuel' buf (t + i * bs) w (Z.shiftl ((ty - 16) mod 3 + 1) 2)) 0 (Z.to_nat n);
    Some (VList items)
  else if ty =? 25 then
    do t <- read_indirect buf off pw;
    do n <- read_uint buf (t - bs) w;
    Some (VBytes (slice buf t (t + n)))
  else if ty =? 26 then option_map (fun u => VBool (0 <? u)) (read_uint buf off pw)
  else None
  end.
(** lines 150-155 read_flexbuffer *)
Definition read_flexbuffer (fuel : nat) (buf : list Z) : option value :=
  do b <- read_uint buf (len buf - 1) 0;
  do w <- width_of_bytes b;
  do packed <- read_uint buf (len buf - 2) 0;
  read_buffer fuel buf (len buf - 2 - b) w packed.
