(** Models of tf2onnx/tflite_utils.py:306-321 (parse_tflite_string_tensor) and of the weight loading of
    tf2onnx/tfjs_utils.py:273-292, 318-354.  Bytes, slices and struct reads are those of FlexModel; a raised exception is
    [None]. *)
From Coq Require Import String ZArith List Bool.
From Verif Require Import FlexModel HandlerModel.
Import ListNotations.
Local Open Scope Z_scope.

(** struct.unpack('<i', b[off:off+4]) and '<I' *)
Definition read_i32 (buf : list Z) (off : Z) : option Z := read_int buf off 2.
Definition read_u32 (buf : list Z) (off : Z) : option Z := read_uint buf off 2.

(** tflite_utils.py:308-316: the loop over range(count) reading the offsets *)
Fixpoint read_offsets (buf : list Z) (off : Z) (n : nat) : option (list Z) :=
  match n with
  | O => Some []
  | S n' => do o <- read_i32 buf off; do l <- read_offsets buf (off + 4) n'; Some (o :: l)
  end.
(** lines 318-320: consecutive offsets delimit the strings; [decode] is bytes.decode("utf-8") *)
Fixpoint cut (buf : list Z) (offs : list Z) : list (list Z) :=
  match offs with
  | a :: ((b :: _) as rest) => slice buf a b :: cut buf rest
  | _ => []
  end.
Definition parse_string_tensor (buf : list Z) : option (list (list Z)) :=
  do count <- read_i32 buf 0;
  do offs <- read_offsets buf 4 (Z.to_nat count);
  Some (cut buf (offs ++ [len buf])).

(** tfjs_utils.py:344-354 read_string_weight: the strings and the number of bytes consumed *)
Fixpoint read_strings (buf : list Z) (j : Z) (n : nat) : option (list (list Z) * Z) :=
  match n with
  | O => Some ([], j)
  | S n' =>
      do l <- read_u32 buf j;
      do r <- read_strings buf (j + 4 + l) n';
      Some (slice buf (j + 4) (j + 4 + l) :: fst r, snd r)
  end.
Definition read_string_weight (buf : list Z) (off : Z) (n : nat) : option (list (list Z) * Z) :=
  do r <- read_strings buf off n; Some (fst r, snd r - off).

(** A weight of the manifest: name, shape and how it is stored: strings, or [itemsize] bytes per element (the dtype, or the
    quantized dtype).  The element conversions (astype, scale, min) act on each element separately and are not modelled;
    elements are kept as their bytes. *)
Inductive storage := SString | SFixed (itemsize : nat).
Record weight := Weight { wname : string; wshape : list nat; wstore : storage }.
Inductive content := CStrings (l : list (list Z)) | CFixed (l : list (list Z)).
Definition wcount (w : weight) : nat := fold_right Nat.mul 1%nat (wshape w).
(** np.frombuffer(data, dtype, count, offset): [count] consecutive elements; raises when the buffer is too short *)
Fixpoint elements (n k : nat) (bs : list Z) : list (list Z) :=
  match n with O => [] | S n' => firstn k bs :: elements n' k (skipn k bs) end.
Definition frombuffer (buf : list Z) (off : Z) (count itemsize : nat) : option (list (list Z)) :=
  if (0 <=? off) && (off + Z.of_nat (count * itemsize) <=? len buf)
  then Some (elements count itemsize (skipn (Z.to_nat off) buf)) else None.
(** line 324: np.array(list of bytes) has a fixed-width 'S' dtype, whose elements are read back without their trailing NULs *)
Fixpoint strip_nul (s : list Z) : list Z :=
  match s with
  | [] => []
  | b :: s' => match strip_nul s' with [] => if b =? 0 then [] else [b] | r => b :: r end
  end.
(** lines 318-341 read_tfjs_weight: content and number of bytes *)
Definition read_weight (w : weight) (buf : list Z) (off : Z) : option (content * Z) :=
  match wstore w with
  | SString => do r <- read_string_weight buf off (wcount w); Some (CStrings (map strip_nul (fst r)), snd r)
  | SFixed k => do l <- frombuffer buf off (wcount w) k; Some (CFixed l, Z.of_nat (wcount w * k))
  end.
(** lines 286-290 *)
Fixpoint read_all (ws : list weight) (buf : list Z) (i : Z) : option (list (string * content) * Z) :=
  match ws with
  | [] => Some ([], i)
  | w :: ws' =>
      do r <- read_weight w buf i;
      do rest <- read_all ws' buf (i + snd r);
      Some ((wname w, fst r) :: fst rest, snd rest)
  end.
(** lines 273-292: the shards of the first manifest group are joined, the weights read in order and the total checked *)
Definition load_weights (groups : list (list weight * list (list Z))) : option (list (string * content)) :=
  match groups with
  | [] => None
  | (ws, shards) :: _ =>
      let data := concat shards in
      do r <- read_all ws data 0;
      if len data =? snd r then Some (dupdate [] (fst r)) else None
  end.
