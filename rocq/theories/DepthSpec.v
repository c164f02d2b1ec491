(** tf.nn.space_to_depth, tf.nn.depth_to_space and tf.reverse_sequence, from the TensorFlow documentation. *)
From Coq Require Import List Arith ZArith Bool.
From Verif Require Import Tensor FoldModel OnnxSpec.
Import ListNotations.
Local Open Scope list_scope.

Inductive format := NHWC | NCHW.
(** the element of batch n, row y, column x, channel c *)
Definition at_pixel (f : format) (n y x c : nat) : list nat := match f with NHWC => [n; y; x; c] | NCHW => [n; c; y; x] end.
(** batch, height, width, channels of a shape of rank 4, or of an index *)
Definition pixel_of (f : format) (sh : list nat) : option (nat * nat * nat * nat) :=
  match f, sh with
  | NHWC, [n; h; w; c] => Some (n, h, w, c)
  | NCHW, [n; c; h; w] => Some (n, h, w, c)
  | _, _ => None
  end.
(** blocks of b x b pixels move into the channels: the pixel (dy, dx) of a block becomes the group dy * b + dx of channels *)
Definition tf_space_to_depth {A} (f : format) (b : nat) (t : tensor A) : option (tensor A) :=
  match pixel_of f (shape t) with
  | Some (n, h, w, c) =>
      if Nat.leb 2 b && Nat.eqb (h mod b) 0 && Nat.eqb (w mod b) 0 then
        build (at_pixel f n (h / b) (w / b) (b * b * c))
              (fun ix => match pixel_of f ix with
                         | Some (i, y, x, k) => let g := k / c in get t (at_pixel f i (y * b + g / b) (x * b + g mod b) (k mod c))
                         | None => None end)
      else None
  | None => None
  end.
(** the inverse: a group of channels becomes a pixel of a block *)
Definition tf_depth_to_space {A} (f : format) (b : nat) (t : tensor A) : option (tensor A) :=
  match pixel_of f (shape t) with
  | Some (n, h, w, c) =>
      if Nat.leb 2 b && Nat.eqb (c mod (b * b)) 0 then
        let d := c / (b * b) in
        build (at_pixel f n (h * b) (w * b) d)
              (fun ix => match pixel_of f ix with
                         | Some (i, y, x, k) => get t (at_pixel f i (y / b) (x / b) ((y mod b * b + x mod b) * d + k))
                         | None => None end)
      else None
  | None => None
  end.

(** reverse_sequence: for every position i of the batch axis the first lens[i] entries of the axis seq_dim are reversed, the
    others are kept *)
Definition put {A} (k : nat) (v : A) (l : list A) : list A := firstn k l ++ v :: skipn (S k) l.
Definition tf_reverse_sequence {A} (seq_dim batch_dim : nat) (lens : list Z) (t : tensor A) : option (tensor A) :=
  let r := length (shape t) in
  if Nat.ltb seq_dim r && Nat.ltb batch_dim r && negb (Nat.eqb seq_dim batch_dim)
     && Nat.eqb (length lens) (nth batch_dim (shape t) 0)
     && forallb (fun z => Z.leb 0 z && Z.leb z (Z.of_nat (nth seq_dim (shape t) 0))) lens then
    build (shape t) (fun ix =>
      let n := Z.to_nat (nth (nth batch_dim ix 0) lens 0%Z) in
      let i := nth seq_dim ix 0 in
      get t (if Nat.ltb i n then put seq_dim (n - 1 - i) ix else ix))
  else None.

(** ONNX Scan, version 8, with the body Y = Identity(X), one scan input and the direction "reverse" (from the operator
    documentation): axis 0 is the batch, axis 1 the sequence; for batch entry b the body runs lens[b] times, from the last
    of the first lens[b] entries to the first, and its results are collected in this order; "only the first lens[b] values
    are meaningful, the remaining values have an undefined value". *)
Definition scan8_reversed {A} (lens : list Z) (x y : tensor A) : Prop :=
  length lens = nth 0 (shape x) 0 /\ shape y = shape x /\ wf y /\
  forall b i rest, inb (b :: i :: rest) (shape x) ->
    let n := Z.to_nat (nth b lens 0%Z) in
    i < n -> get y (b :: i :: rest) = get x (b :: n - 1 - i :: rest).
