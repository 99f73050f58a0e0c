(** Conversions from and to bytes and primitive integers: src/convert.rs,
    src/primitive.rs.  Definitions only.

    A primitive integer type is given by its number of bits; its values are
    integers in the range of the type.  [None] stands for [Err(OutOfBoundsError)]. *)
From Verif Require Import Model.Base Model.Words Model.Buffer Model.UBig Model.IBig.

Section Convert.
Context {A : Arch}.

(** [to_le_bytes] of an unsigned primitive of [n] bytes. E.g. src/convert.rs:105 *)
Fixpoint prim_to_le_bytes (n : nat) (x : Z) : list Z :=
  match n with
  | O => []
  | S n => x mod 256 :: prim_to_le_bytes n (x / 256)
  end.

(** [from_le_bytes] of an unsigned primitive. E.g. src/primitive.rs:54 *)
Fixpoint prim_from_le_bytes (bytes : list Z) : Z :=
  match bytes with
  | [] => 0
  | b :: t => b + 256 * prim_from_le_bytes t
  end.

(** Big-endian versions. E.g. src/convert.rs:136 *)
Definition prim_to_be_bytes (n : nat) (x : Z) : list Z := rev (prim_to_le_bytes n x).
(** E.g. src/primitive.rs:161 *)
Definition prim_from_be_bytes (bytes : list Z) : Z := prim_from_le_bytes (rev bytes).

(** src/primitive.rs:148: WORD_BYTES *)
Definition WORD_BYTES : nat := Z.to_nat (wbits / 8).

(** src/primitive.rs:151-155 *)
Definition word_from_le_bytes_partial (bytes : list Z) : res Z :=
  check (length bytes <=? WORD_BYTES)%nat ;;
  Ok (prim_from_le_bytes (bytes ++ repeat 0 (WORD_BYTES - length bytes))).

(** src/primitive.rs:158-162 *)
Definition word_from_be_bytes_partial (bytes : list Z) : res Z :=
  check (length bytes <=? WORD_BYTES)%nat ;;
  Ok (prim_from_be_bytes (repeat 0 (WORD_BYTES - length bytes) ++ bytes)).

(** src/convert.rs:52-58: [chunks_exact] and its remainder, in order. *)
Fixpoint le_chunks (fuel : nat) (bytes : list Z) (b : Buffer) : res Buffer :=
  if (length bytes <? WORD_BYTES)%nat then
    match bytes with
    | [] => Ok b
    | _ => w <- word_from_le_bytes_partial bytes ;; push b w
    end
  else
    match fuel with
    | O => Panic Internal
    | S fuel =>
        b <- push b (prim_from_le_bytes (firstn WORD_BYTES bytes)) ;;
        le_chunks fuel (skipn WORD_BYTES bytes) b
    end.

(** src/convert.rs:49-60 *)
Definition from_le_bytes_large (bytes : list Z) : res ubig :=
  check (WORD_BYTES <? length bytes)%nat ;;
  b <- allocate (Z.of_nat ((length bytes - 1) / WORD_BYTES + 1)) ;;
  b <- le_chunks (length bytes) bytes b ;;
  from_buffer b.

(** src/convert.rs:40-47 *)
Definition from_le_bytes (bytes : list Z) : res ubig :=
  if (length bytes <=? WORD_BYTES)%nat then
    w <- word_from_le_bytes_partial bytes ;; Ok (from_word w)
  else from_le_bytes_large bytes.

(** src/convert.rs:83-89: [rchunks_exact] takes chunks from the end. *)
Fixpoint be_chunks (fuel : nat) (bytes : list Z) (b : Buffer) : res Buffer :=
  if (length bytes <? WORD_BYTES)%nat then
    match bytes with
    | [] => Ok b
    | _ => w <- word_from_be_bytes_partial bytes ;; push b w
    end
  else
    match fuel with
    | O => Panic Internal
    | S fuel =>
        b <- push b (prim_from_be_bytes (skipn (length bytes - WORD_BYTES) bytes)) ;;
        be_chunks fuel (firstn (length bytes - WORD_BYTES) bytes) b
    end.

(** src/convert.rs:80-91 *)
Definition from_be_bytes_large (bytes : list Z) : res ubig :=
  check (WORD_BYTES <? length bytes)%nat ;;
  b <- allocate (Z.of_nat ((length bytes - 1) / WORD_BYTES + 1)) ;;
  b <- be_chunks (length bytes) bytes b ;;
  from_buffer b.

(** src/convert.rs:71-78 *)
Definition from_be_bytes (bytes : list Z) : res ubig :=
  if (length bytes <=? WORD_BYTES)%nat then
    w <- word_from_be_bytes_partial bytes ;; Ok (from_word w)
  else from_be_bytes_large bytes.

(** [x.leading_zeros() as usize / 8]. E.g. src/convert.rs:106 *)
Definition skip_bytes (x : Z) : nat := Z.to_nat (leading_zeros_w x / 8).

(** src/convert.rs:102-122 *)
Definition to_le_bytes (u : ubig) : res (list Z) :=
  match u with
  | Small x => slice_to (WORD_BYTES - skip_bytes x) (prim_to_le_bytes WORD_BYTES x)
  | Large b =>
      let n := length (words b) in
      last <- get (n - 1) (words b) ;;
      init <- slice_to (n - 1) (words b) ;;
      last_bytes <- slice_to (WORD_BYTES - skip_bytes last) (prim_to_le_bytes WORD_BYTES last) ;;
      Ok (flat_map (prim_to_le_bytes WORD_BYTES) init ++ last_bytes)
  end.

(** src/convert.rs:133-153 *)
Definition to_be_bytes (u : ubig) : res (list Z) :=
  match u with
  | Small x => slice_from (skip_bytes x) (prim_to_be_bytes WORD_BYTES x)
  | Large b =>
      let n := length (words b) in
      last <- get (n - 1) (words b) ;;
      init <- slice_to (n - 1) (words b) ;;
      last_bytes <- slice_from (skip_bytes last) (prim_to_be_bytes WORD_BYTES last) ;;
      Ok (last_bytes ++ flat_map (prim_to_be_bytes WORD_BYTES) (rev init))
  end.

(** src/convert.rs:506-517; [tb] is the number of bits of the primitive type. *)
Definition ubig_from_unsigned (tb : Z) (x : Z) : res ubig :=
  if x <? B then Ok (from_word x)
  else from_le_bytes (prim_to_le_bytes (Z.to_nat (tb / 8)) x).

(** src/convert.rs:521-529 *)
Definition ubig_try_from_signed (tb : Z) (x : Z) : res (option ubig) :=
  if 0 <=? x then u <- ubig_from_unsigned tb x ;; Ok (Some u) else Ok None.

(** src/convert.rs:341-346, 422-427: From<bool> *)
Definition ubig_from_bool (b : bool) : res ubig := ubig_from_unsigned 8 (Z.b2z b).

(** [bytes[i..i + src.len()].copy_from_slice(src)]. E.g. src/primitive.rs:153 *)
Definition copy_into (i : nat) (src bytes : list Z) : res (list Z) :=
  if (i + length src <=? length bytes)%nat
  then Ok (firstn i bytes ++ src ++ skipn (i + length src) bytes)
  else Panic Internal.

(** src/convert.rs:590-593 *)
Fixpoint words_into_bytes (idx : nat) (ws bytes : list Z) : res (list Z) :=
  match ws with
  | [] => Ok bytes
  | w :: t =>
      bytes <- copy_into (idx * WORD_BYTES) (prim_to_le_bytes WORD_BYTES w) bytes ;;
      words_into_bytes (S idx) t bytes
  end.

(** src/convert.rs:576-597 *)
Definition unsigned_from_words (tb : Z) (ws : list Z) : res (option Z) :=
  check (2 <=? length ws)%nat ;;
  let t_bytes := Z.to_nat (tb / 8) in
  let t_words := (t_bytes / WORD_BYTES)%nat in
  if ((t_words <=? 1) || (t_words <? length ws))%nat then Ok None
  else
    check (tb mod wbits =? 0) ;;
    bytes <- words_into_bytes 0 ws (repeat 0 t_bytes) ;;
    Ok (Some (prim_from_le_bytes bytes)).

(** src/convert.rs:533-544 *)
Definition ubig_try_to_unsigned (tb : Z) (u : ubig) : res (option Z) :=
  match u with
  | Small w => Ok (if w <? 2 ^ tb then Some w else None)
  | Large b => unsigned_from_words tb (words b)
  end.

(** [u.try_into()] from the unsigned to the signed type of [tb] bits. E.g. src/primitive.rs:69 *)
Definition unsigned_to_signed (tb : Z) (u : Z) : option Z :=
  if u <? 2 ^ (tb - 1) then Some u else None.

(** src/convert.rs:548-559 *)
Definition ubig_try_to_signed (tb : Z) (u : ubig) : res (option Z) :=
  match u with
  | Small w => Ok (if w <? 2 ^ (tb - 1) then Some w else None)
  | Large b =>
      o <- unsigned_from_words tb (words b) ;;
      Ok (match o with Some u => unsigned_to_signed tb u | None => None end)
  end.

(** [as] casts between the unsigned and the signed type of [tb] bits. E.g. src/primitive.rs:105 *)
Definition as_unsigned (tb x : Z) : Z := x mod 2 ^ tb.
(** E.g. src/primitive.rs:119 *)
Definition as_signed (tb x : Z) : Z := if x <? 2 ^ (tb - 1) then x else x - 2 ^ tb.

(** src/primitive.rs:103-109 *)
Definition to_sign_magnitude (tb x : Z) : sign * Z :=
  if 0 <=? x then (Positive, as_unsigned tb x)
  else (Negative, (- as_unsigned tb x) mod 2 ^ tb).

(** src/primitive.rs:112-127 *)
Definition try_from_sign_magnitude (tb : Z) (s : sign) (mag : Z) : option Z :=
  match s with
  | Positive => unsigned_to_signed tb mag
  | Negative =>
      let x := as_signed tb ((- mag) mod 2 ^ tb) in
      if x <=? 0 then Some x else None
  end.

(** src/convert.rs:602-604 *)
Definition ibig_from_unsigned (tb x : Z) : res ibig :=
  u <- ubig_from_unsigned tb x ;; Ok (ibig_from_ubig u).

(** src/convert.rs:608-611 *)
Definition ibig_from_signed (tb x : Z) : res ibig :=
  let '(s, mag) := to_sign_magnitude tb x in
  u <- ubig_from_unsigned tb mag ;; Ok (from_sign_magnitude s u).

(** src/convert.rs:615-620 *)
Definition ibig_try_to_unsigned (tb : Z) (x : ibig) : res (option Z) :=
  match isign x with
  | Positive => ubig_try_to_unsigned tb (imag x)
  | Negative => Ok None
  end.

(** src/convert.rs:624-627 *)
Definition ibig_try_to_signed (tb : Z) (x : ibig) : res (option Z) :=
  o <- ubig_try_to_unsigned tb (imag x) ;;
  Ok (match o with Some u => try_from_sign_magnitude tb (isign x) u | None => None end).

(** src/convert.rs:341-346, 422-427: From<bool> *)
Definition ibig_from_bool (b : bool) : res ibig := ibig_from_unsigned 8 (Z.b2z b).

(** src/sign.rs:44-55: signum *)
Definition signum (x : ibig) : res ibig :=
  match isign x with
  | Positive =>
      if ubig_eqb (imag x) (from_word 0) then ibig_from_unsigned 8 0
      else ibig_from_unsigned 8 1
  | Negative => ibig_from_signed 8 (-1)
  end.

End Convert.
