(** Primitive word operations (src/primitive.rs, src/math.rs, core integer
    methods).  Definitions only. *)
From Verif Require Import Model.Base.

Section Words.
Context {A : Arch}.

(** [overflowing_add] / [overflowing_sub] on [Word]. E.g. src/arch/generic/add.rs:8 *)
Definition overflowing_add (a b : Z) : Z * bool := ((a + b) mod B, B <=? a + b).
(** E.g. src/arch/generic/add.rs:18 *)
Definition overflowing_sub (a b : Z) : Z * bool := ((a - b) mod B, a <? b).
(** E.g. src/fast_divide.rs:149 *)
Definition wrapping_add (a b : Z) : Z := (a + b) mod B.
(** E.g. src/fast_divide.rs:150 *)
Definition wrapping_sub (a b : Z) : Z := (a - b) mod B.
(** E.g. src/fast_divide.rs:150 *)
Definition wrapping_mul (a b : Z) : Z := (a * b) mod B.

(** src/primitive.rs:15-18.  [word as DoubleWord] keeps the value. *)
Definition extend_word (w : Z) : Z := w.

(** src/primitive.rs:21-24 *)
Definition double_word (low high : Z) : Z :=
  Z.lor (extend_word low) (Z.shiftl (extend_word high) wbits).

(** src/primitive.rs:26-29: [dw as Word] truncates. *)
Definition split_double_word (dw : Z) : Z * Z :=
  (dw mod B, (Z.shiftr dw wbits) mod B).

(** [<<] on a [Word] / [DoubleWord] by [s] < width: bits shifted out are lost. E.g. src/bits.rs:33 *)
Definition shl_w (w s : Z) : Z := (Z.shiftl w s) mod B.
(** E.g. src/shift.rs:17 *)
Definition shl_dw (w s : Z) : Z := (Z.shiftl w s) mod (B * B).
(** E.g. src/shift.rs:33 *)
Definition shr_w (w s : Z) : Z := Z.shiftr w s.

(** [trailing_zeros] of a [Word] value ([WORD_BITS] for 0). E.g. src/bits.rs:138 *)
Fixpoint pos_tz (p : positive) : Z :=
  match p with
  | xO q => 1 + pos_tz q
  | _ => 0
  end.
(** E.g. src/bits.rs:138 *)
Definition z_tz (z : Z) : Z :=
  match z with
  | Zpos p => pos_tz p
  | Zneg p => pos_tz p
  | Z0 => 0
  end.
(** E.g. src/bits.rs:138 *)
Definition trailing_zeros_w (w : Z) : Z := if w =? 0 then wbits else z_tz w.

(** Position of the highest set bit plus one, 0 for 0. E.g. src/math.rs:9 *)
Definition bitlen (z : Z) : Z := if z =? 0 then 0 else Z.log2 z + 1.

(** [leading_zeros] of an [n]-bit unsigned value. E.g. src/math.rs:9 *)
Definition leading_zeros_n (n w : Z) : Z := n - bitlen w.
(** E.g. src/bits.rs:182 *)
Definition leading_zeros_w (w : Z) : Z := leading_zeros_n wbits w.

(** src/math.rs:7-17 *)
Definition bit_len_n (n x : Z) : Z := n - leading_zeros_n n x.
Definition bit_len_w (x : Z) : Z := bit_len_n wbits x.

(** src/math.rs:19-33.  [x] must be non-zero. *)
Definition ceil_log_2 (n x : Z) : Z := bit_len_n n (x - 1).

(** src/math.rs:35-53 *)
Definition ceil_div (a b : Z) : Z := if a =? 0 then 0 else (a - 1) / b + 1.

(** src/math.rs:55-65 *)
Definition round_up (a b : Z) : Z := ceil_div a b * b.

(** src/math.rs:67-88: [ones::<T>(n)] for an [bits]-bit type. *)
Definition ones_n (bits n : Z) : Z :=
  if n =? 0 then 0 else Z.shiftr (2 ^ bits - 1) (bits - n).
Definition ones_w (n : Z) : Z := ones_n wbits n.

End Words.
