(** Radix tables and digit characters: src/radix.rs.  Definitions only. *)
From Verif Require Import Model.Base Model.Words Model.FastDivide.

Section Radix.
Context {A : Arch}.

(** src/radix.rs:14 *)
Definition MAX_RADIX : Z := 36.

(** src/radix.rs:18-20 *)
Definition is_radix_valid (radix : Z) : bool := (2 <=? radix) && (radix <=? MAX_RADIX).

(** src/radix.rs:24-28 *)
Definition check_radix_valid (radix : Z) : res unit :=
  if is_radix_valid radix then Ok tt else Panic InvalidRadix.

(** [u32::is_power_of_two]. E.g. src/radix.rs:87 *)
Definition is_pow2 (x : Z) : bool := (0 <? x) && (Z.land x (x - 1) =? 0).

(** src/radix.rs:35-39: how much digits >= 10 are offset by in ASCII. *)
Inductive digit_case : Set := NoLetters | Lower | Upper.
Definition case_offset (c : digit_case) : Z :=
  match c with NoLetters => 0 | Lower => 97 - 48 - 10 | Upper => 65 - 48 - 10 end.

(** src/radix.rs:42-54 *)
Definition digit_from_utf8_byte (byte radix : Z) : option Z :=
  let check_digit d := if d <? radix then Some d else None in
  if (48 <=? byte) && (byte <=? 57) then check_digit (byte - 48)
  else if (97 <=? byte) && (byte <=? 122) then check_digit (byte - 97 + 10)
  else if (65 <=? byte) && (byte <=? 90) then check_digit (byte - 65 + 10)
  else None.

(** src/radix.rs:61-75 *)
Record RadixInfo := mkRadixInfo {
  digits_per_word : Z;
  range_per_word : Z;
  fast_div_radix : FastDivideSmall;
  fast_div_range_per_word : FastDivideNormalized
}.

(** src/radix.rs:97-100: the loop of [checked_mul]s. *)
Fixpoint range_loop (fuel : nat) (radix digits range : Z) : res (Z * Z) :=
  match fuel with
  | O => Panic Internal
  | S fuel =>
      if range * radix <? B then d <- usize_chk (digits + 1) ;; range_loop fuel radix d (range * radix)
      else Ok (digits, range)
  end.

(** src/radix.rs:85-110 *)
Definition for_radix (radix : Z) : res RadixInfo :=
  f <- fds_new radix ;;
  if is_pow2 radix then
    Ok (mkRadixInfo (wbits / z_tz radix) 0 f fdn_dummy)
  else
    '(digits, range) <- range_loop (S (Z.to_nat wbits)) radix 0 1 ;;
    n <- fdn_new (shl_w range (leading_zeros_w range)) ;;
    Ok (mkRadixInfo digits range f n).

(** src/radix.rs:79-82, 113-131: the table holds [for_radix radix] at [radix]
    for every valid radix; it is computed at compile time. *)
Definition radix_info (radix : Z) : res RadixInfo :=
  check is_radix_valid radix ;; for_radix radix.

(** src/radix.rs:57 *)
Definition MAX_WORD_DIGITS_NON_POW_2 : res Z :=
  ri <- for_radix 3 ;; usize_chk (digits_per_word ri + 1).

End Radix.
