(** Division by a prearranged divisor: src/fast_divide.rs.  Definitions only. *)
From Verif Require Import Model.Base Model.Words.

Section FastDivide.
Context {A : Arch}.

(** src/fast_divide.rs:14-25 *)
Record FastDivideSmall := mkFDS { fds_divisor : Z; fds_shift : Z; fds_m : Z }.

(** src/math.rs:29-33 *)
Definition ceil_log_2_word (x : Z) : res Z :=
  check negb (x =? 0) ;; Ok (bit_len_w (x - 1)).

(** src/fast_divide.rs:29-57.  [lo + 1] is checked word arithmetic. *)
Definition fds_new (divisor : Z) : res FastDivideSmall :=
  check (1 <? divisor) ;;
  n <- ceil_log_2_word divisor ;;
  d1 <- word_chk (divisor - 1) ;;
  x <- word_chk (ones_w n - d1) ;;
  let '(lo, _) := split_double_word (double_word 0 x / extend_word divisor) in
  m <- word_chk (lo + 1) ;;
  shift <- checked 32 (n - 1) ;;
  Ok (mkFDS divisor shift m).

(** src/fast_divide.rs:61-82 *)
Definition fds_div_rem (f : FastDivideSmall) (a : Z) : res (Z * Z) :=
  p <- dword_chk (extend_word (fds_m f) * extend_word a) ;;
  let '(_, t) := split_double_word p in
  x <- word_chk (a - t) ;;
  y <- word_chk (t + shr_w x 1) ;;
  let q := shr_w y (fds_shift f) in
  qd <- word_chk (q * fds_divisor f) ;;
  r <- word_chk (a - qd) ;;
  Ok (q, r).

(** src/fast_divide.rs:101-107 *)
Record FastDivideNormalized := mkFDN { fdn_divisor : Z; fdn_m : Z }.

(** src/fast_divide.rs:114-124 *)
Definition fdn_new (divisor : Z) : res FastDivideNormalized :=
  check (leading_zeros_w divisor =? 0) ;;
  let '(m, hi) := split_double_word ((B * B - 1) / extend_word divisor) in
  check (hi =? 1) ;;
  Ok (mkFDN divisor m).

(** src/fast_divide.rs:127-133 *)
Definition fdn_div_rem_word (f : FastDivideNormalized) (a : Z) : res (Z * Z) :=
  if a <? fdn_divisor f then Ok (0, a)
  else r <- word_chk (a - fdn_divisor f) ;; Ok (1, r).

(** [!x] on a [Word]. E.g. src/fast_divide.rs:194 *)
Definition not_w (x : Z) : Z := B - 1 - x.

(** src/fast_divide.rs:138-199 *)
Definition fdn_div_rem (f : FastDivideNormalized) (a : Z) : res (Z * Z) :=
  let d := fdn_divisor f in
  let '(a_lo, a_hi) := split_double_word a in
  check (a_hi <? d) ;;
  p <- dword_chk (extend_word (fdn_m f) * extend_word a_hi) ;;
  s <- dword_chk (p + a) ;;
  let '(q0, q1) := split_double_word s in
  let q := wrapping_add q1 1 in
  let r := wrapping_sub a_lo (wrapping_mul q d) in
  let '(_, decrease) := split_double_word ((extend_word q0 - extend_word r) mod (B * B)) in
  let q := wrapping_add q decrease in
  let r := wrapping_add r (Z.land decrease d) in
  let '(_, increase) := split_double_word ((extend_word r - extend_word d) mod (B * B)) in
  let increase := not_w increase in
  let q := wrapping_sub q increase in
  let r := wrapping_sub r (Z.land increase d) in
  Ok (q, r).

(** src/fast_divide.rs:85-91, 202-204 *)
Definition fds_dummy : FastDivideSmall := mkFDS 0 0 0.
Definition fdn_dummy : FastDivideNormalized := mkFDN 0 0.

End FastDivide.
