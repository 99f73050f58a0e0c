(** Formatting: src/fmt/mod.rs, src/fmt/power_two.rs, src/fmt/non_power_two.rs,
    src/fmt/digit_writer.rs, src/arch/generic/digits.rs.  Definitions only.

    Text is a list of character codes.  The text sink ([fmt::Write]) never
    reports an error; it is the list of characters written so far (sinks that
    fail are in Model/Sink.v).  The byte order of the target is a parameter, because [digits.rs] uses
    [from_ne_bytes]/[to_ne_bytes]. *)
From Verif Require Import Model.Base Model.Words Model.FastDivide Model.DivWord Model.Buffer Model.UBig Model.IBig
  Model.Convert Model.MulOps Model.DivOps Model.Gcd Model.Pow Model.Radix.

(** [core::fmt::Alignment]. E.g. src/fmt/mod.rs:318 *)
Inductive alignment : Set := AlignLeft | AlignRight | AlignCenter.

(** The options of a [core::fmt::Formatter] which the code asks for:
    [fill()], [align()], [width()], [sign_plus()], [alternate()],
    [sign_aware_zero_pad()]. E.g. src/fmt/mod.rs:298 *)
Record Formatter := mkFormatter {
  f_fill : Z;
  f_align : option alignment;
  f_width : option Z;
  f_sign_plus : bool;
  f_alternate : bool;
  f_zero_pad : bool
}.

Section Digits.
Context {A : Arch} (big_endian : bool).

(** [Word::from_ne_bytes] and [Word::to_ne_bytes]. E.g. src/arch/generic/digits.rs:11 *)
Definition word_from_ne_bytes (bytes : list Z) : Z :=
  if big_endian then prim_from_be_bytes bytes else prim_from_le_bytes bytes.
(** E.g. src/arch/generic/digits.rs:29 *)
Definition word_to_ne_bytes (w : Z) : list Z :=
  if big_endian then prim_to_be_bytes WORD_BYTES w else prim_to_le_bytes WORD_BYTES w.

(** src/arch/generic/digits.rs:4 *)
Definition DIGIT_CHUNK_LEN : nat := WORD_BYTES.

(** src/arch/generic/digits.rs:14 *)
Definition ALL_ONES : Z := (B - 1) / 255.

(** src/arch/generic/digits.rs:10-30; 118 = 0x76, 48 = b'0' *)
Definition digit_chunk_raw_to_ascii (digits : list Z) (case : digit_case) : res (list Z) :=
  check (length digits =? DIGIT_CHUNK_LEN)%nat ;;
  let word := word_from_ne_bytes digits in
  word <- match case with
          | NoLetters => Ok word
          | _ =>
              k <- word_chk (118 * ALL_ONES) ;;
              s <- word_chk (k + word) ;;
              let letters := Z.land (shr_w s 7) ALL_ONES in
              m <- word_chk (letters * case_offset case) ;;
              word_chk (word + m)
          end ;;
  k <- word_chk (ALL_ONES * 48) ;;
  word <- word_chk (word + k) ;;
  Ok (word_to_ne_bytes word).

(** src/fmt/digit_writer.rs:7 *)
Definition BUFFER_LEN_MIN : Z := 32.
(** src/fmt/digit_writer.rs:9 *)
Definition BUFFER_LEN : nat := Z.to_nat (round_up BUFFER_LEN_MIN (Z.of_nat DIGIT_CHUNK_LEN)).

(** src/fmt/digit_writer.rs:12-17; [dw_out] is what [writer] has received. *)
Record DigitWriter := mkDigitWriter {
  dw_buffer : list Z;
  dw_len : nat;
  dw_case : digit_case;
  dw_out : list Z
}.

(** src/fmt/digit_writer.rs:20-27 *)
Definition dw_new (out : list Z) (case : digit_case) : DigitWriter :=
  mkDigitWriter (repeat 0 BUFFER_LEN) 0 case out.

(** [l[i..i+src.len()].copy_from_slice(src)]. E.g. src/fmt/digit_writer.rs:35 *)
Definition copy_into (i : nat) (src l : list Z) : res (list Z) :=
  check (i + length src <=? length l)%nat ;;
  Ok (firstn i l ++ src ++ skipn (i + length src) l).

(** src/fmt/digit_writer.rs:51-55: the loop over [chunks_exact_mut] *)
Fixpoint ascii_chunks (fuel : nat) (bytes : list Z) (case : digit_case) : res (list Z) :=
  if (length bytes <? DIGIT_CHUNK_LEN)%nat then Ok bytes else
  match fuel with
  | O => Panic Internal
  | S fuel =>
      c <- digit_chunk_raw_to_ascii (firstn DIGIT_CHUNK_LEN bytes) case ;;
      t <- ascii_chunks fuel (skipn DIGIT_CHUNK_LEN bytes) case ;;
      Ok (c ++ t)
  end.

(** src/fmt/digit_writer.rs:45-62 *)
Definition dw_flush (w : DigitWriter) : res DigitWriter :=
  let rounded := Z.to_nat (round_up (Z.of_nat (dw_len w)) (Z.of_nat DIGIT_CHUNK_LEN)) in
  check (dw_len w <=? rounded)%nat ;;
  buffer <- copy_into (dw_len w) (repeat 0 (rounded - dw_len w)) (dw_buffer w) ;;
  '(head, tail) <- split_at rounded buffer ;;
  head <- ascii_chunks rounded head (dw_case w) ;;
  let buffer := head ++ tail in
  s <- slice_to (dw_len w) buffer ;;
  Ok (mkDigitWriter buffer 0 (dw_case w) (dw_out w ++ s)).

(** src/fmt/digit_writer.rs:31-41: the loop *)
Fixpoint dw_write_loop (fuel : nat) (w : DigitWriter) (buf : list Z) : res DigitWriter :=
  match buf with
  | [] => Ok w
  | _ =>
      match fuel with
      | O => Panic Internal
      | S fuel =>
          check (dw_len w <=? BUFFER_LEN)%nat ;;
          let len := Nat.min (length buf) (BUFFER_LEN - dw_len w) in
          '(buf_chunk, buf) <- split_at len buf ;;
          buffer <- copy_into (dw_len w) buf_chunk (dw_buffer w) ;;
          let w := mkDigitWriter buffer (dw_len w + len) (dw_case w) (dw_out w) in
          w <- (if (dw_len w =? BUFFER_LEN)%nat then dw_flush w else Ok w) ;;
          dw_write_loop fuel w buf
      end
  end.

(** src/fmt/digit_writer.rs:30-42 *)
Definition dw_write (w : DigitWriter) (buf : list Z) : res DigitWriter :=
  dw_write_loop (length buf) w buf.

(** A series of writes, as the [write] methods of the prepared numbers make. E.g. src/fmt/non_power_two.rs:80 *)
Fixpoint write_chunks (w : DigitWriter) (chunks : list (list Z)) : res DigitWriter :=
  match chunks with
  | [] => Ok w
  | c :: chunks => w <- dw_write w c ;; write_chunks w chunks
  end.

(** ** Power-of-two radix: src/fmt/power_two.rs *)

(** src/fmt/power_two.rs:31-35 *)
Record P2Word := mkP2Word { p2w_word : Z; p2w_log_radix : Z; p2w_width : Z }.

(** src/fmt/power_two.rs:39-49 *)
Definition p2w_new (word radix : Z) : res P2Word :=
  check is_radix_valid radix && is_pow2 radix ;;
  let log_radix := z_tz radix in
  Ok (mkP2Word word log_radix (Z.max (ceil_div (bit_len_w word) log_radix) 1)).

(** src/fmt/power_two.rs:60-63: the loop over [idx] in [idx..idx+n] *)
Fixpoint p2w_digits (n : nat) (idx : Z) (p : P2Word) (digits : list Z) : res (list Z) :=
  match n with
  | O => Ok digits
  | S n =>
      s <- checked 32 (idx * p2w_log_radix p) ;;
      check s <? wbits ;;
      let digit := (Z.land (shr_w (p2w_word p) s) (ones_w (p2w_log_radix p))) mod 256 in
      i <- usize_chk (p2w_width p - 1 - idx) ;;
      digits <- set (Z.to_nat i) digit digits ;;
      p2w_digits n (idx + 1) p digits
  end.

(** src/fmt/power_two.rs:57-65 *)
Definition p2w_write (p : P2Word) (w : DigitWriter) : res DigitWriter :=
  digits <- p2w_digits (Z.to_nat (p2w_width p)) 0 p (repeat 0 (Z.to_nat wbits)) ;;
  s <- slice_to (Z.to_nat (p2w_width p)) digits ;;
  dw_write w s.

(** src/fmt/power_two.rs:69-73 *)
Record P2Large := mkP2Large { p2l_words : list Z; p2l_log_radix : Z; p2l_width : Z }.

(** src/fmt/power_two.rs:77-94 *)
Definition p2l_new (ws : list Z) (radix : Z) : res P2Large :=
  check is_radix_valid radix && is_pow2 radix ;;
  let log_radix := z_tz radix in
  match rev ws with
  | [] => Panic Internal
  | last :: _ =>
      bits <- usize_chk (Z.of_nat (length ws) * wbits) ;;
      bits <- usize_chk (bits - leading_zeros_w last) ;;
      Ok (mkP2Large ws log_radix (Z.max (ceil_div bits log_radix) 1))
  end.

(** src/fmt/power_two.rs:110-127: the loop; [it] holds the words still to come *)
Fixpoint p2l_loop (fuel : nat) (it : list Z) (word bits log_radix : Z) (w : DigitWriter) : res DigitWriter :=
  match fuel with
  | O => Panic Internal
  | S fuel =>
      let mask := ones_w log_radix in
      if bits <? log_radix then
        match it with
        | x :: it =>
            let extra_bits := log_radix - bits in
            bits <- checked 32 (wbits - extra_bits) ;;
            check (extra_bits <? wbits) && (bits <? wbits) ;;
            let digit := (Z.land (Z.lor (shl_w word extra_bits) (shr_w x bits)) mask) mod 256 in
            w <- dw_write w [digit] ;;
            p2l_loop fuel it x bits log_radix w
        | [] => check bits =? 0 ;; Ok w
        end
      else
        let bits := bits - log_radix in
        check bits <? wbits ;;
        let digit := (Z.land (shr_w word bits) mask) mod 256 in
        w <- dw_write w [digit] ;;
        p2l_loop fuel it word bits log_radix w
  end.

(** src/fmt/power_two.rs:102-130 *)
Definition p2l_write (p : P2Large) (w : DigitWriter) : res DigitWriter :=
  match rev (p2l_words p) with
  | [] => Panic Internal
  | word :: it =>
      a <- usize_chk (p2l_width p * p2l_log_radix p) ;;
      b <- usize_chk ((Z.of_nat (length (p2l_words p)) - 1) * wbits) ;;
      d <- usize_chk (a - b) ;;
      let bits := d mod 2 ^ 32 in
      p2l_loop (S (Z.to_nat (p2l_width p))) it word bits (p2l_log_radix p) w
  end.

(** ** Other radixes: src/fmt/non_power_two.rs *)

(** src/fmt/non_power_two.rs:19 *)
Definition CHUNK_LEN : nat := 16.

(** src/fmt/non_power_two.rs:45-49 *)
Record NpWord := mkNpWord { npw_digits : list Z; npw_start : nat }.

(** src/fmt/non_power_two.rs:63-68: the loop *)
Fixpoint npw_loop (fuel : nat) (f : FastDivideSmall) (max_start : nat) (word : Z) (digits : list Z) (start : nat)
  : res NpWord :=
  if (max_start <? start)%nat || negb (word =? 0) then
    match fuel with
    | O => Panic Internal
    | S fuel =>
        '(word, d) <- fds_div_rem f word ;;
        check (0 <? start)%nat ;;
        let start := (start - 1)%nat in
        digits <- set start (d mod 256) digits ;;
        npw_loop fuel f max_start word digits start
    end
  else Ok (mkNpWord digits start).

(** src/fmt/non_power_two.rs:53-71 *)
Definition npw_new (word radix min_digits : Z) : res NpWord :=
  check is_radix_valid radix && negb (is_pow2 radix) ;;
  ri <- radix_info radix ;;
  md <- MAX_WORD_DIGITS_NON_POW_2 ;;
  max_start <- usize_chk (md - min_digits) ;;
  npw_loop (Z.to_nat md) (fast_div_radix ri) (Z.to_nat max_start) word (repeat 0 (Z.to_nat md)) (Z.to_nat md).

(** src/fmt/non_power_two.rs:75-77 *)
Definition npw_width (p : NpWord) : res Z :=
  md <- MAX_WORD_DIGITS_NON_POW_2 ;; usize_chk (md - Z.of_nat (npw_start p)).

(** src/fmt/non_power_two.rs:79-81 *)
Definition npw_write (p : NpWord) (w : DigitWriter) : res DigitWriter :=
  s <- slice_from (npw_start p) (npw_digits p) ;; dw_write w s.

(** src/fmt/non_power_two.rs:277-283.  Only the part [..buffer_len] of the array
    is kept: the rest is never read. *)
Definition ubig_to_chunk_buffer (x : ubig) : res (list Z) :=
  let ws := as_words x in
  check (length ws <=? CHUNK_LEN)%nat ;;
  Ok ws.

(** src/fmt/non_power_two.rs:86-92; [low_groups] is [low_groups[..num_low_groups]] *)
Record NpMedium := mkNpMedium { npm_top : NpWord; npm_low : list Z; npm_radix : Z }.

(** src/fmt/non_power_two.rs:105-117: the loop *)
Fixpoint npm_loop (fuel : nat) (ri : RadixInfo) (buffer low_groups : list Z) : res (list Z * list Z) :=
  if (1 <? length buffer)%nat then
    match fuel with
    | O => Panic Internal
    | S fuel =>
        '(buffer, rem) <- fast_div_by_word_in_place buffer (range_per_word ri) (fast_div_range_per_word ri) ;;
        check (length low_groups <? CHUNK_LEN)%nat ;;
        let low_groups := low_groups ++ [rem] in
        (* lines 114-116; [drop_zeros] works on the reversed words *)
        let buffer := rev (drop_zeros (rev buffer)) in
        (* [buffer[buffer_len - 1]] panics when all words are zero *)
        check (0 <? length buffer)%nat ;;
        npm_loop fuel ri buffer low_groups
    end
  else Ok (buffer, low_groups).

(** src/fmt/non_power_two.rs:96-125 *)
Definition npm_new (number : ubig) (radix : Z) : res NpMedium :=
  check is_radix_valid radix && negb (is_pow2 radix) ;;
  ri <- radix_info radix ;;
  buffer <- ubig_to_chunk_buffer number ;;
  '(buffer, low_groups) <- npm_loop (S CHUNK_LEN) ri buffer [] ;;
  match buffer with
  | [w] => top <- npw_new w radix 1 ;; Ok (mkNpMedium top low_groups radix)
  | _ => Panic Internal
  end.

(** src/fmt/non_power_two.rs:129-132 *)
Definition npm_width (p : NpMedium) : res Z :=
  ri <- radix_info (npm_radix p) ;;
  t <- npw_width (npm_top p) ;;
  l <- usize_chk (Z.of_nat (length (npm_low p)) * digits_per_word ri) ;;
  usize_chk (t + l).

(** src/fmt/non_power_two.rs:139-143 and 247-250: write words as groups of
    [digits_per_word] digits *)
Fixpoint write_groups (groups : list Z) (radix dpw : Z) (w : DigitWriter) : res DigitWriter :=
  match groups with
  | [] => Ok w
  | g :: t =>
      p <- npw_new g radix dpw ;;
      w <- npw_write p w ;;
      write_groups t radix dpw w
  end.

(** src/fmt/non_power_two.rs:134-145 *)
Definition npm_write (p : NpMedium) (w : DigitWriter) : res DigitWriter :=
  ri <- radix_info (npm_radix p) ;;
  w <- npw_write (npm_top p) w ;;
  write_groups (rev (npm_low p)) (npm_radix p) (digits_per_word ri) w.

(** src/fmt/non_power_two.rs:149-157 *)
Record NpLarge := mkNpLarge {
  npl_top : NpMedium;
  npl_powers : list ubig;
  npl_chunks : list (nat * ubig);
  npl_radix : Z
}.

(** src/fmt/non_power_two.rs:178-192: the loop; [prev] is the last of [powers] *)
Fixpoint npl_powers_loop (fuel : nat) (number prev : ubig) (powers : list ubig) : res (list ubig) :=
  match fuel with
  | O => Panic Internal
  | S fuel =>
      d <- usize_chk (2 * ulen prev) ;;
      d <- usize_chk (d - 1) ;;
      if ulen number <? d then Ok powers else
      new <- ubig_mul_rr prev prev ;;
      gt <- ubig_lt number new ;;
      if gt then Ok powers else npl_powers_loop fuel number new (powers ++ [new])
  end.

(** src/fmt/non_power_two.rs:201-207: the loop; [powers] is what remains of
    [radix_powers] in reverse order *)
Fixpoint npl_split (powers : list ubig) (x : ubig) (chunks : list (nat * ubig)) : res (ubig * list (nat * ubig)) :=
  match powers with
  | [] => Ok (x, chunks)
  | p :: powers =>
      ge <- ubig_le p x ;;
      if ge then
        '(q, r) <- ubig_div_rem_vr x p ;;
        npl_split powers q (chunks ++ [(length powers, r)])
      else npl_split powers x chunks
  end.

(** src/fmt/non_power_two.rs:161-215 *)
Definition npl_new (number : ubig) (radix : Z) : res NpLarge :=
  check is_radix_valid radix && negb (is_pow2 radix) ;;
  ri <- radix_info radix ;;
  chunk_power <- ubig_pow (from_word (range_per_word ri)) (Z.of_nat CHUNK_LEN) ;;
  gt <- ubig_lt number chunk_power ;;
  if gt then
    top <- npm_new number radix ;; Ok (mkNpLarge top [] [] radix)
  else
    powers <- npl_powers_loop (S (length (as_words number))) number chunk_power [chunk_power] ;;
    match rev powers with
    | [] => Panic Internal
    | p :: rest =>
        '(q, r) <- ubig_div_rem_rr number p ;;
        '(x, chunks) <- npl_split rest q [(length rest, r)] ;;
        top <- npm_new x radix ;;
        Ok (mkNpLarge top powers chunks radix)
    end.

(** src/fmt/non_power_two.rs:235-244: the loop over [groups] *)
Fixpoint chunk_groups (n : nat) (ri : RadixInfo) (buffer : list Z) : res (list Z * list Z) :=
  match n with
  | O => Ok ([], buffer)
  | S n =>
      '(buffer, g) <- fast_div_by_word_in_place buffer (range_per_word ri) (fast_div_range_per_word ri) ;;
      let buffer := rev (drop_zeros (rev buffer)) in
      '(gs, buffer) <- chunk_groups n ri buffer ;;
      Ok (g :: gs, buffer)
  end.

(** src/fmt/non_power_two.rs:229-253 *)
Definition npl_write_chunk (radix : Z) (w : DigitWriter) (x : ubig) : res DigitWriter :=
  ri <- radix_info radix ;;
  buffer <- ubig_to_chunk_buffer x ;;
  '(groups, buffer) <- chunk_groups CHUNK_LEN ri buffer ;;
  check (length buffer =? 0)%nat ;;
  write_groups (rev groups) radix (digits_per_word ri) w.

(** src/fmt/non_power_two.rs:218-226 *)
Fixpoint npl_write_big_chunk (powers : list ubig) (radix : Z) (w : DigitWriter) (i : nat) (x : ubig) : res DigitWriter :=
  match i with
  | O => npl_write_chunk radix w x
  | S i =>
      p <- get i powers ;;
      '(q, r) <- ubig_div_rem_vr x p ;;
      w <- npl_write_big_chunk powers radix w i q ;;
      npl_write_big_chunk powers radix w i r
  end.

(** [(digits_per_word * CHUNK_LEN) << i] on usize: the shift amount must be
    smaller than the width of the type, bits shifted out are lost. E.g. src/fmt/non_power_two.rs:261 *)
Definition chunk_digits (dpw : Z) (i : nat) : res Z :=
  n <- usize_chk (dpw * Z.of_nat CHUNK_LEN) ;;
  check Z.of_nat i <? ubits ;;
  Ok ((Z.shiftl n (Z.of_nat i)) mod 2 ^ ubits).

(** src/fmt/non_power_two.rs:257-264 *)
Fixpoint npl_width_loop (chunks : list (nat * ubig)) (dpw num_digits : Z) : res Z :=
  match chunks with
  | [] => Ok num_digits
  | (i, _) :: t =>
      d <- chunk_digits dpw i ;;
      n <- usize_chk (num_digits + d) ;;
      npl_width_loop t dpw n
  end.
Definition npl_width (p : NpLarge) : res Z :=
  n <- npm_width (npl_top p) ;;
  ri <- radix_info (npl_radix p) ;;
  npl_width_loop (npl_chunks p) (digits_per_word ri) n.

(** src/fmt/non_power_two.rs:270-272: the loop *)
Fixpoint npl_write_loop (powers : list ubig) (radix : Z) (chunks : list (nat * ubig)) (w : DigitWriter) : res DigitWriter :=
  match chunks with
  | [] => Ok w
  | (i, x) :: t =>
      w <- npl_write_big_chunk powers radix w i x ;;
      npl_write_loop powers radix t w
  end.

(** src/fmt/non_power_two.rs:266-274 *)
Definition npl_write (p : NpLarge) (w : DigitWriter) : res DigitWriter :=
  w <- npm_write (npl_top p) w ;;
  npl_write_loop (npl_powers p) (npl_radix p) (rev (npl_chunks p)) w.

(** ** src/fmt/mod.rs *)

(** src/fmt/mod.rs:234-240 *)
Record InRadixFull := mkInRadixFull {
  irf_sign : sign;
  irf_magnitude : ubig;
  irf_radix : Z;
  irf_prefix : list Z;
  irf_case : digit_case
}.

(** src/fmt/mod.rs:290-294: the closure [write_digits]; [out] is what the
    formatter has received so far *)
Definition write_digits (self : InRadixFull) (write : DigitWriter -> res DigitWriter) (out : list Z) : res (list Z) :=
  w <- write (dw_new out (irf_case self)) ;;
  w <- dw_flush w ;;
  Ok (dw_out w).

(** src/fmt/mod.rs:273-337; [width] and [write] are the methods of [prepared];
    43 = '+', 45 = '-', 48 = '0' *)
Definition format_prepared (self : InRadixFull) (f : Formatter) (width : res Z)
  (write : DigitWriter -> res DigitWriter) : res (list Z) :=
  width <- width ;;
  let sgn := match irf_sign self with
             | Negative => [45]
             | Positive => if f_sign_plus f then [43] else []
             end in
  n <- usize_chk (Z.of_nat (length sgn) + Z.of_nat (length (irf_prefix self))) ;;
  width <- usize_chk (width + n) ;;
  match f_width f with
  | None => write_digits self write (sgn ++ irf_prefix self)
  | Some min_width =>
      if min_width <=? width then write_digits self write (sgn ++ irf_prefix self)
      else
        let pad := min_width - width in
        if f_zero_pad f then
          write_digits self write (sgn ++ irf_prefix self ++ repeat 48 (Z.to_nat pad))
        else
          let left := match f_align f with
                      | Some AlignLeft => 0
                      | Some AlignRight | None => pad
                      | Some AlignCenter => pad / 2
                      end in
          out <- write_digits self write (repeat (f_fill f) (Z.to_nat left) ++ sgn ++ irf_prefix self) ;;
          Ok (out ++ repeat (f_fill f) (Z.to_nat (pad - left)))
  end.

(** src/fmt/power_two.rs:15-27 *)
Definition fmt_power_two (self : InRadixFull) (f : Formatter) : res (list Z) :=
  check is_radix_valid (irf_radix self) && is_pow2 (irf_radix self) ;;
  match irf_magnitude self with
  | Small word =>
      p <- p2w_new word (irf_radix self) ;;
      format_prepared self f (Ok (p2w_width p)) (p2w_write p)
  | Large buffer =>
      p <- p2l_new (words buffer) (irf_radix self) ;;
      format_prepared self f (Ok (p2l_width p)) (p2l_write p)
  end.

(** src/fmt/non_power_two.rs:22-41 *)
Definition fmt_non_power_two (self : InRadixFull) (f : Formatter) : res (list Z) :=
  check is_radix_valid (irf_radix self) && negb (is_pow2 (irf_radix self)) ;;
  match irf_magnitude self with
  | Small word =>
      p <- npw_new word (irf_radix self) 1 ;;
      format_prepared self f (npw_width p) (npw_write p)
  | Large buffer =>
      ri <- radix_info (irf_radix self) ;;
      d <- usize_chk (digits_per_word ri + 1) ;;
      max_digits <- usize_chk (blen buffer * d) ;;
      lim <- usize_chk (Z.of_nat CHUNK_LEN * digits_per_word ri) ;;
      if max_digits <=? lim then
        p <- npm_new (irf_magnitude self) (irf_radix self) ;;
        format_prepared self f (npm_width p) (npm_write p)
      else
        p <- npl_new (irf_magnitude self) (irf_radix self) ;;
        format_prepared self f (npl_width p) (npl_write p)
  end.

(** src/fmt/mod.rs:264-270 *)
Definition fmt_full (self : InRadixFull) (f : Formatter) : res (list Z) :=
  if is_pow2 (irf_radix self) then fmt_power_two self f else fmt_non_power_two self f.

(** src/fmt/mod.rs:18-29 *)
Definition ubig_display (u : ubig) (f : Formatter) : res (list Z) :=
  fmt_full (mkInRadixFull Positive u 10 [] NoLetters) f.

(** src/fmt/mod.rs:31-35 *)
Definition ubig_debug (u : ubig) (f : Formatter) : res (list Z) := ubig_display u f.

(** src/fmt/mod.rs:37-48; 48 98 = "0b" *)
Definition ubig_binary (u : ubig) (f : Formatter) : res (list Z) :=
  fmt_full (mkInRadixFull Positive u 2 (if f_alternate f then [48; 98] else []) NoLetters) f.

(** src/fmt/mod.rs:50-61; 48 111 = "0o" *)
Definition ubig_octal (u : ubig) (f : Formatter) : res (list Z) :=
  fmt_full (mkInRadixFull Positive u 8 (if f_alternate f then [48; 111] else []) NoLetters) f.

(** src/fmt/mod.rs:63-74; 48 120 = "0x" *)
Definition ubig_lower_hex (u : ubig) (f : Formatter) : res (list Z) :=
  fmt_full (mkInRadixFull Positive u 16 (if f_alternate f then [48; 120] else []) Lower) f.

(** src/fmt/mod.rs:76-87 *)
Definition ubig_upper_hex (u : ubig) (f : Formatter) : res (list Z) :=
  fmt_full (mkInRadixFull Positive u 16 (if f_alternate f then [48; 120] else []) Upper) f.

(** src/fmt/mod.rs:89-100 *)
Definition ibig_display (x : ibig) (f : Formatter) : res (list Z) :=
  fmt_full (mkInRadixFull (isign x) (imag x) 10 [] NoLetters) f.

(** src/fmt/mod.rs:102-106 *)
Definition ibig_debug (x : ibig) (f : Formatter) : res (list Z) := ibig_display x f.

(** src/fmt/mod.rs:108-119 *)
Definition ibig_binary (x : ibig) (f : Formatter) : res (list Z) :=
  fmt_full (mkInRadixFull (isign x) (imag x) 2 (if f_alternate f then [48; 98] else []) NoLetters) f.

(** src/fmt/mod.rs:121-132 *)
Definition ibig_octal (x : ibig) (f : Formatter) : res (list Z) :=
  fmt_full (mkInRadixFull (isign x) (imag x) 8 (if f_alternate f then [48; 111] else []) NoLetters) f.

(** src/fmt/mod.rs:134-145 *)
Definition ibig_lower_hex (x : ibig) (f : Formatter) : res (list Z) :=
  fmt_full (mkInRadixFull (isign x) (imag x) 16 (if f_alternate f then [48; 120] else []) Lower) f.

(** src/fmt/mod.rs:147-158 *)
Definition ibig_upper_hex (x : ibig) (f : Formatter) : res (list Z) :=
  fmt_full (mkInRadixFull (isign x) (imag x) 16 (if f_alternate f then [48; 120] else []) Upper) f.

(** src/fmt/mod.rs:227-231 *)
Record InRadix := mkInRadix { ir_sign : sign; ir_magnitude : ubig; ir_radix : Z }.

(** src/fmt/mod.rs:175-182 *)
Definition ubig_in_radix (u : ubig) (radix : Z) : res InRadix :=
  _ <- check_radix_valid radix ;; Ok (mkInRadix Positive u radix).

(** src/fmt/mod.rs:200-207 *)
Definition ibig_in_radix (x : ibig) (radix : Z) : res InRadix :=
  _ <- check_radix_valid radix ;; Ok (mkInRadix (isign x) (imag x) radix).

(** src/fmt/mod.rs:243-260 *)
Definition in_radix_display (r : InRadix) (f : Formatter) : res (list Z) :=
  let case := if ir_radix r <=? 10 then NoLetters else if f_alternate f then Upper else Lower in
  fmt_full (mkInRadixFull (ir_sign r) (ir_magnitude r) (ir_radix r) [] case) f.

(** Formatting [x.in_radix(radix)]. E.g. src/fmt/mod.rs:242 *)
Definition ubig_in_radix_text (u : ubig) (radix : Z) (f : Formatter) : res (list Z) :=
  r <- ubig_in_radix u radix ;; in_radix_display r f.
(** E.g. src/fmt/mod.rs:242 *)
Definition ibig_in_radix_text (x : ibig) (radix : Z) (f : Formatter) : res (list Z) :=
  r <- ibig_in_radix x radix ;; in_radix_display r f.

End Digits.
