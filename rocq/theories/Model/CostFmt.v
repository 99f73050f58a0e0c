(** Counting what formatting does: src/fmt/*.rs again, with the counter of Model/Cost.v.
    Definitions only.

    Besides the words of the numbers, digits and characters are counted: one for each
    that a loop can visit and one for each character given to the sink.  Pushing an element
    to one of the vectors of numbers is free; so are the fixed number of operations on
    single words, as everywhere. *)
From Verif Require Import Model.Base Model.Words Model.FastDivide Model.DivWord Model.Buffer Model.UBig Model.IBig
  Model.Convert Model.MulOps Model.DivOps Model.Gcd Model.Pow Model.Radix Model.Fmt Model.Cost Model.CostDiv Model.CostOps.

Section CostFmt.
Context {A : Arch} (big_endian : bool).

(** ** src/fmt/digit_writer.rs *)

(** src/fmt/digit_writer.rs:45-62: the buffer is filled up with zeros, converted and written. *)
Definition c_dw_flush (w : DigitWriter) : counted DigitWriter :=
  call (3 * Z.to_nat (round_up (Z.of_nat (dw_len w)) (Z.of_nat DIGIT_CHUNK_LEN))) (dw_flush big_endian w).

(** src/fmt/digit_writer.rs:31-41: the loop *)
Fixpoint c_dw_write_loop (fuel : nat) (w : DigitWriter) (buf : list Z) : counted DigitWriter :=
  match buf with
  | [] => free (Ok w)
  | _ =>
      match fuel with
      | O => free (Panic Internal)
      | S fuel =>
          ensure (dw_len w <=? BUFFER_LEN)%nat ;;
          let len := Nat.min (length buf) (BUFFER_LEN - dw_len w) in
          '(buf_chunk, buf) <+ free (split_at len buf) ;;
          buffer <+ call len (copy_into (dw_len w) buf_chunk (dw_buffer w)) ;;
          let w := mkDigitWriter buffer (dw_len w + len) (dw_case w) (dw_out w) in
          w <+ (if (dw_len w =? BUFFER_LEN)%nat then c_dw_flush w else free (Ok w)) ;;
          c_dw_write_loop fuel w buf
      end
  end.

(** src/fmt/digit_writer.rs:30-42 *)
Definition c_dw_write (w : DigitWriter) (buf : list Z) : counted DigitWriter :=
  c_dw_write_loop (length buf) w buf.

(** ** src/fmt/power_two.rs *)

(** src/fmt/power_two.rs:57-65: an array of [WORD_BITS] digits is cleared and filled. *)
Definition c_p2w_write (p : P2Word) (w : DigitWriter) : counted DigitWriter :=
  digits <+ call (2 * Z.to_nat wbits) (p2w_digits (Z.to_nat (p2w_width p)) 0 p (repeat 0 (Z.to_nat wbits))) ;;
  s <+ free (slice_to (Z.to_nat (p2w_width p)) digits) ;;
  c_dw_write w s.

(** src/fmt/power_two.rs:110-127: the loop *)
Fixpoint c_p2l_loop (fuel : nat) (it : list Z) (word bits log_radix : Z) (w : DigitWriter) : counted DigitWriter :=
  match fuel with
  | O => free (Panic Internal)
  | S fuel =>
      let mask := ones_w log_radix in
      if bits <? log_radix then
        match it with
        | x :: it =>
            let extra_bits := log_radix - bits in
            bits <+ free (checked 32 (wbits - extra_bits)) ;;
            ensure (extra_bits <? wbits) && (bits <? wbits) ;;
            let digit := (Z.land (Z.lor (shl_w word extra_bits) (shr_w x bits)) mask) mod 256 in
            w <+ c_dw_write w [digit] ;;
            c_p2l_loop fuel it x bits log_radix w
        | [] => ensure bits =? 0 ;; free (Ok w)
        end
      else
        let bits := bits - log_radix in
        ensure bits <? wbits ;;
        let digit := (Z.land (shr_w word bits) mask) mod 256 in
        w <+ c_dw_write w [digit] ;;
        c_p2l_loop fuel it word bits log_radix w
  end.

(** src/fmt/power_two.rs:102-130 *)
Definition c_p2l_write (p : P2Large) (w : DigitWriter) : counted DigitWriter :=
  match rev (p2l_words p) with
  | [] => free (Panic Internal)
  | word :: it =>
      a <+ free (usize_chk (p2l_width p * p2l_log_radix p)) ;;
      b <+ free (usize_chk ((Z.of_nat (length (p2l_words p)) - 1) * wbits)) ;;
      d <+ free (usize_chk (a - b)) ;;
      let bits := d mod 2 ^ 32 in
      c_p2l_loop (S (Z.to_nat (p2l_width p))) it word bits (p2l_log_radix p) w
  end.

(** ** src/fmt/non_power_two.rs *)

(** src/fmt/non_power_two.rs:53-71: an array of [MAX_WORD_DIGITS_NON_POW_2] digits is
    cleared and filled. *)
Definition c_npw_new (word radix min_digits : Z) : counted NpWord :=
  ensure is_radix_valid radix && negb (is_pow2 radix) ;;
  ri <+ free (radix_info radix) ;;
  md <+ free MAX_WORD_DIGITS_NON_POW_2 ;;
  max_start <+ free (usize_chk (md - min_digits)) ;;
  call (2 * Z.to_nat md)
    (npw_loop (Z.to_nat md) (fast_div_radix ri) (Z.to_nat max_start) word (repeat 0 (Z.to_nat md)) (Z.to_nat md)).

(** src/fmt/non_power_two.rs:79-81 *)
Definition c_npw_write (p : NpWord) (w : DigitWriter) : counted DigitWriter :=
  s <+ free (slice_from (npw_start p) (npw_digits p)) ;; c_dw_write w s.

(** src/fmt/non_power_two.rs:277-283: an array of [CHUNK_LEN] words is cleared and filled. *)
Definition c_ubig_to_chunk_buffer (x : ubig) : counted (list Z) :=
  call (2 * CHUNK_LEN) (ubig_to_chunk_buffer x).

(** src/fmt/non_power_two.rs:105-117: the loop; a division by a word shifts and divides. *)
Fixpoint c_npm_loop (fuel : nat) (ri : RadixInfo) (buffer low_groups : list Z) : counted (list Z * list Z) :=
  if (1 <? length buffer)%nat then
    match fuel with
    | O => free (Panic Internal)
    | S fuel =>
        '(buffer, rem) <+ call (2 * length buffer)
           (fast_div_by_word_in_place buffer (range_per_word ri) (fast_div_range_per_word ri)) ;;
        ensure (length low_groups <? CHUNK_LEN)%nat ;;
        let low_groups := low_groups ++ [rem] in
        buffer <+ call (length buffer) (Ok (rev (drop_zeros (rev buffer)))) ;;
        ensure (0 <? length buffer)%nat ;;
        c_npm_loop fuel ri buffer low_groups
    end
  else free (Ok (buffer, low_groups)).

(** src/fmt/non_power_two.rs:96-125 *)
Definition c_npm_new (number : ubig) (radix : Z) : counted NpMedium :=
  ensure is_radix_valid radix && negb (is_pow2 radix) ;;
  ri <+ free (radix_info radix) ;;
  buffer <+ c_ubig_to_chunk_buffer number ;;
  '(buffer, low_groups) <+ c_npm_loop (S CHUNK_LEN) ri buffer [] ;;
  match buffer with
  | [w] => top <+ c_npw_new w radix 1 ;; free (Ok (mkNpMedium top low_groups radix))
  | _ => free (Panic Internal)
  end.

(** src/fmt/non_power_two.rs:139-143 and 247-250 *)
Fixpoint c_write_groups (groups : list Z) (radix dpw : Z) (w : DigitWriter) : counted DigitWriter :=
  match groups with
  | [] => free (Ok w)
  | g :: t =>
      p <+ c_npw_new g radix dpw ;;
      w <+ c_npw_write p w ;;
      c_write_groups t radix dpw w
  end.

(** src/fmt/non_power_two.rs:134-145 *)
Definition c_npm_write (p : NpMedium) (w : DigitWriter) : counted DigitWriter :=
  ri <+ free (radix_info (npm_radix p)) ;;
  w <+ c_npw_write (npm_top p) w ;;
  c_write_groups (rev (npm_low p)) (npm_radix p) (digits_per_word ri) w.

(** src/cmp.rs:22-31: words are only compared when there are equally many. *)
Definition c_ubig_lt (x y : ubig) : counted bool :=
  call (Nat.min (length (as_words x)) (length (as_words y))) (ubig_lt x y).
(** src/cmp.rs:22-31 *)
Definition c_ubig_le (x y : ubig) : counted bool :=
  call (Nat.min (length (as_words x)) (length (as_words y))) (ubig_le x y).

(** src/fmt/non_power_two.rs:178-192: the loop *)
Fixpoint c_npl_powers_loop (fuel : nat) (number prev : ubig) (powers : list ubig) : counted (list ubig) :=
  match fuel with
  | O => free (Panic Internal)
  | S fuel =>
      d <+ free (usize_chk (2 * ulen prev)) ;;
      d <+ free (usize_chk (d - 1)) ;;
      if ulen number <? d then free (Ok powers) else
      new <+ c_ubig_mul_rr prev prev ;;
      gt <+ c_ubig_lt number new ;;
      if gt : bool then free (Ok powers) else c_npl_powers_loop fuel number new (powers ++ [new])
  end.

(** src/fmt/non_power_two.rs:201-207: the loop *)
Fixpoint c_npl_split (powers : list ubig) (x : ubig) (chunks : list (nat * ubig)) : counted (ubig * list (nat * ubig)) :=
  match powers with
  | [] => free (Ok (x, chunks))
  | p :: powers =>
      ge <+ c_ubig_le p x ;;
      if ge : bool then
        '(q, r) <+ c_ubig_div_rem_vr x p ;;
        c_npl_split powers q (chunks ++ [(length powers, r)])
      else c_npl_split powers x chunks
  end.

(** src/fmt/non_power_two.rs:161-215 *)
Definition c_npl_new (number : ubig) (radix : Z) : counted NpLarge :=
  ensure is_radix_valid radix && negb (is_pow2 radix) ;;
  ri <+ free (radix_info radix) ;;
  chunk_power <+ c_ubig_pow (from_word (range_per_word ri)) (Z.of_nat CHUNK_LEN) ;;
  gt <+ c_ubig_lt number chunk_power ;;
  if gt : bool then
    top <+ c_npm_new number radix ;; free (Ok (mkNpLarge top [] [] radix))
  else
    powers <+ c_npl_powers_loop (S (length (as_words number))) number chunk_power [chunk_power] ;;
    match rev powers with
    | [] => free (Panic Internal)
    | p :: rest =>
        '(q, r) <+ c_ubig_div_rem_rr number p ;;
        '(x, chunks) <+ c_npl_split rest q [(length rest, r)] ;;
        top <+ c_npm_new x radix ;;
        free (Ok (mkNpLarge top powers chunks radix))
    end.

(** src/fmt/non_power_two.rs:235-244: the loop over [groups] *)
Fixpoint c_chunk_groups (n : nat) (ri : RadixInfo) (buffer : list Z) : counted (list Z * list Z) :=
  match n with
  | O => free (Ok ([], buffer))
  | S n =>
      '(buffer, g) <+ call (2 * length buffer)
         (fast_div_by_word_in_place buffer (range_per_word ri) (fast_div_range_per_word ri)) ;;
      buffer <+ call (length buffer) (Ok (rev (drop_zeros (rev buffer)))) ;;
      '(gs, buffer) <+ c_chunk_groups n ri buffer ;;
      free (Ok (g :: gs, buffer))
  end.

(** src/fmt/non_power_two.rs:229-253 *)
Definition c_npl_write_chunk (radix : Z) (w : DigitWriter) (x : ubig) : counted DigitWriter :=
  ri <+ free (radix_info radix) ;;
  buffer <+ c_ubig_to_chunk_buffer x ;;
  '(groups, buffer) <+ c_chunk_groups CHUNK_LEN ri buffer ;;
  ensure (length buffer =? 0)%nat ;;
  c_write_groups (rev groups) radix (digits_per_word ri) w.

(** src/fmt/non_power_two.rs:218-226 *)
Fixpoint c_npl_write_big_chunk (powers : list ubig) (radix : Z) (w : DigitWriter) (i : nat) (x : ubig) : counted DigitWriter :=
  match i with
  | O => c_npl_write_chunk radix w x
  | S i =>
      p <+ free (get i powers) ;;
      '(q, r) <+ c_ubig_div_rem_vr x p ;;
      w <+ c_npl_write_big_chunk powers radix w i q ;;
      c_npl_write_big_chunk powers radix w i r
  end.

(** src/fmt/non_power_two.rs:257-264 *)
Definition c_npl_width (p : NpLarge) : counted Z := call (length (npl_chunks p)) (npl_width p).

(** src/fmt/non_power_two.rs:270-272: the loop *)
Fixpoint c_npl_write_loop (powers : list ubig) (radix : Z) (chunks : list (nat * ubig)) (w : DigitWriter) : counted DigitWriter :=
  match chunks with
  | [] => free (Ok w)
  | (i, x) :: t =>
      w <+ c_npl_write_big_chunk powers radix w i x ;;
      c_npl_write_loop powers radix t w
  end.

(** src/fmt/non_power_two.rs:266-274 *)
Definition c_npl_write (p : NpLarge) (w : DigitWriter) : counted DigitWriter :=
  w <+ c_npm_write (npl_top p) w ;;
  c_npl_write_loop (npl_powers p) (npl_radix p) (rev (npl_chunks p)) w.

(** ** src/fmt/mod.rs *)

(** src/fmt/mod.rs:290-294: what has been written before and a new buffer of digits are charged here. *)
Definition c_write_digits (self : InRadixFull) (write : DigitWriter -> counted DigitWriter) (out : list Z) : counted (list Z) :=
  w <+ call (length out + BUFFER_LEN) (Ok (dw_new out (irf_case self))) ;;
  w <+ write w ;;
  w <+ c_dw_flush w ;;
  free (Ok (dw_out w)).

(** src/fmt/mod.rs:273-337 *)
Definition c_format_prepared (self : InRadixFull) (f : Formatter) (width : counted Z)
  (write : DigitWriter -> counted DigitWriter) : counted (list Z) :=
  width <+ width ;;
  let sgn := match irf_sign self with
             | Negative => [45]
             | Positive => if f_sign_plus f then [43] else []
             end in
  n <+ free (usize_chk (Z.of_nat (length sgn) + Z.of_nat (length (irf_prefix self)))) ;;
  width <+ free (usize_chk (width + n)) ;;
  match f_width f with
  | None => c_write_digits self write (sgn ++ irf_prefix self)
  | Some min_width =>
      if min_width <=? width then c_write_digits self write (sgn ++ irf_prefix self)
      else
        let pad := min_width - width in
        if f_zero_pad f then
          c_write_digits self write (sgn ++ irf_prefix self ++ repeat 48 (Z.to_nat pad))
        else
          let left := match f_align f with
                      | Some AlignLeft => 0
                      | Some AlignRight | None => pad
                      | Some AlignCenter => pad / 2
                      end in
          out <+ c_write_digits self write (repeat (f_fill f) (Z.to_nat left) ++ sgn ++ irf_prefix self) ;;
          call (Z.to_nat (pad - left)) (Ok (out ++ repeat (f_fill f) (Z.to_nat (pad - left))))
  end.

(** src/fmt/power_two.rs:15-27 *)
Definition c_fmt_power_two (self : InRadixFull) (f : Formatter) : counted (list Z) :=
  ensure is_radix_valid (irf_radix self) && is_pow2 (irf_radix self) ;;
  match irf_magnitude self with
  | Small word =>
      p <+ free (p2w_new word (irf_radix self)) ;;
      c_format_prepared self f (free (Ok (p2w_width p))) (c_p2w_write p)
  | Large buffer =>
      p <+ free (p2l_new (words buffer) (irf_radix self)) ;;
      c_format_prepared self f (free (Ok (p2l_width p))) (c_p2l_write p)
  end.

(** src/fmt/non_power_two.rs:22-41 *)
Definition c_fmt_non_power_two (self : InRadixFull) (f : Formatter) : counted (list Z) :=
  ensure is_radix_valid (irf_radix self) && negb (is_pow2 (irf_radix self)) ;;
  match irf_magnitude self with
  | Small word =>
      p <+ c_npw_new word (irf_radix self) 1 ;;
      c_format_prepared self f (free (npw_width p)) (c_npw_write p)
  | Large buffer =>
      ri <+ free (radix_info (irf_radix self)) ;;
      d <+ free (usize_chk (digits_per_word ri + 1)) ;;
      max_digits <+ free (usize_chk (blen buffer * d)) ;;
      lim <+ free (usize_chk (Z.of_nat CHUNK_LEN * digits_per_word ri)) ;;
      if max_digits <=? lim then
        p <+ c_npm_new (irf_magnitude self) (irf_radix self) ;;
        c_format_prepared self f (free (npm_width p)) (c_npm_write p)
      else
        p <+ c_npl_new (irf_magnitude self) (irf_radix self) ;;
        c_format_prepared self f (c_npl_width p) (c_npl_write p)
  end.

(** src/fmt/mod.rs:264-270 *)
Definition c_fmt_full (self : InRadixFull) (f : Formatter) : counted (list Z) :=
  if is_pow2 (irf_radix self) then c_fmt_power_two self f else c_fmt_non_power_two self f.

(** src/fmt/mod.rs:18-29 *)
Definition c_ubig_display (u : ubig) (f : Formatter) : counted (list Z) :=
  c_fmt_full (mkInRadixFull Positive u 10 [] NoLetters) f.

(** src/fmt/mod.rs:89-100 *)
Definition c_ibig_display (x : ibig) (f : Formatter) : counted (list Z) :=
  c_fmt_full (mkInRadixFull (isign x) (imag x) 10 [] NoLetters) f.

(** src/fmt/mod.rs:243-260 *)
Definition c_in_radix_display (r : InRadix) (f : Formatter) : counted (list Z) :=
  let case := if ir_radix r <=? 10 then NoLetters else if f_alternate f then Upper else Lower in
  c_fmt_full (mkInRadixFull (ir_sign r) (ir_magnitude r) (ir_radix r) [] case) f.

(** Formatting [x.in_radix(radix)]. E.g. src/fmt/mod.rs:242 *)
Definition c_ubig_in_radix_text (u : ubig) (radix : Z) (f : Formatter) : counted (list Z) :=
  r <+ free (ubig_in_radix u radix) ;; c_in_radix_display r f.
(** E.g. src/fmt/mod.rs:242 *)
Definition c_ibig_in_radix_text (x : ibig) (radix : Z) (f : Formatter) : counted (list Z) :=
  r <+ free (ibig_in_radix x radix) ;; c_in_radix_display r f.

End CostFmt.
