(** Formatting into text sinks that may report errors: src/fmt/digit_writer.rs,
    src/fmt/power_two.rs, src/fmt/non_power_two.rs, src/fmt/mod.rs,
    src/modular/fmt.rs.  Definitions only.

    Model/Fmt.v and Model/ModularFmt.v have the same functions for a sink that
    accepts everything.  Here the sink ([core::fmt::Write]) is an arbitrary state
    machine, and each [?] of the code is modelled. *)
From Verif Require Import Model.Base Model.Words Model.FastDivide Model.DivWord Model.Buffer Model.UBig Model.IBig
  Model.DivOps Model.Radix Model.Fmt Model.Modular Model.ModularFmt.

(** One call of a sink: [write_str] or [write_char].  E.g. src/fmt/mod.rs:325-327 *)
Inductive piece : Set := PStr (s : list Z) | PChar (c : Z).

(** What a call of a function that returns [fmt::Result] leaves behind: [Done], or
    [Failed] with the state of the sink when the error was reported.
    E.g. src/fmt/digit_writer.rs:30 *)
Inductive wres (W T : Type) : Type := Done (x : T) | Failed (s : W).
Arguments Done {W T} x.
Arguments Failed {W T} s.

(** The operator [?].  E.g. src/fmt/digit_writer.rs:38 *)
Definition wbind {W T U : Type} (m : res (wres W T)) (k : T -> res (wres W U)) : res (wres W U) :=
  r <- m ;;
  match r with
  | Done x => k x
  | Failed s => Ok (Failed s)
  end.
Notation "x <~ m ;; k" := (wbind m (fun x => k)) (at level 61, m at next level, right associativity).

(** A call of a sink, or of another device that takes calls [p] of some type and
    may report errors; [put] says how it responds, [false] is an error.
    E.g. src/fmt/digit_writer.rs:59 *)
Definition emit {W P : Type} (put : W -> P -> W * bool) (s : W) (p : P) : res (wres W W) :=
  let (s, ok) := put s p in Ok (if ok then Done s else Failed s).

Section Sink.
Context {A : Arch} (big_endian : bool).
(** The sink: its states and how it responds to a call; [false] is [Err(fmt::Error)]. *)
Context {W : Type} (put : W -> piece -> W * bool).

(** src/fmt/mod.rs:311-313, 324-326, 330-332: a loop that makes the same call [n] times *)
Fixpoint emit_many (n : nat) (p : piece) (s : W) : res (wres W W) :=
  match n with
  | O => Ok (Done s)
  | S n => s <~ emit put s p ;; emit_many n p s
  end.

(** ** src/fmt/digit_writer.rs *)

(** src/fmt/digit_writer.rs:12-17 *)
Record SinkWriter := mkSinkWriter {
  sw_buffer : list Z;
  sw_len : nat;
  sw_case : digit_case;
  sw_writer : W
}.

(** src/fmt/digit_writer.rs:20-27 *)
Definition sw_new (writer : W) (case : digit_case) : SinkWriter :=
  mkSinkWriter (repeat 0 BUFFER_LEN) 0 case writer.

(** src/fmt/digit_writer.rs:45-62 *)
Definition sw_flush (w : SinkWriter) : res (wres W SinkWriter) :=
  let rounded := Z.to_nat (round_up (Z.of_nat (sw_len w)) (Z.of_nat DIGIT_CHUNK_LEN)) in
  check (sw_len w <=? rounded)%nat ;;
  buffer <- copy_into (sw_len w) (repeat 0 (rounded - sw_len w)) (sw_buffer w) ;;
  '(head, tail) <- split_at rounded buffer ;;
  head <- ascii_chunks big_endian rounded head (sw_case w) ;;
  let buffer := head ++ tail in
  s <- slice_to (sw_len w) buffer ;;
  writer <~ emit put (sw_writer w) (PStr s) ;;
  Ok (Done (mkSinkWriter buffer 0 (sw_case w) writer)).

(** src/fmt/digit_writer.rs:31-41: the loop *)
Fixpoint sw_write_loop (fuel : nat) (w : SinkWriter) (buf : list Z) : res (wres W SinkWriter) :=
  match buf with
  | [] => Ok (Done w)
  | _ =>
      match fuel with
      | O => Panic Internal
      | S fuel =>
          check (sw_len w <=? BUFFER_LEN)%nat ;;
          let len := Nat.min (length buf) (BUFFER_LEN - sw_len w) in
          '(buf_chunk, buf) <- split_at len buf ;;
          buffer <- copy_into (sw_len w) buf_chunk (sw_buffer w) ;;
          let w := mkSinkWriter buffer (sw_len w + len) (sw_case w) (sw_writer w) in
          w <~ (if (sw_len w =? BUFFER_LEN)%nat then sw_flush w else Ok (Done w)) ;;
          sw_write_loop fuel w buf
      end
  end.

(** src/fmt/digit_writer.rs:30-42 *)
Definition sw_write (w : SinkWriter) (buf : list Z) : res (wres W SinkWriter) :=
  sw_write_loop (length buf) w buf.

(** ** src/fmt/power_two.rs *)

(** src/fmt/power_two.rs:57-65 *)
Definition p2w_write_to (p : P2Word) (w : SinkWriter) : res (wres W SinkWriter) :=
  digits <- p2w_digits (Z.to_nat (p2w_width p)) 0 p (repeat 0 (Z.to_nat wbits)) ;;
  s <- slice_to (Z.to_nat (p2w_width p)) digits ;;
  sw_write w s.

(** src/fmt/power_two.rs:110-127: the loop; [it] holds the words still to come *)
Fixpoint p2l_loop_to (fuel : nat) (it : list Z) (word bits log_radix : Z) (w : SinkWriter)
  : res (wres W SinkWriter) :=
  match fuel with
  | O => Panic Internal
  | S fuel =>
      let mask := ones_w log_radix in
      if bits <? log_radix then
        match it with
        | x :: it =>
            let extra_bits := log_radix - bits in
            bits <- checked 32 (wbits - extra_bits) ;;
            check (extra_bits <? wbits) && (bits <? wbits) ;;
            let digit := (Z.land (Z.lor (shl_w word extra_bits) (shr_w x bits)) mask) mod 256 in
            w <~ sw_write w [digit] ;;
            p2l_loop_to fuel it x bits log_radix w
        | [] => check bits =? 0 ;; Ok (Done w)
        end
      else
        let bits := bits - log_radix in
        check bits <? wbits ;;
        let digit := (Z.land (shr_w word bits) mask) mod 256 in
        w <~ sw_write w [digit] ;;
        p2l_loop_to fuel it word bits log_radix w
  end.

(** src/fmt/power_two.rs:102-130 *)
Definition p2l_write_to (p : P2Large) (w : SinkWriter) : res (wres W SinkWriter) :=
  match rev (p2l_words p) with
  | [] => Panic Internal
  | word :: it =>
      a <- usize_chk (p2l_width p * p2l_log_radix p) ;;
      b <- usize_chk ((Z.of_nat (length (p2l_words p)) - 1) * wbits) ;;
      d <- usize_chk (a - b) ;;
      let bits := d mod 2 ^ 32 in
      p2l_loop_to (S (Z.to_nat (p2l_width p))) it word bits (p2l_log_radix p) w
  end.

(** ** src/fmt/non_power_two.rs *)

(** src/fmt/non_power_two.rs:79-81 *)
Definition npw_write_to (p : NpWord) (w : SinkWriter) : res (wres W SinkWriter) :=
  s <- slice_from (npw_start p) (npw_digits p) ;; sw_write w s.

(** src/fmt/non_power_two.rs:139-143 and 247-250 *)
Fixpoint write_groups_to (groups : list Z) (radix dpw : Z) (w : SinkWriter) : res (wres W SinkWriter) :=
  match groups with
  | [] => Ok (Done w)
  | g :: t =>
      p <- npw_new g radix dpw ;;
      w <~ npw_write_to p w ;;
      write_groups_to t radix dpw w
  end.

(** src/fmt/non_power_two.rs:134-145 *)
Definition npm_write_to (p : NpMedium) (w : SinkWriter) : res (wres W SinkWriter) :=
  ri <- radix_info (npm_radix p) ;;
  w <~ npw_write_to (npm_top p) w ;;
  write_groups_to (rev (npm_low p)) (npm_radix p) (digits_per_word ri) w.

(** src/fmt/non_power_two.rs:229-253 *)
Definition npl_write_chunk_to (radix : Z) (w : SinkWriter) (x : ubig) : res (wres W SinkWriter) :=
  ri <- radix_info radix ;;
  buffer <- ubig_to_chunk_buffer x ;;
  '(groups, buffer) <- chunk_groups CHUNK_LEN ri buffer ;;
  check (length buffer =? 0)%nat ;;
  write_groups_to (rev groups) radix (digits_per_word ri) w.

(** src/fmt/non_power_two.rs:218-226 *)
Fixpoint npl_write_big_chunk_to (powers : list ubig) (radix : Z) (w : SinkWriter) (i : nat) (x : ubig)
  : res (wres W SinkWriter) :=
  match i with
  | O => npl_write_chunk_to radix w x
  | S i =>
      p <- get i powers ;;
      '(q, r) <- ubig_div_rem_vr x p ;;
      w <~ npl_write_big_chunk_to powers radix w i q ;;
      npl_write_big_chunk_to powers radix w i r
  end.

(** src/fmt/non_power_two.rs:270-272: the loop *)
Fixpoint npl_write_loop_to (powers : list ubig) (radix : Z) (chunks : list (nat * ubig)) (w : SinkWriter)
  : res (wres W SinkWriter) :=
  match chunks with
  | [] => Ok (Done w)
  | (i, x) :: t =>
      w <~ npl_write_big_chunk_to powers radix w i x ;;
      npl_write_loop_to powers radix t w
  end.

(** src/fmt/non_power_two.rs:266-274 *)
Definition npl_write_to (p : NpLarge) (w : SinkWriter) : res (wres W SinkWriter) :=
  w <~ npm_write_to (npl_top p) w ;;
  npl_write_loop_to (npl_powers p) (npl_radix p) (rev (npl_chunks p)) w.

(** ** src/fmt/mod.rs *)

(** src/fmt/mod.rs:290-294: the closure [write_digits] *)
Definition write_digits_to (self : InRadixFull) (write : SinkWriter -> res (wres W SinkWriter)) (s : W)
  : res (wres W W) :=
  w <~ write (sw_new s (irf_case self)) ;;
  w <~ sw_flush w ;;
  Ok (Done (sw_writer w)).

(** src/fmt/mod.rs:273-337; [width] and [write] are the methods of [prepared];
    43 = '+', 45 = '-', 48 = '0' *)
Definition format_prepared_to (self : InRadixFull) (f : Formatter) (width : res Z)
  (write : SinkWriter -> res (wres W SinkWriter)) (s : W) : res (wres W W) :=
  width <- width ;;
  let sgn := match irf_sign self with
             | Negative => [45]
             | Positive => if f_sign_plus f then [43] else []
             end in
  n <- usize_chk (Z.of_nat (length sgn) + Z.of_nat (length (irf_prefix self))) ;;
  width <- usize_chk (width + n) ;;
  match f_width f with
  | None =>
      s <~ emit put s (PStr sgn) ;;
      s <~ emit put s (PStr (irf_prefix self)) ;;
      s <~ write_digits_to self write s ;;
      Ok (Done s)
  | Some min_width =>
      if min_width <=? width then
        s <~ emit put s (PStr sgn) ;;
        s <~ emit put s (PStr (irf_prefix self)) ;;
        s <~ write_digits_to self write s ;;
        Ok (Done s)
      else if f_zero_pad f then
        s <~ emit put s (PStr sgn) ;;
        s <~ emit put s (PStr (irf_prefix self)) ;;
        s <~ emit_many (Z.to_nat (min_width - width)) (PStr [48]) s ;;
        s <~ write_digits_to self write s ;;
        Ok (Done s)
      else
        let left := match f_align f with
                    | Some AlignLeft => 0
                    | Some AlignRight | None => min_width - width
                    | Some AlignCenter => (min_width - width) / 2
                    end in
        s <~ emit_many (Z.to_nat left) (PChar (f_fill f)) s ;;
        s <~ emit put s (PStr sgn) ;;
        s <~ emit put s (PStr (irf_prefix self)) ;;
        s <~ write_digits_to self write s ;;
        s <~ emit_many (Z.to_nat (min_width - width - left)) (PChar (f_fill f)) s ;;
        Ok (Done s)
  end.

(** src/fmt/power_two.rs:15-27 *)
Definition fmt_power_two_to (self : InRadixFull) (f : Formatter) (s : W) : res (wres W W) :=
  check is_radix_valid (irf_radix self) && is_pow2 (irf_radix self) ;;
  match irf_magnitude self with
  | Small word =>
      p <- p2w_new word (irf_radix self) ;;
      format_prepared_to self f (Ok (p2w_width p)) (p2w_write_to p) s
  | Large buffer =>
      p <- p2l_new (words buffer) (irf_radix self) ;;
      format_prepared_to self f (Ok (p2l_width p)) (p2l_write_to p) s
  end.

(** src/fmt/non_power_two.rs:22-41 *)
Definition fmt_non_power_two_to (self : InRadixFull) (f : Formatter) (s : W) : res (wres W W) :=
  check is_radix_valid (irf_radix self) && negb (is_pow2 (irf_radix self)) ;;
  match irf_magnitude self with
  | Small word =>
      p <- npw_new word (irf_radix self) 1 ;;
      format_prepared_to self f (npw_width p) (npw_write_to p) s
  | Large buffer =>
      ri <- radix_info (irf_radix self) ;;
      d <- usize_chk (digits_per_word ri + 1) ;;
      max_digits <- usize_chk (blen buffer * d) ;;
      lim <- usize_chk (Z.of_nat CHUNK_LEN * digits_per_word ri) ;;
      if max_digits <=? lim then
        p <- npm_new (irf_magnitude self) (irf_radix self) ;;
        format_prepared_to self f (npm_width p) (npm_write_to p) s
      else
        p <- npl_new (irf_magnitude self) (irf_radix self) ;;
        format_prepared_to self f (npl_width p) (npl_write_to p) s
  end.

(** src/fmt/mod.rs:264-270 *)
Definition fmt_full_to (self : InRadixFull) (f : Formatter) (s : W) : res (wres W W) :=
  if is_pow2 (irf_radix self) then fmt_power_two_to self f s else fmt_non_power_two_to self f s.

(** The formatting traits of [UBig]: src/fmt/mod.rs:18-87 *)
Definition ubig_fmt_to (t : fmt_trait) (u : ubig) (f : Formatter) (s : W) : res (wres W W) :=
  match t with
  | TDisplay | TDebug => fmt_full_to (mkInRadixFull Positive u 10 [] NoLetters) f s
  | TBinary => fmt_full_to (mkInRadixFull Positive u 2 (if f_alternate f then [48; 98] else []) NoLetters) f s
  | TOctal => fmt_full_to (mkInRadixFull Positive u 8 (if f_alternate f then [48; 111] else []) NoLetters) f s
  | TLowerHex => fmt_full_to (mkInRadixFull Positive u 16 (if f_alternate f then [48; 120] else []) Lower) f s
  | TUpperHex => fmt_full_to (mkInRadixFull Positive u 16 (if f_alternate f then [48; 120] else []) Upper) f s
  end.

(** The formatting traits of [IBig]: src/fmt/mod.rs:89-158 *)
Definition ibig_fmt_to (t : fmt_trait) (x : ibig) (f : Formatter) (s : W) : res (wres W W) :=
  match t with
  | TDisplay | TDebug => fmt_full_to (mkInRadixFull (isign x) (imag x) 10 [] NoLetters) f s
  | TBinary => fmt_full_to (mkInRadixFull (isign x) (imag x) 2 (if f_alternate f then [48; 98] else []) NoLetters) f s
  | TOctal => fmt_full_to (mkInRadixFull (isign x) (imag x) 8 (if f_alternate f then [48; 111] else []) NoLetters) f s
  | TLowerHex => fmt_full_to (mkInRadixFull (isign x) (imag x) 16 (if f_alternate f then [48; 120] else []) Lower) f s
  | TUpperHex => fmt_full_to (mkInRadixFull (isign x) (imag x) 16 (if f_alternate f then [48; 120] else []) Upper) f s
  end.

(** src/fmt/mod.rs:243-260 *)
Definition in_radix_display_to (r : InRadix) (f : Formatter) (s : W) : res (wres W W) :=
  let case := if ir_radix r <=? 10 then NoLetters else if f_alternate f then Upper else Lower in
  fmt_full_to (mkInRadixFull (ir_sign r) (ir_magnitude r) (ir_radix r) [] case) f s.

(** ** src/modular/fmt.rs *)

(** [Formatter::pad_integral] of a number that is not negative, as the core library
    has it (not part of /repo): the sign is written as a character, the prefix and
    the digits as strings.  E.g. src/modular/fmt.rs:23 *)
Definition pad_integral_to (f : Formatter) (prefix digits : list Z) (s : W) : res (wres W W) :=
  let write_prefix s :=
    s <~ (if f_sign_plus f then emit put s (PChar 43) else Ok (Done s)) ;;
    if f_alternate f then emit put s (PStr prefix) else Ok (Done s) in
  let start := (if f_sign_plus f then [43] else []) ++ (if f_alternate f then prefix else []) in
  let width := Z.of_nat (length start + length digits) in
  match f_width f with
  | None => s <~ write_prefix s ;; emit put s (PStr digits)
  | Some min =>
      if min <=? width then s <~ write_prefix s ;; emit put s (PStr digits)
      else if f_zero_pad f then
        s <~ write_prefix s ;;
        s <~ emit_many (Z.to_nat (min - width)) (PChar 48) s ;;
        emit put s (PStr digits)
      else
        let pad := min - width in
        let pre := match f_align f with
                   | Some AlignLeft => 0
                   | Some AlignCenter => pad / 2
                   | Some AlignRight | None => pad
                   end in
        s <~ emit_many (Z.to_nat pre) (PChar (f_fill f)) s ;;
        s <~ write_prefix s ;;
        s <~ emit put s (PStr digits) ;;
        emit_many (Z.to_nat (pad - pre)) (PChar (f_fill f)) s
  end.

(** E.g. src/modular/fmt.rs:23 *)
Definition core_fmt_radix_to (radix : Z) (upper : bool) (prefix : list Z) (w : Z) (f : Formatter) (s : W)
  : res (wres W W) :=
  ds <- core_digits (Z.to_nat wbits) radix upper w [] ;; pad_integral_to f prefix ds s.

(** The formatting traits of [Word], see [word_fmt].  E.g. src/modular/fmt.rs:23 *)
Definition word_fmt_to (debug_hex : option bool) (t : fmt_trait) (w : Z) (f : Formatter) (s : W) : res (wres W W) :=
  match t with
  | TDisplay => core_fmt_radix_to 10 false [] w f s
  | TDebug =>
      match debug_hex with
      | Some upper => core_fmt_radix_to 16 upper [48; 120] w f s
      | None => core_fmt_radix_to 10 false [] w f s
      end
  | TBinary => core_fmt_radix_to 2 false [48; 98] w f s
  | TOctal => core_fmt_radix_to 8 false [48; 111] w f s
  | TLowerHex => core_fmt_radix_to 16 false [48; 120] w f s
  | TUpperHex => core_fmt_radix_to 16 true [48; 120] w f s
  end.

(** src/modular/fmt.rs:20-25; 109 111 100 32 = "mod " *)
Definition ring_small_fmt_to (debug_hex : option bool) (t : fmt_trait) (r : ring_small) (f : Formatter) (s : W)
  : res (wres W W) :=
  s <~ emit put s (PStr [109; 111; 100; 32]) ;;
  word_fmt_to debug_hex t (ring_small_modulus r) f s.

(** src/modular/fmt.rs:27-32 *)
Definition ring_large_fmt_to (t : fmt_trait) (r : ring_large) (f : Formatter) (s : W) : res (wres W W) :=
  s <~ emit put s (PStr [109; 111; 100; 32]) ;;
  n <- ring_large_modulus r ;;
  ubig_fmt_to t n f s.

(** src/modular/fmt.rs:11-18 *)
Definition ring_fmt_to (debug_hex : option bool) (t : fmt_trait) (r : ring) (f : Formatter) (s : W) : res (wres W W) :=
  match r with
  | RingSmall r => ring_small_fmt_to debug_hex t r f s
  | RingLarge r => ring_large_fmt_to t r f s
  end.

(** src/modular/fmt.rs:43-50; 32 40 = " (" and 41 = ")" *)
Definition modulo_small_fmt_to (debug_hex : option bool) (t : fmt_trait) (m : modulo_small) (f : Formatter) (s : W)
  : res (wres W W) :=
  w <- small_residue m ;;
  s <~ word_fmt_to debug_hex t w f s ;;
  s <~ emit put s (PStr [32; 40]) ;;
  s <~ ring_small_fmt_to debug_hex t (ms_ring m) f s ;;
  emit put s (PStr [41]).

(** src/modular/fmt.rs:52-59 *)
Definition modulo_large_fmt_to (t : fmt_trait) (m : modulo_large) (f : Formatter) (s : W) : res (wres W W) :=
  u <- large_residue m ;;
  s <~ ubig_fmt_to t u f s ;;
  s <~ emit put s (PStr [32; 40]) ;;
  s <~ ring_large_fmt_to t (ml_ring m) f s ;;
  emit put s (PStr [41]).

(** src/modular/fmt.rs:34-41 *)
Definition modulo_fmt_to (debug_hex : option bool) (t : fmt_trait) (m : modulo) (f : Formatter) (s : W)
  : res (wres W W) :=
  match m with
  | MSmall m => modulo_small_fmt_to debug_hex t m f s
  | MLarge m => modulo_large_fmt_to t m f s
  end.

End Sink.
