(** Formatting of rings and their elements: src/modular/fmt.rs.  Definitions only.

    In a ring of one word the modulus and the residue are primitive integers, which
    [core::fmt] formats; in a larger ring they are [UBig]s, which src/fmt formats. *)
From Verif Require Import Model.Base Model.Words Model.Buffer Model.UBig Model.Radix Model.Fmt Model.Modular.

(** src/modular/fmt.rs:63-68: the traits the macro is used with. *)
Inductive fmt_trait : Set := TDisplay | TDebug | TBinary | TOctal | TLowerHex | TUpperHex.

Section ModularFmt.
Context {A : Arch} (big_endian : bool).

(** ** Primitive integers, as the core library documents them (not part of /repo) *)

(** The digits of a word, by repeated division; the last digit goes first into [acc]. E.g. src/modular/fmt.rs:12 *)
Fixpoint core_digits (fuel : nat) (radix : Z) (upper : bool) (w : Z) (acc : list Z) : res (list Z) :=
  match fuel with
  | O => Panic Internal
  | S fuel =>
      let d := w mod radix in
      let c := if d <? 10 then 48 + d else (if upper then 55 else 87) + d in
      let acc := c :: acc in
      if w / radix =? 0 then Ok acc else core_digits fuel radix upper (w / radix) acc
  end.

(** [Formatter::pad_integral] of a number that is not negative. E.g. src/modular/fmt.rs:12 *)
Definition pad_integral (f : Formatter) (prefix digits : list Z) : list Z :=
  let start := (if f_sign_plus f then [43] else []) ++ (if f_alternate f then prefix else []) in
  let width := Z.of_nat (length start + length digits) in
  match f_width f with
  | None => start ++ digits
  | Some min =>
      if min <=? width then start ++ digits
      else if f_zero_pad f then start ++ repeat 48 (Z.to_nat (min - width)) ++ digits
      else
        let pad := min - width in
        let pre := match f_align f with
                   | Some AlignLeft => 0
                   | Some AlignCenter => pad / 2
                   | Some AlignRight | None => pad
                   end in
        repeat (f_fill f) (Z.to_nat pre) ++ start ++ digits ++ repeat (f_fill f) (Z.to_nat (pad - pre))
  end.

(** E.g. src/modular/fmt.rs:12 *)
Definition core_fmt_radix (radix : Z) (upper : bool) (prefix : list Z) (w : Z) (f : Formatter) : res (list Z) :=
  ds <- core_digits (Z.to_nat wbits) radix upper w [] ;; Ok (pad_integral f prefix ds).

(** The formatting traits of [Word].  [debug_hex] is the flag of [{:x?}] ([Some false])
    or [{:X?}] ([Some true]), which the [Debug] of primitive integers obeys. E.g. src/modular/fmt.rs:12 *)
Definition word_fmt (debug_hex : option bool) (t : fmt_trait) (w : Z) (f : Formatter) : res (list Z) :=
  match t with
  | TDisplay => core_fmt_radix 10 false [] w f
  | TDebug =>
      match debug_hex with
      | Some upper => core_fmt_radix 16 upper [48; 120] w f
      | None => core_fmt_radix 10 false [] w f
      end
  | TBinary => core_fmt_radix 2 false [48; 98] w f
  | TOctal => core_fmt_radix 8 false [48; 111] w f
  | TLowerHex => core_fmt_radix 16 false [48; 120] w f
  | TUpperHex => core_fmt_radix 16 true [48; 120] w f
  end.

(** ** The code of the library *)

(** The formatting traits of [UBig]: src/fmt/mod.rs:18-87.  None of them looks at [debug_hex]. *)
Definition ubig_fmt (t : fmt_trait) (u : ubig) (f : Formatter) : res (list Z) :=
  match t with
  | TDisplay => ubig_display big_endian u f
  | TDebug => ubig_debug big_endian u f
  | TBinary => ubig_binary big_endian u f
  | TOctal => ubig_octal big_endian u f
  | TLowerHex => ubig_lower_hex big_endian u f
  | TUpperHex => ubig_upper_hex big_endian u f
  end.

(** src/modular/fmt.rs:20-25; 109 111 100 32 = "mod " *)
Definition ring_small_fmt (debug_hex : option bool) (t : fmt_trait) (r : ring_small) (f : Formatter) : res (list Z) :=
  m <- word_fmt debug_hex t (ring_small_modulus r) f ;; Ok ([109; 111; 100; 32] ++ m).

(** src/modular/fmt.rs:27-32 *)
Definition ring_large_fmt (t : fmt_trait) (r : ring_large) (f : Formatter) : res (list Z) :=
  n <- ring_large_modulus r ;; m <- ubig_fmt t n f ;; Ok ([109; 111; 100; 32] ++ m).

(** src/modular/fmt.rs:11-18 *)
Definition ring_fmt (debug_hex : option bool) (t : fmt_trait) (r : ring) (f : Formatter) : res (list Z) :=
  match r with
  | RingSmall r => ring_small_fmt debug_hex t r f
  | RingLarge r => ring_large_fmt t r f
  end.

(** src/modular/fmt.rs:43-50; 32 40 = " (" and 41 = ")" *)
Definition modulo_small_fmt (debug_hex : option bool) (t : fmt_trait) (m : modulo_small) (f : Formatter) : res (list Z) :=
  w <- small_residue m ;;
  a <- word_fmt debug_hex t w f ;;
  r <- ring_small_fmt debug_hex t (ms_ring m) f ;;
  Ok (a ++ [32; 40] ++ r ++ [41]).

(** src/modular/fmt.rs:52-59 *)
Definition modulo_large_fmt (t : fmt_trait) (m : modulo_large) (f : Formatter) : res (list Z) :=
  u <- large_residue m ;;
  a <- ubig_fmt t u f ;;
  r <- ring_large_fmt t (ml_ring m) f ;;
  Ok (a ++ [32; 40] ++ r ++ [41]).

(** src/modular/fmt.rs:34-41 *)
Definition modulo_fmt (debug_hex : option bool) (t : fmt_trait) (m : modulo) (f : Formatter) : res (list Z) :=
  match m with
  | MSmall m => modulo_small_fmt debug_hex t m f
  | MLarge m => modulo_large_fmt t m f
  end.

End ModularFmt.
