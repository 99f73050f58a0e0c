(** src/error.rs and the messages of the panics in src: the texts.  The panic handler and
    the location it prints are not modelled.  Decimal numbers in a message are written by
    the core library ([core_digits], Model/ModularFmt.v). *)
From Verif Require Import Model.Base Model.Buffer Model.Parse Model.ModularFmt.
From Coq Require Import String Ascii.

(** The bytes of a string literal, all ASCII. E.g. src/error.rs:11 *)
Definition str (s : string) : list Z := map (fun c => Z.of_N (N_of_ascii c)) (list_ascii_of_string s).
Arguments str s%string.

(** src/error.rs:9-13 *)
Definition out_of_bounds_text : list Z := str "number out of bounds".

(** src/error.rs:27-34 *)
Definition parse_error_text (e : parse_error) : list Z :=
  match e with
  | NoDigits => str "no digits"
  | InvalidDigit => str "invalid digit"
  end.

(** The calls of [panic!] in src, those with the same text once. E.g. src/ubig.rs:117 *)
Inductive site : Set :=
| AtTooLarge           (* src/ubig.rs:117 *)
| AtDivideByZero       (* src/div_ops.rs:1647 *)
| AtDifferentRings     (* src/modular/modulo.rs:62 *)
| AtZeroModulus        (* src/modular/modulo_ring.rs:63 *)
| AtDivision           (* src/modular/div.rs:66 *)
| AtNegativePower      (* src/modular/pow.rs:56 *)
| AtTrailingZeros      (* src/bits.rs:151 *)
| AtRadix (radix : Z)  (* src/radix.rs:26 *)
| AtGcd                (* src/gcd.rs:23 *)
| AtExtendedGcd        (* src/gcd.rs:82 *)
| AtOutOfMemory        (* src/memory.rs:188 *)
| AtTooLittleMemory    (* src/memory.rs:192 *)
| AtNegative           (* src/convert.rs:571 *)
| AtEmptyRange.        (* src/rand.rs:109,167,183 *)

(** The panic of Model/Base.v that a call stands for there. E.g. src/ubig.rs:117 *)
Definition panic_of (s : site) : panic :=
  match s with
  | AtTooLarge => NumberTooLarge
  | AtDivideByZero => DivideByZero
  | AtDifferentRings => DifferentRings
  | AtZeroModulus => ZeroModulus
  | AtDivision | AtNegativePower => NonInvertible
  | AtTrailingZeros | AtTooLittleMemory => Internal
  | AtRadix _ => InvalidRadix
  | AtGcd | AtExtendedGcd => GcdOfZeros
  | AtOutOfMemory => OutOfMemory
  | AtNegative => NegativeUBig
  | AtEmptyRange => EmptyRange
  end.

Section Errors.
Context {A : Arch}.

(** The message of each call. E.g. src/ubig.rs:117 *)
Definition panic_text (s : site) : res (list Z) :=
  match s with
  | AtTooLarge =>
      n <- core_digits (Z.to_nat ubits) 10 false MAX_BIT_LEN [] ;;
      Ok (str "number too large, maximum is " ++ n ++ str " bits")
  | AtDivideByZero => Ok (str "divide by 0")
  | AtDifferentRings => Ok (str "Modulo values from different rings")
  | AtZeroModulus => Ok (str "ModuloRing::new(0)")
  | AtDivision => Ok (str "Division by a non-invertible Modulo")
  | AtNegativePower => Ok (str "Non-invertible Modulo taken to a negative power")
  | AtTrailingZeros => Ok (str "trailing_zeros_large(0)")
  | AtRadix radix => n <- core_digits 32 10 false radix [] ;; Ok (str "Invalid radix: " ++ n)
  | AtGcd => Ok (str "gcd(0, 0)")
  | AtExtendedGcd => Ok (str "extended_gcd(0, 0)")
  | AtOutOfMemory => Ok (str "out of memory")
  | AtTooLittleMemory => Ok (str "internal error: not enough memory allocated")
  | AtNegative => Ok (str "negative UBig")
  | AtEmptyRange => Ok (str "Empty range")
  end.

End Errors.
