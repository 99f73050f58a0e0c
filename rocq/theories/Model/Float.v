(** Conversion to floating point: src/convert.rs:155-303.  Definitions only.

    A floating point number is its bit pattern.  [to_f32] and [to_f64] have the
    same text up to the constants, which are given by a format. *)
From Verif Require Import Model.Base Model.Words Model.Buffer Model.UBig Model.IBig Model.Convert Model.ShiftOps Model.Bits.

Record ffmt := mkFfmt { fbits : Z; fprec : Z; femax : Z }.
Definition f32 : ffmt := mkFfmt 32 24 128.
Definition f64 : ffmt := mkFfmt 64 53 1024.

(** [f32::INFINITY], [f64::INFINITY]. E.g. src/convert.rs:181 *)
Definition f_infinity (f : ffmt) : Z := (2 * femax f - 1) * 2 ^ (fprec f - 1).

(** The primitive conversion [n as f32] of an unsigned integer: round to nearest,
    ties to even. E.g. src/convert.rs:168 *)
Definition int_as_float (f : ffmt) (n : Z) : Z :=
  if n =? 0 then 0
  else
    let e := Z.log2 n in
    let s := e - (fprec f - 1) in
    let m :=
      if s <=? 0 then n * 2 ^ (- s)
      else
        let q := n / 2 ^ s in
        let r := n mod 2 ^ s in
        if (2 ^ s <? 2 * r) || ((2 * r =? 2 ^ s) && Z.odd q) then q + 1 else q in
    (e + femax f - 2) * 2 ^ (fprec f - 1) + m.

Section Float.
Context {A : Arch}.

(** src/convert.rs:301-303 *)
Definition round_to_even_adjustment (bits : Z) : bool := (6 <=? bits) || (bits =? 3).

(** src/convert.rs:176-204: [to_f32_slow]; 228-255: [to_f64_slow] *)
Definition to_float_slow (f : ffmt) (u : ubig) : res Z :=
  n <- ubig_bit_len u ;;
  check (fbits f <? n) ;;
  if femax f <? n then Ok (f_infinity f)
  else
    let exponent := n - 1 in
    check ((fbits f <=? exponent) && (exponent <? femax f)) ;;
    x <- ubig_shr_r u (n - (fprec f + 1)) ;;
    o <- ubig_try_to_unsigned (fbits f) x ;;
    match o with
    | None => Panic Internal
    | Some mantissa2 =>
        let mantissa := Z.shiftr mantissa2 1 in
        value <- checked (fbits f) (Z.shiftl (exponent + (femax f - 2)) (fprec f - 1) + mantissa) ;;
        extra_bit <- are_low_bits_nonzero u (n - (fprec f + 1)) ;;
        let low_bits := Z.lor (Z.shiftl (Z.land mantissa2 3) 1) (Z.b2z extra_bit) in
        checked (fbits f) (value + Z.b2z (round_to_even_adjustment low_bits))
    end.

(** src/convert.rs:166-174: [to_f32]; 217-225: [to_f64] *)
Definition ubig_to_float (f : ffmt) (u : ubig) : res Z :=
  match u with
  | Small w => Ok (int_as_float f w)
  | Large _ =>
      o <- ubig_try_to_unsigned (fbits f) u ;;
      match o with
      | Some v => Ok (int_as_float f v)
      | None => to_float_slow f u
      end
  end.

(** Floating point negation flips the sign bit. E.g. src/convert.rs:274 *)
Definition f_neg (f : ffmt) (bits : Z) : Z := Z.lxor bits (2 ^ (fbits f - 1)).

(** src/convert.rs:270-276: [to_f32]; 289-295: [to_f64] *)
Definition ibig_to_float (f : ffmt) (x : ibig) : res Z :=
  v <- ubig_to_float f (imag x) ;;
  Ok (match isign x with Positive => v | Negative => f_neg f v end).

End Float.
