(** C22: conversion to floating point rounds to nearest, ties to even. *)
From Verif Require Import Model.Base Model.Words Model.Buffer Model.UBig Model.IBig Model.Float
  Spec.Val Spec.Num Spec.Float Proofs.FloatProofs Proofs.Samples.

(** [rounds_to p emax neg n bits] (Spec/Float.v): there is a number [v] nearest to
    [n] with [p] bits of precision, even in a tie; [bits] is the pattern of [v]
    with sign [neg] if [v < 2^emax], and of infinity otherwise. *)
Theorem C22_ubig_to_f32 (A : Arch) (AOK : ArchOk A) (u : ubig) :
  ubig_ok u -> exists bits, ubig_to_float f32 u = Ok bits /\ rounds_to 24 128 false (uval u) bits /\ 0 <= bits < 2 ^ 31.
Proof. exact (ubig_to_float_spec f32 u (or_introl eq_refl)). Qed.
Print Assumptions C22_ubig_to_f32.

Theorem C22_ubig_to_f64 (A : Arch) (AOK : ArchOk A) (u : ubig) :
  ubig_ok u -> exists bits, ubig_to_float f64 u = Ok bits /\ rounds_to 53 1024 false (uval u) bits /\ 0 <= bits < 2 ^ 63.
Proof. exact (ubig_to_float_spec f64 u (or_intror eq_refl)). Qed.
Print Assumptions C22_ubig_to_f64.

Theorem C22_ibig_to_f32 (A : Arch) (AOK : ArchOk A) (x : ibig) :
  ibig_ok x -> exists bits, ibig_to_float f32 x = Ok bits /\ rounds_to 24 128 (ival x <? 0) (Z.abs (ival x)) bits /\ 0 <= bits < 2 ^ 32.
Proof. exact (ibig_to_float_spec f32 x (or_introl eq_refl)). Qed.
Print Assumptions C22_ibig_to_f32.

Theorem C22_ibig_to_f64 (A : Arch) (AOK : ArchOk A) (x : ibig) :
  ibig_ok x -> exists bits, ibig_to_float f64 x = Ok bits /\ rounds_to 53 1024 (ival x <? 0) (Z.abs (ival x)) bits /\ 0 <= bits < 2 ^ 64.
Proof. exact (ibig_to_float_spec f64 x (or_intror eq_refl)). Qed.
Print Assumptions C22_ibig_to_f64.

(** The specification leaves no choice: at most one number is nearest and, in a
    tie, even. *)
Theorem C22_nearest_unique (p n v w : Z) :
  2 <= p -> 0 <= n -> nearest_even p n v -> nearest_even p n w -> v = w.
Proof. exact (nearest_even_unique p n v w). Qed.
Print Assumptions C22_nearest_unique.

(** At most one bit pattern fits, too. *)
Theorem C22_bits_unique (neg : bool) (n b1 b2 : Z) : 0 <= n ->
  (0 <= b1 < 2 ^ 32 -> 0 <= b2 < 2 ^ 32 -> rounds_to 24 128 neg n b1 -> rounds_to 24 128 neg n b2 -> b1 = b2) /\
  (0 <= b1 < 2 ^ 64 -> 0 <= b2 < 2 ^ 64 -> rounds_to 53 1024 neg n b1 -> rounds_to 53 1024 neg n b2 -> b1 = b2).
Proof. exact (float_bits_unique neg n b1 b2). Qed.
Print Assumptions C22_bits_unique.

(** A tie (2^39 + 2^15, to even), a number just above a tie, the largest finite
    f32, the smallest number that rounds to infinity, and a negative number. *)
Example C22_values : let A := arch16 in
  let tie := lg [32768; 0; 128] in let above := lg [32769; 0; 128] in
  let big := lg (repeat 65535 6 ++ [65407; 65535]) in let inf := lg (repeat 0 6 ++ [65408; 65535]) in
  ubig_ok tie /\ ubig_ok above /\ ubig_ok big /\ ubig_ok inf /\
  ubig_to_float f32 tie = Ok (Z.shiftl (39 + 127) 23) /\
  ubig_to_float f32 above = Ok (Z.shiftl (39 + 127) 23 + 1) /\
  ubig_to_float f32 big = Ok (Z.shiftl 254 23 + 8388607) /\
  ubig_to_float f32 inf = Ok (Z.shiftl 255 23) /\
  ubig_to_float f64 tie = Ok (Z.shiftl (39 + 1023) 52 + Z.shiftl 1 28) /\
  ibig_to_float f32 (neg (Small 3)) = Ok (2 ^ 31 + Z.shiftl (1 + 127) 23 + Z.shiftl 1 22).
Proof. cbv zeta. sample. Qed.
