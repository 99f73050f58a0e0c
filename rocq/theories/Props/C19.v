(** C19: bit counting functions. *)
From Verif Require Import Model.Base Model.Words Model.Memory Model.FastDivide Model.Mul Model.Div Model.Buffer Model.UBig Model.IBig Model.Convert Model.AddOps Model.MulOps Model.ShiftOps Model.Bits Model.DivOps Model.PrimOps
  Spec.Val Spec.Num Spec.Prim Spec.Digits
  Proofs.BitCountProofs Proofs.ApiProofs Proofs.Bounds Proofs.Bounds Proofs.ApiProofs Proofs.Samples.

Theorem C19_ubig_trailing_zeros (A : Arch) (AOK : ArchOk A) (u : ubig) :
  ubig_ok u ->
  (uval u = 0 -> ubig_trailing_zeros u = Ok None) /\
  (uval u <> 0 -> exists k, ubig_trailing_zeros u = Ok (Some k) /\ 0 <= k /\ (2 ^ k | uval u) /\ ~ (2 ^ (k + 1) | uval u)).
Proof. exact (ubig_trailing_zeros_divide u). Qed.
Print Assumptions C19_ubig_trailing_zeros.

Theorem C19_ibig_trailing_zeros (A : Arch) (AOK : ArchOk A) (x : ibig) :
  ibig_ok x ->
  (ival x = 0 -> ibig_trailing_zeros x = Ok None) /\
  (ival x <> 0 -> exists k, ibig_trailing_zeros x = Ok (Some k) /\ 0 <= k /\ (2 ^ k | ival x) /\ ~ (2 ^ (k + 1) | ival x)).
Proof. exact (ibig_trailing_zeros_divide x). Qed.
Print Assumptions C19_ibig_trailing_zeros.

Theorem C19_bit_len (A : Arch) (AOK : ArchOk A) (u : ubig) :
  ubig_ok u ->
  exists k, ubig_bit_len u = Ok k /\ 0 <= k /\ uval u < 2 ^ k /\ forall j, 0 <= j -> uval u < 2 ^ j -> k <= j.
Proof. exact (bit_len_least u). Qed.
Print Assumptions C19_bit_len.

Theorem C19_is_power_of_two (A : Arch) (AOK : ArchOk A) (u : ubig) :
  ubig_ok u -> exists r, is_power_of_two u = Ok r /\ (r = true <-> exists k, 0 <= k /\ uval u = 2 ^ k).
Proof. exact (is_power_of_two_spec u). Qed.
Print Assumptions C19_is_power_of_two.

(** The least power of two that is at least the number. *)
Theorem C19_next_power_of_two (A : Arch) (AOK : ArchOk A) (u : ubig) :
  ubig_ok u ->
  exists k, 0 <= k /\ uval u <= 2 ^ k /\ (forall j, 0 <= j -> uval u <= 2 ^ j -> 2 ^ k <= 2 ^ j) /\
    yields (next_power_of_two_v u) (2 ^ k) /\ yields (next_power_of_two_r u) (2 ^ k).
Proof. exact (next_power_of_two_least u). Qed.
Print Assumptions C19_next_power_of_two.

Example C19_values : let A := arch64 in
  let a := lg [0; 0; 24] in
  ubig_ok a /\ ubig_trailing_zeros a = Ok (Some 131) /\ ibig_trailing_zeros (neg a) = Ok (Some 131) /\ ubig_bit_len a = Ok 133 /\
  is_power_of_two a = Ok false /\ is_power_of_two (lg [0; 16]) = Ok true /\ uresult (next_power_of_two_r a) = Ok (2 ^ 133) /\
  uresult (next_power_of_two_v (Small 0)) = Ok 1 /\ uresult (next_power_of_two_v (Small (2 ^ 64 - 1))) = Ok (2 ^ 64).
Proof. cbv zeta. sample. Qed.

