(** C17: bit and set_bit. *)
From Verif Require Import Model.Base Model.Words Model.Memory Model.FastDivide Model.Mul Model.Div Model.Buffer Model.UBig Model.IBig Model.Convert Model.AddOps Model.MulOps Model.ShiftOps Model.Bits Model.DivOps Model.PrimOps
  Spec.Val Spec.Num Spec.Prim Spec.Digits
  Proofs.BitCountProofs Proofs.ApiProofs Proofs.Bounds Proofs.Bounds Proofs.ApiProofs Proofs.Samples.

Theorem C17_bit (A : Arch) (AOK : ArchOk A) (u : ubig) (n : Z) :
  ubig_ok u -> 0 <= n -> bit u n = Ok (Z.testbit (uval u) n).
Proof. exact (bit_spec u n). Qed.
Print Assumptions C17_bit.

Theorem C17_set_bit (A : Arch) (AOK : ArchOk A) (u : ubig) (n : Z) :
  ubig_ok u -> 0 <= n < 2 ^ ubits ->
  exists z, yields (set_bit u n) z /\
    forall i, 0 <= i -> Z.testbit z i = (i =? n) || Z.testbit (uval u) i.
Proof. exact (set_bit_bits u n). Qed.
Print Assumptions C17_set_bit.

Example C17_values : let A := arch64 in
  let a := lg [12; 10] in
  ubig_ok a /\ bit a 67 = Ok true /\ bit a 66 = Ok false /\ bit a 1000 = Ok false /\
  uresult (set_bit a 200) = Ok (12 + 10 * 2 ^ 64 + 2 ^ 200) /\ uresult (set_bit (Small 4) 64) = Ok (4 + 2 ^ 64) /\
  set_bit (Small 4) (2 ^ 64 - 1) = Panic NumberTooLarge.
Proof. cbv zeta. sample. Qed.

