(** C25: exponentiation is exact. *)
From Verif Require Import Model.Base Model.Words Model.Buffer Model.UBig Model.IBig Model.Convert Model.AddOps Model.MulOps Model.ShiftOps Model.Bits Model.DivOps Model.PrimOps Model.Pow
  Spec.Val Spec.Num Spec.Prim Proofs.PowProofs Proofs.Limits Proofs.Samples.

(** [yields]: the exact power when it has at most MAX_BIT_LEN bits, and otherwise
    the documented panic. *)
Theorem C25_ubig_pow (A : Arch) (AOK : ArchOk A) (u : ubig) (e : Z) :
  ubig_ok u -> 0 <= e < 2 ^ ubits -> yields (ubig_pow u e) (uval u ^ e).
Proof. exact (ubig_pow_spec u e). Qed.
Print Assumptions C25_ubig_pow.

Theorem C25_ibig_pow (A : Arch) (AOK : ArchOk A) (x : ibig) (e : Z) :
  ibig_ok x -> 0 <= e < 2 ^ ubits -> iyields (ibig_pow x e) (ival x ^ e).
Proof. exact (ibig_pow_spec x e). Qed.
Print Assumptions C25_ibig_pow.

Example C25_values : let A := arch16 in
  let a := lg [1; 1] in ubig_ok a /\ uresult (ubig_pow a 5) = Ok (65537 ^ 5) /\ uresult (ubig_pow (Small 7) 13) = Ok (7 ^ 13) /\
  uresult (ubig_pow (Small 0) 0) = Ok 1 /\ uresult (ubig_pow (Small 2) 70) = Ok (2 ^ 70) /\
  iresult (ibig_pow (neg (Small 3)) 11) = Ok (- 3 ^ 11) /\ iresult (ibig_pow (neg a) 4) = Ok (65537 ^ 4).
Proof. cbv zeta. sample. Qed.

Example C25_too_large (A : Arch) (AOK : ArchOk A) : exists e, 0 <= e < 2 ^ ubits /\ ubig_pow (Small 2) e = Panic NumberTooLarge.
Proof. exact pow_too_large. Qed.
