(** C18: clear_bit. *)
From Verif Require Import Model.Base Model.Words Model.Memory Model.FastDivide Model.Mul Model.Div Model.Buffer Model.UBig Model.IBig Model.Convert Model.AddOps Model.MulOps Model.ShiftOps Model.Bits Model.DivOps Model.PrimOps
  Spec.Val Spec.Num Spec.Prim Spec.Digits
  Proofs.BitCountProofs Proofs.ApiProofs Proofs.Bounds Proofs.Bounds Proofs.ApiProofs Proofs.Samples.

(** The full property: bit [n] is cleared and no other bit changes. *)
Definition C18_clear_bit_property (A : Arch) (u : ubig) (n : Z) : Prop :=
  exists v, clear_bit u n = Ok v /\ ubig_ok v /\
    forall i, 0 <= i -> Z.testbit (uval v) i = negb (i =? n) && Z.testbit (uval u) i.

(** The code violates it: clearing a bit above the first word of a number that
    has one word sets the number to zero. *)
Theorem C18_clear_bit_refuted :
  exists (A : Arch) (_ : ArchOk A) (u : ubig) (n : Z),
    ubig_ok u /\ 0 <= n < 2 ^ ubits /\ uval u = 5 /\ n = 64 /\
    uresult (clear_bit u n) = Ok 0 /\ ~ C18_clear_bit_property A u n.
Proof. exact (clear_bit_refuted). Qed.
Print Assumptions C18_clear_bit_refuted.

(** It holds in exactly the other cases, and there clear_bit never panics. *)
Theorem C18_clear_bit_partial (A : Arch) (AOK : ArchOk A) (u : ubig) (n : Z) :
  ubig_ok u -> 0 <= n -> n < wbits \/ B <= uval u \/ uval u = 0 -> C18_clear_bit_property A u n.
Proof. exact (clear_bit_bits u n). Qed.
Print Assumptions C18_clear_bit_partial.

(** Every other call returns zero. *)
Theorem C18_clear_bit_wrong (A : Arch) (AOK : ArchOk A) (u : ubig) (n : Z) :
  ubig_ok u -> wbits <= n -> 0 < uval u < B -> clear_bit u n = Ok (Small 0).
Proof. exact (clear_bit_wrong u n). Qed.
Print Assumptions C18_clear_bit_wrong.

Example C18_values : let A := arch64 in
  let a := lg [12; 10] in
  ubig_ok a /\ uresult (clear_bit a 67) = Ok (12 + 2 * 2 ^ 64) /\ uresult (clear_bit a 1000) = Ok (12 + 10 * 2 ^ 64) /\
  uresult (clear_bit (lg [12; 1]) 64) = Ok 12 /\ clear_bit (Small 5) 64 = Ok (Small 0).
Proof. cbv zeta. sample. Qed.

