(** C23: gcd is the greatest common divisor. *)
From Verif Require Import Model.Base Model.Words Model.Buffer Model.UBig Model.IBig Model.Convert Model.AddOps Model.MulOps Model.ShiftOps Model.Bits Model.DivOps Model.PrimOps Model.Gcd
  Spec.Val Spec.Num Spec.Prim Proofs.GcdProofs Proofs.GcdApi Proofs.Samples.

(** It divides both numbers, and every common divisor divides it.  The loop
    terminates: running out of fuel would be a panic. *)
Theorem C23_ubig_gcd (A : Arch) (AOK : ArchOk A) (a b : ubig) :
  ubig_ok a -> ubig_ok b ->
  if (uval a =? 0) && (uval b =? 0) then ubig_gcd a b = Panic GcdOfZeros
  else exists g, ubig_gcd a b = Ok g /\ ubig_ok g /\ (uval g | uval a) /\ (uval g | uval b) /\
       forall d, (d | uval a) -> (d | uval b) -> (d | uval g).
Proof. exact (ubig_gcd_divisor a b). Qed.
Print Assumptions C23_ubig_gcd.

Theorem C23_ibig_gcd (A : Arch) (AOK : ArchOk A) (x y : ibig) :
  ibig_ok x -> ibig_ok y ->
  if (ival x =? 0) && (ival y =? 0) then ibig_gcd x y = Panic GcdOfZeros
  else exists g, ibig_gcd x y = Ok g /\ ibig_ok g /\ 0 <= ival g /\ (ival g | ival x) /\ (ival g | ival y) /\
       forall d, (d | ival x) -> (d | ival y) -> (d | ival g).
Proof. exact (ibig_gcd_divisor x y). Qed.
Print Assumptions C23_ibig_gcd.

Example C23_values : let A := arch16 in
  let a := lg [0; 6; 12] in let b := lg [0; 2; 8; 8] in
  ubig_ok a /\ ubig_ok b /\ uresult (ubig_gcd a b) = Ok 51540000768 /\
  iresult (ibig_gcd (neg (Small 12)) (pos (Small 18))) = Ok 6 /\
  uresult (ubig_gcd (Small 0) b) = Ok (uval b) /\ ubig_gcd (Small 0) (Small 0) = Panic GcdOfZeros.
Proof. cbv zeta. sample. Qed.
