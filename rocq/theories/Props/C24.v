(** C24: extended gcd returns Bezout coefficients. *)
From Verif Require Import Model.Base Model.Words Model.Buffer Model.UBig Model.IBig Model.Convert Model.AddOps Model.MulOps Model.ShiftOps Model.Bits Model.DivOps Model.PrimOps Model.Gcd
  Spec.Val Spec.Num Spec.Prim Proofs.GcdProofs Proofs.GcdApi Proofs.GcdPortable Proofs.Samples.

(** The full statement would be the conclusion of the first theorem for all pairs
    other than (0, 0).  It is false for numbers of MAX_BIT_LEN bits: the code adds
    one of the numbers to a coefficient before halving it. *)
Theorem C24_ubig_extended_gcd_partial (A : Arch) (AOK : ArchOk A) (a b : ubig) :
  ubig_ok a -> ubig_ok b -> 2 * uval a < MAXV -> 2 * uval b < MAXV ->
  if (uval a =? 0) && (uval b =? 0) then ubig_extended_gcd a b = Panic GcdOfZeros
  else exists g x y, ubig_extended_gcd a b = Ok (g, x, y) /\ ubig_ok g /\ ibig_ok x /\ ibig_ok y /\
       uval g = Z.gcd (uval a) (uval b) /\ uval a * ival x + uval b * ival y = uval g /\
       Z.abs (ival x) <= Z.max (uval b) 1 /\ Z.abs (ival y) <= Z.max (uval a) 1.
Proof. exact (ubig_extended_gcd_bezout a b). Qed.
Print Assumptions C24_ubig_extended_gcd_partial.

Theorem C24_ibig_extended_gcd_partial (A : Arch) (AOK : ArchOk A) (a b : ibig) :
  ibig_ok a -> ibig_ok b -> 2 * Z.abs (ival a) < MAXV -> 2 * Z.abs (ival b) < MAXV ->
  if (ival a =? 0) && (ival b =? 0) then ibig_extended_gcd a b = Panic GcdOfZeros
  else exists g x y, ibig_extended_gcd a b = Ok (g, x, y) /\ ibig_ok g /\ ibig_ok x /\ ibig_ok y /\
       ival g = Z.gcd (ival a) (ival b) /\ ival a * ival x + ival b * ival y = ival g /\
       Z.abs (ival x) <= Z.max (Z.abs (ival b)) 1 /\ Z.abs (ival y) <= Z.max (Z.abs (ival a)) 1.
Proof. exact (ibig_extended_gcd_bezout a b). Qed.
Print Assumptions C24_ibig_extended_gcd_partial.

(** For all numbers: a returned result is right, the only panics are the two
    documented ones, and no subtraction underflows.  The second panic needs a number
    that still has MAX_BIT_LEN bits or more when it is doubled and all common factors
    two are removed. *)
Theorem C24_ubig_extended_gcd_all (A : Arch) (AOK : ArchOk A) (a b : ubig) :
  ubig_ok a -> ubig_ok b ->
  match ubig_extended_gcd a b with
  | Ok (g, x, y) => ubig_ok g /\ ibig_ok x /\ ibig_ok y /\ (uval a <> 0 \/ uval b <> 0) /\
      uval g = Z.gcd (uval a) (uval b) /\ uval a * ival x + uval b * ival y = uval g /\
      Z.abs (ival x) <= Z.max (uval b) 1 /\ Z.abs (ival y) <= Z.max (uval a) 1
  | Panic p => (p = GcdOfZeros /\ uval a = 0 /\ uval b = 0) \/
      (p = NumberTooLarge /\ forall k, 0 <= k -> (2 ^ k | uval a) -> (2 ^ k | uval b) ->
       MAXV * 2 ^ k <= 2 * Z.max (uval a) (uval b))
  end.
Proof. exact (ubig_extended_gcd_all a b). Qed.
Print Assumptions C24_ubig_extended_gcd_all.

Theorem C24_ibig_extended_gcd_all (A : Arch) (AOK : ArchOk A) (a b : ibig) :
  ibig_ok a -> ibig_ok b ->
  match ibig_extended_gcd a b with
  | Ok (g, x, y) => ibig_ok g /\ ibig_ok x /\ ibig_ok y /\ (ival a <> 0 \/ ival b <> 0) /\
      ival g = Z.gcd (ival a) (ival b) /\ ival a * ival x + ival b * ival y = ival g /\
      Z.abs (ival x) <= Z.max (Z.abs (ival b)) 1 /\ Z.abs (ival y) <= Z.max (Z.abs (ival a)) 1
  | Panic p => (p = GcdOfZeros /\ ival a = 0 /\ ival b = 0) \/
      (p = NumberTooLarge /\ forall k, 0 <= k -> (2 ^ k | ival a) -> (2 ^ k | ival b) ->
       MAXV * 2 ^ k <= 2 * Z.max (Z.abs (ival a)) (Z.abs (ival b)))
  end.
Proof. exact (ibig_extended_gcd_all a b). Qed.
Print Assumptions C24_ibig_extended_gcd_all.

(** The coefficients depend only on the numbers: not on the word size, the address
    size, or the capacities of buffers. *)
Theorem C24_ubig_same_coefficients (A1 A2 : Arch) (O1 : ArchOk A1) (O2 : ArchOk A2) (a b c d g h : ubig) (x y z w : ibig) :
  ubig_ok (A := A1) a -> ubig_ok (A := A1) b -> ubig_ok (A := A2) c -> ubig_ok (A := A2) d ->
  uval (A := A1) a = uval (A := A2) c -> uval (A := A1) b = uval (A := A2) d ->
  ubig_extended_gcd (A := A1) a b = Ok (g, x, y) -> ubig_extended_gcd (A := A2) c d = Ok (h, z, w) ->
  uval (A := A1) g = uval (A := A2) h /\ ival (A := A1) x = ival (A := A2) z /\ ival (A := A1) y = ival (A := A2) w.
Proof. exact (extended_gcd_alike A1 A2 a b c d g h x y z w). Qed.
Print Assumptions C24_ubig_same_coefficients.

Theorem C24_ibig_same_coefficients (A1 A2 : Arch) (O1 : ArchOk A1) (O2 : ArchOk A2) (a b c d g h x y z w : ibig) :
  ibig_ok (A := A1) a -> ibig_ok (A := A1) b -> ibig_ok (A := A2) c -> ibig_ok (A := A2) d ->
  ival (A := A1) a = ival (A := A2) c -> ival (A := A1) b = ival (A := A2) d ->
  ibig_extended_gcd (A := A1) a b = Ok (g, x, y) -> ibig_extended_gcd (A := A2) c d = Ok (h, z, w) ->
  ival (A := A1) g = ival (A := A2) h /\ ival (A := A1) x = ival (A := A2) z /\ ival (A := A1) y = ival (A := A2) w.
Proof. exact (iextended_gcd_alike A1 A2 a b c d g h x y z w). Qed.
Print Assumptions C24_ibig_same_coefficients.

(** On every machine there is a pair, (2, 2^MAX_BIT_LEN - 1), for which the
    result (1, -q, 1) would fit but the operation panics. *)
Theorem C24_extended_gcd_refuted (A : Arch) (AOK : ArchOk A) :
  exists a b, ubig_ok a /\ ubig_ok b /\ uval a = 2 /\ uval b = MAXV - 1 /\ ubig_extended_gcd a b = Panic NumberTooLarge.
Proof. exact extended_gcd_too_large. Qed.
Print Assumptions C24_extended_gcd_refuted.

Definition eresult {A : Arch} (r : res (ubig * ibig * ibig)) : res (Z * Z * Z) :=
  match r with Ok (g, x, y) => Ok (uval g, ival x, ival y) | Panic p => Panic p end.

Example C24_values : let A := arch16 in
  let a := lg [5; 7; 1] in let b := lg [10; 3] in
  ubig_ok a /\ ubig_ok b /\ 2 * uval a < 2 ^ 1000 /\
  eresult (ubig_extended_gcd a b) = Ok (1, 24199, -528664797) /\
  eresult (ubig_extended_gcd (Small 12) (Small 18)) = Ok (6, 8, -5) /\
  eresult (ubig_extended_gcd (Small 0) b) = Ok (uval b, 0, 1) /\
  ubig_extended_gcd (Small 0) (Small 0) = Panic GcdOfZeros.
Proof. cbv zeta. sample. Qed.

(** The hypotheses of the partial theorems hold for all but the top bit length. *)
Example C24_hypotheses (A : Arch) (AOK : ArchOk A) : exists a, ubig_ok a /\ 2 * uval a = MAXV - 2.
Proof. exact half_exists. Qed.

Example C24_two_platforms :
  let a := lg [5; 7; 1] in let b := lg [10; 3] in let c := lg [458757; 1] in let d := Small 196618 in
  ubig_ok (A := arch16) a /\ ubig_ok (A := arch16) b /\ ubig_ok (A := arch32) c /\ ubig_ok (A := arch32) d /\
  uval (A := arch16) a = uval (A := arch32) c /\ uval (A := arch16) b = uval (A := arch32) d /\
  eresult (A := arch16) (ubig_extended_gcd (A := arch16) a b) = eresult (A := arch32) (ubig_extended_gcd (A := arch32) c d).
Proof. cbv zeta. sample. Qed.
