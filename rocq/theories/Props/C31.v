(** C31: modular values are residues. *)
From Verif Require Import Model.Base Model.Words Model.Buffer Model.UBig Model.IBig Model.Modular
  Spec.Val Spec.Num Spec.Prim Spec.Modular Proofs.ModularApi Proofs.ModularTheorems Proofs.ValidProofs Proofs.Samples.

(** Creating a ring. *)
Theorem C31_ring_new (A : Arch) (AOK : ArchOk A) (addr : Z) (u : ubig) :
  ubig_ok u -> uval u <> 0 -> exists r, ring_new addr u = Ok r /\ is_ring r (uval u) /\ ring_addr r = addr.
Proof. exact (ModularProofs.ring_new_ring addr u). Qed.
Print Assumptions C31_ring_new.

Theorem C31_ring_new_zero (A : Arch) (AOK : ArchOk A) (addr : Z) (u : ubig) :
  ubig_ok u -> uval u = 0 -> ring_new addr u = Panic ZeroModulus.
Proof. exact (ring_new_zero addr u). Qed.
Print Assumptions C31_ring_new_zero.

Theorem C31_modulus (A : Arch) (AOK : ArchOk A) (r : ring) (n : Z) : is_ring r n -> returns (ring_modulus r) n.
Proof. exact (ring_modulus_spec r n). Qed.
Print Assumptions C31_modulus.

(** Reading an element back. *)
Theorem C31_residue (A : Arch) (AOK : ArchOk A) (r : ring) (n : Z) (x : modulo) (a : Z) :
  element r n x a -> returns (residue x) a.
Proof. exact (residue_spec r n x a). Qed.
Print Assumptions C31_residue.

(** The full statement would be the first conclusion for all numbers.  It is false for
    numbers of nearly MAX_BIT_LEN bits in rings of more than one word: the code shifts the
    number left before reducing it.  [ring_room] tells exactly when. *)
Theorem C31_from_ubig_partial (A : Arch) (AOK : ArchOk A) (r : ring) (n : Z) (u : ubig) :
  is_ring r n -> ubig_ok u ->
  (ring_room r (uval u) -> yields_mod r n (ubig_into_modulo u r) (uval u) /\ yields_mod r n (ubig_ref_into_modulo u r) (uval u)) /\
  (~ ring_room r (uval u) -> ubig_into_modulo u r = Panic NumberTooLarge /\ ubig_ref_into_modulo u r = Panic NumberTooLarge).
Proof. exact (ubig_into_modulo_spec r n u). Qed.
Print Assumptions C31_from_ubig_partial.

Theorem C31_from_ibig_partial (A : Arch) (AOK : ArchOk A) (r : ring) (n : Z) (x : ibig) :
  is_ring r n -> ibig_ok x ->
  (ring_room r (Z.abs (ival x)) -> yields_mod r n (ibig_into_modulo x r) (ival x) /\ yields_mod r n (ibig_ref_into_modulo x r) (ival x)) /\
  (~ ring_room r (Z.abs (ival x)) -> ibig_into_modulo x r = Panic NumberTooLarge /\ ibig_ref_into_modulo x r = Panic NumberTooLarge).
Proof. exact (ibig_into_modulo_spec r n x). Qed.
Print Assumptions C31_from_ibig_partial.

(** On every machine there are a ring and a number that it cannot convert. *)
Theorem C31_from_refuted (A : Arch) (AOK : ArchOk A) : exists r n u,
  is_ring r n /\ ubig_ok u /\ ubig_into_modulo u r = Panic NumberTooLarge /\ ubig_ref_into_modulo u r = Panic NumberTooLarge.
Proof. exact into_modulo_too_large. Qed.
Print Assumptions C31_from_refuted.

(** Primitive integers are always converted. *)
Theorem C31_from_unsigned (A : Arch) (AOK : ArchOk A) (r : ring) (n tb z : Z) :
  is_ring r n -> prim_bits tb -> 0 <= z < 2 ^ tb -> yields_mod r n (unsigned_into_modulo tb z r) z.
Proof. exact (unsigned_into_modulo_spec r n tb z). Qed.
Print Assumptions C31_from_unsigned.

Theorem C31_from_signed (A : Arch) (AOK : ArchOk A) (r : ring) (n tb z : Z) :
  is_ring r n -> prim_bits tb -> - 2 ^ (tb - 1) <= z < 2 ^ (tb - 1) -> yields_mod r n (signed_into_modulo tb z r) z.
Proof. exact (signed_into_modulo_spec r n tb z). Qed.
Print Assumptions C31_from_signed.

Theorem C31_from_bool (A : Arch) (AOK : ArchOk A) (r : ring) (n : Z) (b : bool) :
  is_ring r n -> yields_mod r n (bool_into_modulo b r) (Z.b2z b).
Proof. exact (bool_into_modulo_spec r n b). Qed.
Print Assumptions C31_from_bool.

(** Every residue of every ring is there. *)
Theorem C31_elements_exist (A : Arch) (AOK : ArchOk A) (addr n a : Z) :
  1 <= n < MAXV -> 0 <= a < n -> exists r x, ring_addr r = addr /\ element r n x a.
Proof. exact (elements_exist addr n a). Qed.
Print Assumptions C31_elements_exist.

(** The check in the debug assertions never fails itself and accepts exactly the
    representations of elements. *)
Theorem C31_valid_small (A : Arch) (AOK : ArchOk A) (r : ring_small) (n raw : Z) :
  is_ring (RingSmall r) n -> 0 <= raw ->
  (raw_is_valid raw r = true <-> exists a, element (RingSmall r) n (MSmall (mkModuloSmall r raw)) a).
Proof. exact (raw_valid_iff r n raw). Qed.
Print Assumptions C31_valid_small.

Theorem C31_valid_large (A : Arch) (AOK : ArchOk A) (r : ring_large) (n : Z) (v : list Z) :
  is_ring (RingLarge r) n -> wf v ->
  (exists b, large_is_valid r v = Ok b) /\
  (large_is_valid r v = Ok true <-> exists a, element (RingLarge r) n (MLarge (mkModuloLarge r v)) a).
Proof. exact (large_valid_iff r n v). Qed.
Print Assumptions C31_valid_large.

(** Modulo 10 the number 7 is stored as 7 * 2^12; one more is no element, nor is 10 * 2^12. *)
Example C31_valid_case : let A := arch16 in
  (r <- ring_new 1 (Small 10) ;;
   Ok (match r with RingSmall s => map (fun w => raw_is_valid w s) [7 * 2 ^ 12; 7 * 2 ^ 12 + 1; 10 * 2 ^ 12; 0] | _ => [] end)) = Ok [true; false; false; true] /\
  (r <- ring_new 1 (lg [5; 1]) ;; match r with RingLarge s => large_is_valid s [2 ^ 15; 7] | _ => Ok false end) = Ok true /\
  (r <- ring_new 1 (lg [5; 1]) ;; match r with RingLarge s => large_is_valid s [2 ^ 14; 7] | _ => Ok true end) = Ok false /\
  (r <- ring_new 1 (lg [5; 1]) ;; match r with RingLarge s => large_is_valid s [0; 2 ^ 15 + 3] | _ => Ok true end) = Ok false.
Proof. cbv zeta. sample. Qed.

Example C31_small : let A := arch16 in
  (r <- ring_new 1 (Small 10) ;; m <- ibig_into_modulo (neg (lg [7; 1])) r ;; u <- residue m ;; k <- ring_modulus r ;; Ok (uval u, uval k)) = Ok (7, 10).
Proof. cbv zeta. sample. Qed.
Example C31_large : let A := arch16 in
  (r <- ring_new 1 (lg [5; 1]) ;; m <- signed_into_modulo 32 (-65543) r ;; u <- residue m ;; k <- ring_modulus r ;; Ok (uval u, uval k)) = Ok (65539, 65541).
Proof. cbv zeta. sample. Qed.
Example C31_room : let A := arch16 in
  (r <- ring_new 1 (lg [5; 1]) ;; Ok (match r with RingSmall _ => 0 | RingLarge s => rl_shift s end)) = Ok 15.
Proof. cbv zeta. sample. Qed.
