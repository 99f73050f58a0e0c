(** C33: modular exponentiation. *)
From Verif Require Import Model.Base Model.Words Model.Buffer Model.UBig Model.IBig Model.Modular
  Spec.Val Spec.Num Spec.Prim Spec.Modular Proofs.ModularApi Proofs.ModularRoom Proofs.ModularTheorems Proofs.Samples.

(** The full statement would be the one without the condition on memory: exponentiation
    keeps a table of powers and a double-length product in scratch memory. *)
Theorem C33_pow_partial (A : Arch) (AOK : ArchOk A) (r : ring) (n : Z) (x : modulo) (a : Z) (e : ubig) :
  element r n x a -> ubig_ok e -> room_for_pow n (uval e) = true -> yields_mod r n (mod_pow x e) (a ^ uval e).
Proof. exact (pow_spec r n x a e). Qed.
Print Assumptions C33_pow_partial.

(** In general, the power is right or there was not enough memory for it. *)
Theorem C33_pow (A : Arch) (AOK : ArchOk A) (r : ring) (n : Z) (x : modulo) (a : Z) (e : ubig) :
  element r n x a -> ubig_ok e ->
  yields_mod r n (mod_pow x e) (a ^ uval e) \/ no_memory (room_for_pow n (uval e)) (mod_pow x e).
Proof. exact (pow_all r n x a e). Qed.
Print Assumptions C33_pow.

(** There is enough memory if the product of the bits of the exponent and the words of the
    modulus is not too large, and always for one-word moduli. *)
Theorem C33_pow_room (A : Arch) (AOK : ArchOk A) (n e : Z) :
  1 <= n < MAXV -> ubits = 64 \/ n * n < MAXV -> n < B \/ (Z.log2 e + 1) * (Z.log2 n / wbits + 1) <= MAX_LEN -> room_for_pow n e = true.
Proof. exact (pow_room_enough n e). Qed.
Print Assumptions C33_pow_room.

(** On 32-bit machines, 2 cannot be squared in some ring. *)
Theorem C33_pow_refuted : exists (A : Arch) (AOK : ArchOk A) r n x, wbits = 32 /\ ubits = 32 /\ element r n x 2 /\
  (forall e, ubig_ok e -> 2 <= uval e -> mod_pow x e = Panic OutOfMemory).
Proof. exact pow_refuted. Qed.
Print Assumptions C33_pow_refuted.

(** The full statement would be the one without the bounds on modulus and memory.  Like
    [inverse] (C34), a negative power may give up in rings of a modulus of MAX_BIT_LEN
    bits. *)
Theorem C33_pow_signed_partial (A : Arch) (AOK : ArchOk A) (r : ring) (n : Z) (x : modulo) (a : Z) (e : ibig) :
  element r n x a -> ibig_ok e -> 2 * n < MAXV -> room_for_pow n (Z.abs (ival e)) = true ->
  (0 <= ival e -> yields_mod r n (mod_pow_signed x e) (a ^ ival e)) /\
  (ival e < 0 -> quotient_result r n (mod_pow_signed x e) 1 (a ^ (- ival e))).
Proof. exact (pow_signed_fits r n x a e). Qed.
Print Assumptions C33_pow_signed_partial.

Theorem C33_pow_signed_all (A : Arch) (AOK : ArchOk A) (r : ring) (n : Z) (x : modulo) (a : Z) (e : ibig) :
  element r n x a -> ibig_ok e ->
  (0 <= ival e -> yields_mod r n (mod_pow_signed x e) (a ^ ival e) \/ no_memory (room_for_pow n (ival e)) (mod_pow_signed x e)) /\
  (ival e < 0 -> quotient_result r n (mod_pow_signed x e) 1 (a ^ (- ival e)) \/ gave_up n (mod_pow_signed x e) \/
                 (Z.gcd a n = 1 /\ no_memory (room_for_pow n (- ival e)) (mod_pow_signed x e))).
Proof. exact (pow_signed_all r n x a e). Qed.
Print Assumptions C33_pow_signed_all.

Theorem C33_pow_signed_refuted (A : Arch) (AOK : ArchOk A) : exists r n x e,
  element r n x 2 /\ Z.gcd 2 n = 1 /\ ibig_ok e /\ ival e = -1 /\ mod_pow_signed x e = Panic NumberTooLarge.
Proof. exact pow_signed_too_large. Qed.
Print Assumptions C33_pow_signed_refuted.

Definition C33_run {A : Arch} (n x : ubig) (op : modulo -> res modulo) : res Z :=
  r <- ring_new 1 n ;; a <- ubig_into_modulo x r ;; m <- op a ;; u <- residue m ;; Ok (uval u).

Example C33_small : let A := arch16 in
  map (fun e => C33_run (Small 1009) (Small 11) (fun m => mod_pow m e)) [Small 0; Small 1; Small 2; Small 13; lg [3; 1]] =
  [Ok 1; Ok 11; Ok 121; Ok (11 ^ 13 mod 1009); Ok 902].
Proof. cbv zeta. sample. Qed.
Example C33_one : let A := arch16 in C33_run (Small 1) (Small 11) (fun m => mod_pow m (Small 0)) = Ok 0.
Proof. cbv zeta. sample. Qed.
Example C33_large : let A := arch16 in
  map (fun e => C33_run (lg [1; 1]) (Small 3) (fun m => mod_pow m e)) [Small 0; Small 5; Small 200] = [Ok 1; Ok 243; Ok (3 ^ 200 mod 65537)].
Proof. cbv zeta. sample. Qed.
Example C33_signed : let A := arch16 in
  map (fun e => C33_run (Small 100) (Small 7) (fun m => mod_pow_signed m e)) [neg (Small 1); neg (Small 2); pos (Small 2)] = [Ok 43; Ok 49; Ok 49] /\
  C33_run (Small 100) (Small 6) (fun m => mod_pow_signed m (neg (Small 2))) = Panic NonInvertible.
Proof. cbv zeta. sample. Qed.
Example C33_rooms : let A := arch16 in
  room_for_pow 65537 (2 ^ 200) = true /\ room_for_pow (2 ^ 1000) 65537 = true /\ room_for_pow (2 ^ 20000) (2 ^ 9) = true /\
  room_for_pow (2 ^ 20000) (2 ^ 60) = false.
Proof. cbv zeta. sample. Qed.
