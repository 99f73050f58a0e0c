(** C49: the constants and tables of the number-theoretic transform. *)
From Coq Require Import Znumtheory Lia.
From Verif Require Import Model.Base Model.Words Model.Buffer Model.UBig Model.Modular Model.Ntt
  Spec.Val Spec.Order Proofs.NttProofs Proofs.Samples.

(** The moduli are primes of the form k * 2^MAX_ORDER + 1 that fit in a word. *)
Theorem C49_primes (A : Arch) (AOK : ArchOk A) (p : Prime) : In p PRIMES ->
  prime (p_prime p) /\ (2 ^ NTT_MAX_ORDER | p_prime p - 1) /\ p_prime p < 2 ^ wbits.
Proof. exact (ntt_prime p). Qed.
Print Assumptions C49_primes.

(** [has_order x k p]: [k] is the least positive exponent for which the power is one. *)
Theorem C49_max_order_root (A : Arch) (AOK : ArchOk A) (p : Prime) : In p PRIMES ->
  has_order (p_max_order_root p) (2 ^ NTT_MAX_ORDER) (p_prime p).
Proof. exact (ntt_root p). Qed.
Print Assumptions C49_max_order_root.

(** Both tables are computed without a panic; the entry for order [k] is a root of
    unity of order exactly 2^k, and the entries of the other table are the inverses. *)
Theorem C49_tables (A : Arch) (AOK : ArchOk A) (p : Prime) : In p PRIMES ->
  exists f roots inverses, field p = Ok f /\ ROOTS p = Ok roots /\ INVERSE_ROOTS p = Ok inverses /\
  Z.of_nat (length roots) = NTT_MAX_ORDER + 1 /\ Z.of_nat (length inverses) = NTT_MAX_ORDER + 1 /\
  forall k, 0 <= k <= NTT_MAX_ORDER -> exists x y,
    raw_residue (nth (Z.to_nat k) roots 0) f = Ok x /\ raw_residue (nth (Z.to_nat k) inverses 0) f = Ok y /\
    0 <= x < p_prime p /\ 0 <= y < p_prime p /\ has_order x (2 ^ k) (p_prime p) /\ (x * y) mod p_prime p = 1.
Proof. exact (ntt_tables p). Qed.
Print Assumptions C49_tables.

(** The three primes are different, and their product exceeds every coefficient of a
    convolution of 2^MAX_ORDER words, so that it can be recovered from its residues. *)
Theorem C49_capacity (A : Arch) (AOK : ArchOk A) :
  NoDup (map p_prime PRIMES) /\ length PRIMES = 3%nat /\
  2 ^ NTT_MAX_ORDER * ((2 ^ wbits - 1) * (2 ^ wbits - 1)) < fold_right (fun p n => p_prime p * n) 1 PRIMES.
Proof. exact ntt_capacity. Qed.
Print Assumptions C49_capacity.

(** "any multiplication whose result fits in MAX_LEN can fit within the largest
    possible number-theoretic transform" (src/ubig.rs:90-91) *)
Theorem C49_long_enough (A : Arch) (AOK : ArchOk A) : MAX_LEN <= 2 ^ NTT_MAX_ORDER.
Proof. exact ntt_long_enough. Qed.
Print Assumptions C49_long_enough.

Example C49_case : let A := arch16 in In (mkPrime 0x3001 0x29) PRIMES /\
  (t <- ROOTS (mkPrime 0x3001 0x29) ;; f <- field (mkPrime 0x3001 0x29) ;; x <- raw_residue (nth 1 t 0) f ;; y <- raw_residue (nth 12 t 0) f ;; Ok (x, y)) = Ok (0x3000, 0x29) /\
  (t <- INVERSE_ROOTS (mkPrime 0x3001 0x29) ;; f <- field (mkPrime 0x3001 0x29) ;; y <- raw_residue (nth 12 t 0) f ;; Ok ((y * 0x29) mod 0x3001)) = Ok 1.
Proof. cbv zeta. split; [left; reflexivity|]. sample. Qed.
Example C49_order : has_order 3 4 5.
Proof. split; [reflexivity|]. intros j H. assert (E : j = 1 \/ j = 2 \/ j = 3) by lia. destruct E as [->|[->| ->]]; discriminate. Qed.
