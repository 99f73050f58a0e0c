(** C51: the announced scratch memory is what the algorithms use, and it can be
    asked for. *)
From Coq Require Import ZArith List Lia.
From Verif Require Import Model.Base Model.Words Model.Buffer Model.Mul Model.Div Model.Modular Model.RawMemory
  Spec.Val Spec.Chunk Proofs.RawMemoryProofs Proofs.Samples.
Import ListNotations.
Open Scope Z_scope.

(** [mul_memory] etc. are the numbers of words that the multiplication is proved to
    get by with (C05, C07).  The layout announced by the code has exactly that size; if
    it exceeds isize::MAX bytes, the outcome is "out of memory", never an
    arithmetic overflow. *)
Theorem C51_mul_layout (A : Arch) (AOK : ArchOk A) (t : ty) (n : nat) :
  type_ok t -> Z.of_nat n <= MAX_LEN -> lays_out t (mul_layout t n) (mul_memory n).
Proof. exact (lays_mul t n). Qed.
Print Assumptions C51_mul_layout.

(** Products that are representable: the layout always fits. *)
Theorem C51_mul_fits (A : Arch) (AOK : ArchOk A) (t : ty) (n : nat) :
  word_type t -> 2 * Z.of_nat n <= MAX_LEN + 4 -> exists l, mul_layout t n = Ok l /\ for_words t (mul_memory n) l.
Proof. exact (mul_layout_fits t n). Qed.
Print Assumptions C51_mul_fits.

Theorem C51_div_fits (A : Arch) (AOK : ArchOk A) (t : ty) (n k : nat) :
  word_type t -> (2 <= k <= n)%nat -> Z.of_nat n <= MAX_LEN + 4 ->
  exists mem l, div_memory n k = Ok mem /\ div_layout t n k = Ok l /\ for_words t mem l.
Proof. exact (div_fits t n k). Qed.
Print Assumptions C51_div_fits.

(** Every buffer of the library, at its largest capacity, is a legal array. *)
Theorem C51_buffer_fits (A : Arch) (AOK : ArchOk A) (t : ty) (c : Z) :
  word_type t -> 0 <= c <= MAX_LEN + 4 -> array_layout t c = Ok (mkLayout (c * t_size t) (t_align t)).
Proof. exact (buffer_fits t c). Qed.
Print Assumptions C51_buffer_fits.

Lemma word16 : @word_type arch16 (mkTy 2 2).
Proof. split; [split; [exists 1; cbn; lia|split; [cbn; lia|exists 1; reflexivity]]|reflexivity]. Qed.
Lemma word32 : @word_type arch32 (mkTy 4 4).
Proof. split; [split; [exists 2; cbn; lia|split; [cbn; lia|exists 1; reflexivity]]|reflexivity]. Qed.

Example C51_fits_ex : let A := arch16 in let t := mkTy 2 2 in
  word_type t /\ mul_layout t 20 = Ok (mkLayout 0 1) /\ mul_layout t 100 = Ok (mkLayout (2 * mul_memory 100) 2) /\
  mul_memory 100 = 214 /\ mul_memory 200 = 904 /\ mul_layout t 200 = Ok (mkLayout 1808 2) /\
  div_layout t 200 100 = Ok (mkLayout (2 * mul_memory 50) 2) /\
  array_layout t (MAX_LEN + 4) = Ok (mkLayout (2 * (MAX_LEN + 4)) 2) /\ array_layout t (2 ^ 14) = Panic OutOfMemory.
Proof. cbv zeta. split; [exact word16|]. sample. Qed.

(** Multiplication in a ring with a modulus of [n] words. *)
Theorem C51_ring_mul_layout (A : Arch) (AOK : ArchOk A) (t : ty) (n : nat) :
  word_type t -> (2 <= n)%nat -> Z.of_nat n <= MAX_LEN ->
  exists d, div_memory (2 * n) n = Ok d /\ lays_out t (ring_mul_layout t n) (2 * Z.of_nat n + Z.max (mul_memory n) d) /\ 0 <= d.
Proof. exact (lays_ring_mul t n). Qed.
Print Assumptions C51_ring_mul_layout.

(** It always fits on 64-bit machines, and elsewhere for moduli of at most half the
    largest length. *)
Theorem C51_ring_mul_fits_partial (A : Arch) (AOK : ArchOk A) (t : ty) (n : nat) :
  word_type t -> (2 <= n)%nat -> Z.of_nat n <= MAX_LEN -> 2 * Z.of_nat n <= MAX_LEN \/ ubits = 64 ->
  exists d l, div_memory (2 * n) n = Ok d /\ ring_mul_layout t n = Ok l /\ for_words t (2 * Z.of_nat n + Z.max (mul_memory n) d) l.
Proof. exact (ring_mul_fits t n). Qed.
Print Assumptions C51_ring_mul_fits_partial.

(** Without the last hypothesis this fails: on a 32-bit machine there are moduli
    whose ring can be created, but every multiplication in it ends in "out of
    memory" before the allocator is asked. *)
Theorem C51_ring_mul_refuted :
  exists (A : Arch) (AOK : ArchOk A) (n : nat), wbits = 32 /\ ubits = 32 /\ (2 <= n)%nat /\ Z.of_nat n <= MAX_LEN /\
  forall t, word_type t -> ring_mul_layout t n = Panic OutOfMemory.
Proof. exact ring_mul_refuted. Qed.
Print Assumptions C51_ring_mul_refuted.

(** Exponentiation, with its table of odd powers. *)
Theorem C51_ring_pow_layout (A : Arch) (AOK : ArchOk A) (t : ty) (n : nat) (window_len : Z) :
  word_type t -> (2 <= n)%nat -> Z.of_nat n <= MAX_LEN -> 1 <= window_len ->
  exists d, div_memory (2 * n) n = Ok d /\
  lays_out t (ring_pow_layout t n window_len) ((2 ^ (window_len - 1) - 1) * Z.of_nat n + (2 * Z.of_nat n + Z.max (mul_memory n) d)).
Proof. exact (lays_ring_pow t n window_len). Qed.
Print Assumptions C51_ring_pow_layout.

Example C51_ring_ex : let A := arch16 in let t := mkTy 2 2 in
  ring_mul_layout t 2 = Ok (mkLayout 8 2) /\ ring_mul_layout t 100 = Ok (mkLayout (2 * (200 + 214)) 2) /\
  ring_pow_layout t 2 4 = Ok (mkLayout (2 * (7 * 2 + 4)) 2) /\ ring_pow_layout t 2 14 = Panic OutOfMemory /\
  ring_pow_layout t 2 20 = Panic OutOfMemory /\ word_type (A := arch32) (mkTy 4 4).
Proof. cbv zeta. repeat split; try (vm_compute; reflexivity). exists 2; cbn; lia. exists 1; reflexivity. Qed.
