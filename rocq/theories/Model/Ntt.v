(** The tables of the number-theoretic transform: src/mul/ntt.rs and
    src/arch/generic_{16,32,64}_bit/ntt.rs.  Definitions only.

    The code computes these tables but does not use them yet.  The fields are
    constants; their addresses (see Model/Modular.v) do not matter and are 0. *)
From Verif Require Import Model.Base Model.Words Model.FastDivide Model.Buffer Model.Modular.

(** src/mul/ntt.rs:15-20 *)
Record Prime := mkPrime { p_prime : Z; p_max_order_root : Z }.

Section Ntt.
Context {A : Arch}.

(** src/arch/generic_{16,32,64}_bit/ntt.rs:9-22 *)
Definition PRIMES : list Prime :=
  if wbits =? 16 then [mkPrime 0x3001 0x29; mkPrime 0xa001 0x1c; mkPrime 0xf001 0x13]
  else if wbits =? 32 then [mkPrime 0xc0000001 0x3; mkPrime 0xd0000001 0x79; mkPrime 0xe8000001 0x23]
  else [mkPrime 0xbe00000000000001 0x37; mkPrime 0xd800000000000001 0x40; mkPrime 0xf600000000000001 0x1ed].

(** src/mul/ntt.rs:23-27: one of the FIELDS *)
Definition field (p : Prime) : res ring_small := ring_small_new 0 (p_prime p).

(** The elements of src/mul/ntt.rs:31-33 have one component for each prime, and all
    operations work on the components separately; so the model has the operations
    on the component of one prime. *)

(** src/mul/ntt.rs:35-46 *)
Definition component_from_word (p : Prime) (x : Z) : res Z := f <- field p ;; raw_from_word x f.

(** src/mul/ntt.rs:55-63 *)
Definition component_mul (p : Prime) (a b : Z) : res Z := f <- field p ;; raw_mul a b f.

(** src/mul/ntt.rs:65-73 *)
Definition component_inverse (p : Prime) (a : Z) : res Z :=
  f <- field p ;; e <- word_chk (p_prime p - 2) ;; pow_word a e f.

(** src/mul/ntt.rs:76-82 *)
Definition max_order_root (p : Prime) : res Z := component_from_word p (p_max_order_root p).

(** src/mul/ntt.rs:98-101: the loop, from the entry [root] for [order] down; the
    entries for the orders 0, ..., order. *)
Fixpoint roots_loop (order : nat) (p : Prime) (root : Z) (table : list Z) : res (list Z) :=
  match order with
  | O => Ok (root :: table)
  | S order => square <- component_mul p root root ;; roots_loop order p square (root :: table)
  end.

(** src/mul/ntt.rs:94-103 *)
Definition generate_roots (p : Prime) (max_order_root : Z) : res (list Z) :=
  roots_loop (Z.to_nat NTT_MAX_ORDER) p max_order_root [].

(** src/mul/ntt.rs:88 *)
Definition ROOTS (p : Prime) : res (list Z) := r <- max_order_root p ;; generate_roots p r.

(** src/mul/ntt.rs:92 *)
Definition INVERSE_ROOTS (p : Prime) : res (list Z) :=
  r <- max_order_root p ;; i <- component_inverse p r ;; generate_roots p i.

End Ntt.
