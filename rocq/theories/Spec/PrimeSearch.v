(** What the search for primes is to find.  Independent of the model. *)
From Coq Require Import ZArith Znumtheory List Sorted.
From Verif Require Import Spec.Order.
Open Scope Z_scope.

(** A prime that fits [bits] bits and has roots of unity of order 2^order. *)
Definition suitable (bits order p : Z) : Prop := prime p /\ (2 ^ order | p - 1) /\ p < 2 ^ bits.

(** The least number of order exactly 2^order modulo [p]. *)
Definition least_root (order p g : Z) : Prop :=
  1 <= g < p /\ has_order g (2 ^ order) p /\ forall h, 1 <= h -> has_order h (2 ^ order) p -> g <= h.

(** [order] is the largest for which there are three suitable primes, [primes] are all
    suitable primes, and [roots] their least roots. *)
Definition search_result (bits order : Z) (primes roots : list Z) : Prop :=
  1 <= order < bits /\ (3 <= length primes)%nat /\
  (forall l, NoDup l -> Forall (suitable bits (order + 1)) l -> (length l < 3)%nat) /\
  StronglySorted Z.lt primes /\ (forall p, In p primes <-> suitable bits order p) /\
  Forall2 (least_root order) primes roots.

(** The product of the last three exceeds every coefficient of the product of two
    sequences of 2^(order-1) words. *)
Definition enough (bits order : Z) (primes : list Z) : bool :=
  (2 ^ bits - 1) * (2 ^ bits - 1) * 2 ^ (order - 1) <? fold_right Z.mul 1 (skipn (length primes - 3) primes).
