(** What the benchmarks are to measure. *)
From Coq Require Import ZArith.
From Verif Require Import Model.Base Model.UBig Model.Rand Spec.Val Spec.Num Spec.Rand.
Open Scope Z_scope.

(** Whatever numbers the generator gives, the program does not panic, and its result
    satisfies [P] if enough attempts were made. *)
Definition never_panics {T : Type} (m : rand (option T)) (P : T -> Prop) : Prop :=
  forall cs r, runs m cs r -> r = Base.Ok None \/ exists x, r = Base.Ok (Some x) /\ P x.

(** A number of exactly [n] bits. *)
Definition has_bits {A : Arch} (n : Z) (u : ubig) : Prop := ubig_ok u /\ 0 < uval u /\ Z.log2 (uval u) + 1 = n.
