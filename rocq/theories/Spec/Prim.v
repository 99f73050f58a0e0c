(** Primitive integer types and the results of operations with them. *)
From Verif Require Import Model.Base Model.UBig Model.IBig Spec.Val Spec.Num.

Section Prim.
Context {A : Arch}.

(** The bit sizes of the primitive integer types. *)
Definition prim_bits (tb : Z) : Prop :=
  tb = 8 \/ tb = 16 \/ tb = 32 \/ tb = 64 \/ tb = 128 \/ tb = ubits.

(** The values of the signed or unsigned primitive type of [tb] bits. *)
Definition prim_range (sg : bool) (tb x : Z) : Prop :=
  if sg then - 2 ^ (tb - 1) <= x < 2 ^ (tb - 1) else 0 <= x < 2 ^ tb.

(** Division by [d] whose result is a primitive. *)
Definition pdiv_yields (d : Z) (r : res Z) (z : Z) : Prop :=
  (d = 0 -> r = Panic DivideByZero) /\ (d <> 0 -> r = Ok z).

(** Division by [d] of signed numbers whose quotient has to be unsigned. *)
Definition udiv_yields (d : Z) (r : res ubig) (z : Z) : Prop :=
  (d = 0 -> r = Panic DivideByZero) /\
  (d <> 0 -> 0 <= z -> exists u, r = Ok u /\ ubig_ok u /\ uval u = z) /\
  (d <> 0 -> z < 0 -> r = Panic NegativeUBig).

Definition udiv_rem_yields (d : Z) (r : res (ubig * Z)) (z1 z2 : Z) : Prop :=
  (d = 0 -> r = Panic DivideByZero) /\
  (d <> 0 -> 0 <= z1 -> exists u, r = Ok (u, z2) /\ ubig_ok u /\ uval u = z1) /\
  (d <> 0 -> z1 < 0 -> r = Panic NegativeUBig).

Definition ipdiv_rem_yields (d : Z) (r : res (ibig * Z)) (z1 z2 : Z) : Prop :=
  (d = 0 -> r = Panic DivideByZero) /\
  (d <> 0 -> exists x, r = Ok (x, z2) /\ ibig_ok x /\ ival x = z1).

End Prim.
