(** Roots of unity modulo a number.  Independent of the model. *)
From Coq Require Import ZArith.
Open Scope Z_scope.

(** [x] has order exactly [k] modulo [p]. *)
Definition has_order (x k p : Z) : Prop :=
  x ^ k mod p = 1 /\ forall j, 0 < j < k -> x ^ j mod p <> 1.
