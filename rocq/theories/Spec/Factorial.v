(** Factorials and the products they are made of.  Independent of the model. *)
From Coq Require Import ZArith List.
Open Scope Z_scope.

(** a * (a+1) * ... * (b-1) *)
Definition run_product (a b : Z) : Z := fold_right Z.mul 1 (map (fun i => a + Z.of_nat i) (seq 0 (Z.to_nat (b - a)))).

(** 1 * 2 * ... * n *)
Definition factorial (n : Z) : Z := run_product 1 (n + 1).
