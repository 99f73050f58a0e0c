(** C64: the number of steps of modular arithmetic. *)
From Coq Require Import ZArith List Lia.
From Verif Require Import Model.Base Model.Words Model.Buffer Model.UBig Model.IBig Model.Modular
  Model.Cost Model.CostOps Model.CostModular Spec.Val Spec.Num Spec.Modular
  Proofs.ModularProofs Proofs.ModularApi Proofs.CostModularProofs Proofs.CostModularPow Proofs.CostModularTheorems Proofs.Samples.
Import ListNotations.
Open Scope Z_scope.

(** Model/CostModular.v repeats src/modular with the counter of Model/Cost.v.  The counter
    changes nothing. *)
Theorem C64_same (A : Arch) (x y : modulo) (e u : ubig) (r : ring) :
  snd (c_mod_neg_v x) = mod_neg_v x /\ snd (c_mod_add_assign_r x y) = mod_add_assign_r x y /\
  snd (c_mod_sub_assign_r x y) = mod_sub_assign_r x y /\ snd (c_mod_sub_rv x y) = mod_sub_rv x y /\
  snd (c_mod_mul_assign_r x y) = mod_mul_assign_r x y /\ snd (c_mod_pow x e) = mod_pow x e /\
  snd (c_ubig_into_modulo u r) = ubig_into_modulo u r.
Proof.
  exact (conj (neg_erase x) (conj (mod_add_erase x y) (conj (mod_sub_erase x y) (conj (mod_sub_swap_erase x y)
    (conj (mod_mul_erase x y) (conj (mod_pow_erase x e) (into_modulo_erase u r))))))).
Qed.
Print Assumptions C64_same.

(** Sums, differences and negations: linear in the length of the modulus. *)
Theorem C64_neg (A : Arch) (AOK : ArchOk A) (r : ring) (n : Z) (x : modulo) (a k : Z) (z : modulo) :
  element r n x a -> c_mod_neg_v x = (k, Ok z) -> mod_neg_v x = Ok z /\ 0 <= k <= 6 * words_in n.
Proof. exact (neg_steps r n x a k z). Qed.
Print Assumptions C64_neg.

Theorem C64_sum (A : Arch) (AOK : ArchOk A) (f : modulo -> modulo -> counted modulo) (g : modulo -> modulo -> res modulo)
  (r : ring) (n : Z) (x : modulo) (a : Z) (y : modulo) (b k : Z) (z : modulo) :
  In (f, g) [(c_mod_add_assign_r, mod_add_assign_r); (c_mod_sub_assign_r, mod_sub_assign_r); (c_mod_sub_rv, mod_sub_rv)] ->
  element r n x a -> element r n y b -> f x y = (k, Ok z) -> g x y = Ok z /\ 0 <= k <= 6 * words_in n.
Proof. exact (sum_steps f g r n x a y b k z). Qed.
Print Assumptions C64_sum.

(** With N the number of words of the modulus, products take at most 3975 N^1.47 steps. *)
Theorem C64_mul (A : Arch) (AOK : ArchOk A) (r : ring) (n : Z) (x : modulo) (a : Z) (y : modulo) (b k : Z) (z : modulo) :
  element r n x a -> element r n y b -> c_mod_mul_assign_r x y = (k, Ok z) ->
  mod_mul_assign_r x y = Ok z /\ 0 <= k /\ k ^ 100 <= (3975 * words_in n) ^ 100 * words_in n ^ 47.
Proof. exact (CostModularTheorems.mul_steps r n x a y b k z). Qed.
Print Assumptions C64_mul.

(** Bringing a number into the ring takes as many steps as a division. *)
Theorem C64_into (A : Arch) (AOK : ArchOk A) (r : ring) (n : Z) (u : ubig) (k : Z) (z : modulo) :
  is_ring r n -> ubig_ok u -> c_ubig_into_modulo u r = (k, Ok z) ->
  ubig_into_modulo u r = Ok z /\ 0 <= k /\ k ^ 100 <= (1935 * (ulen u + words_in n)) ^ 100 * words_in n ^ 47.
Proof. exact (into_steps r n u k z). Qed.
Print Assumptions C64_into.

(** A power takes fewer steps than two products for each bit of the exponent. *)
Theorem C64_pow (A : Arch) (AOK : ArchOk A) (r : ring) (n : Z) (x : modulo) (a : Z) (e : ubig) (k : Z) (z : modulo) :
  element r n x a -> ubig_ok e -> c_mod_pow x e = (k, Ok z) ->
  mod_pow x e = Ok z /\ 0 <= k /\ k ^ 100 <= (7950 * (words_in n * (Z.log2 (uval e) + 1))) ^ 100 * words_in n ^ 47.
Proof. exact (pow_steps r n x a e k z). Qed.
Print Assumptions C64_pow.

(** The length of the windows is the best one: src/modular/pow.rs:230-245 stops at the first
    minimum of the estimate, and the estimate has no other. *)
Theorem C64_best_window (A : Arch) (AOK : ArchOk A) (bits : Z) : 0 <= bits < 2 ^ ubits ->
  exists w, choose_pow_window_len bits = Ok w /\ 1 <= w < Z.min wbits ubits /\
  forall w', 1 <= w' < Z.min wbits ubits -> 2 ^ (w - 1) - 1 + bits / (w + 1) <= 2 ^ (w' - 1) - 1 + bits / (w' + 1).
Proof. exact (choose_best bits). Qed.
Print Assumptions C64_best_window.

(** In a ring of at least two words: one square for each bit, the odd powers below 2^w, and
    one product for each window of w bits.  [P] bounds the steps of a product. *)
Theorem C64_windows (A : Arch) (AOK : ArchOk A) (m : modulo_large) (e : ubig) (k : Z) (x : modulo_large) :
  2 <= len (rl_modulus (ml_ring m)) -> ubig_ok e -> 2 <= uval e -> c_large_pow m e = (k, Ok x) ->
  let N := len (rl_modulus (ml_ring m)) in
  let bits := Z.log2 (uval e) + 1 in
  exists w P, 1 <= w < Z.min wbits ubits /\
    (forall w', 1 <= w' < Z.min wbits ubits -> 2 ^ (w - 1) - 1 + bits / (w + 1) <= 2 ^ (w' - 1) - 1 + bits / (w' + 1)) /\
    70 <= P /\ P ^ 100 <= (3975 * N) ^ 100 * N ^ 47 /\ k <= P * (bits + (2 ^ (w - 1) - 1) + (bits - 2) / w) + wbits + 6.
Proof. exact (large_pow_steps m e k x). Qed.
Print Assumptions C64_windows.

(** The steps and the value of an operation in the ring of [n]. *)
Definition C64_run {A : Arch} (n : ubig) (x y : ubig) (op : modulo -> modulo -> counted modulo) : res (Z * Z) :=
  r <- ring_new 1 n ;; a <- ubig_into_modulo x r ;; b <- ubig_into_modulo y r ;;
  let '(k, m) := op a b in m <- m ;; u <- residue m ;; Ok (k, uval u).

Example C64_hypotheses : let A := arch16 in exists r x y, element r (2 ^ 80 + 1) x (2 ^ 40) /\ element r (2 ^ 80 + 1) y 7 /\ words_in (2 ^ 80 + 1) = 6.
Proof.
  cbv zeta. destruct (@ring_new_ring arch16 _ 3 (lg [1; 0; 0; 0; 0; 1])) as (r & _ & Hr & _); [sample|discriminate|]. exists r.
  change (uval (lg [1; 0; 0; 0; 0; 1])) with (2 ^ 80 + 1) in Hr.
  destruct (@unsigned_into_modulo_spec arch16 _ r (2 ^ 80 + 1) 64 (2 ^ 40) Hr) as (x & _ & Hx); [right; right; right; left; reflexivity|split; [discriminate|reflexivity]|].
  destruct (@unsigned_into_modulo_spec arch16 _ r (2 ^ 80 + 1) 64 7 Hr) as (y & _ & Hy); [right; right; right; left; reflexivity|split; [discriminate|reflexivity]|].
  exists x, y. split; [exact Hx|]. split; [exact Hy|reflexivity].
Qed.
Example C64_linear : let A := arch16 in
  map (C64_run (lg [1; 0; 0; 0; 0; 1]) (lg [0; 0; 256]) (lg [7; 0; 9])) [c_mod_add_assign_r; c_mod_sub_rv; fun x _ => c_mod_neg_v x] =
  [Ok (21, 2 ^ 40 + 7 + 9 * 2 ^ 32); Ok (14, 2 ^ 40 - 7 - 9 * 2 ^ 32); Ok (21, 2 ^ 80 + 1 - 2 ^ 40)].
Proof. vm_compute. reflexivity. Qed.
Example C64_product : let A := arch16 in
  C64_run (lg [1; 0; 0; 0; 0; 1]) (lg [0; 0; 256]) (lg [7; 0; 9]) c_mod_mul_assign_r = Ok (134, 2 ^ 40 * (7 + 9 * 2 ^ 32) mod (2 ^ 80 + 1)).
Proof. vm_compute. reflexivity. Qed.
Example C64_power : let A := arch16 in
  C64_run (lg [1; 0; 0; 0; 0; 1]) (Small 3) (Small 0) (fun x _ => c_mod_pow x (Small 1000)) = Ok (1759, 3 ^ 1000 mod (2 ^ 80 + 1)).
Proof. vm_compute. reflexivity. Qed.
Example C64_small_power : let A := arch16 in
  C64_run (Small 10007) (Small 3) (Small 0) (fun x _ => c_mod_pow x (lg [41113; 1])) = Ok (24, 6295).
Proof. vm_compute. reflexivity. Qed.
Example C64_window_lengths : let A := arch16 in
  map choose_pow_window_len [1; 10; 50; 100; 500; 1000; 5000; 65535] = map Ok [1; 2; 3; 4; 5; 6; 8; 10].
Proof. vm_compute. reflexivity. Qed.
(** Sums at or above the modulus and differences below zero are corrected in one more pass. *)
Example C64_wrap : let A := arch16 in
  (map (C64_run (lg [1; 0; 0; 0; 0; 1]) (lg [0; 0; 0; 0; 0; 1]) (lg [7; 0; 9])) [c_mod_add_assign_r; c_mod_sub_assign_r; c_mod_sub_rv],
   map (C64_run (lg [1; 0; 0; 0; 0; 1]) (lg [7; 0; 9]) (lg [0; 0; 0; 0; 0; 1])) [c_mod_sub_assign_r; c_mod_sub_rv])
  = ([Ok (28, val [6; 0; 9]); Ok (14, 2 ^ 80 - val [7; 0; 9]); Ok (14, 2 ^ 80 - val [7; 0; 9])], [Ok (21, val [8; 0; 9]); Ok (21, val [8; 0; 9])]).
Proof. vm_compute. reflexivity. Qed.
Example C64_carry : let A := arch16 in let x := lg [0; 0; 0; 0; 0; 32769] in
  C64_run (lg [1; 0; 0; 0; 0; 32769]) x x c_mod_add_assign_r = Ok (21, 32769 * 2 ^ 80 - 1).
Proof. vm_compute. reflexivity. Qed.
Example C64_first_power : let A := arch16 in let x := lg [0; 0; 0; 0; 0; 1] in
  C64_run (lg [1; 0; 0; 0; 0; 1]) x x (fun x _ => c_mod_pow x (Small 1)) = Ok (7, 2 ^ 80).
Proof. vm_compute. reflexivity. Qed.
Example C64_into_small : let A := arch16 in
  (r <- ring_new 1 (Small 10007) ;; let '(k, m) := c_ubig_into_modulo (lg [7; 0; 9]) r in m <- m ;; u <- residue m ;; Ok (k, uval u)) = Ok (4, val [7; 0; 9] mod 10007).
Proof. vm_compute. reflexivity. Qed.
