(** C65: residues take linear time, inverses and quotients in a ring quadratic time. *)
From Coq Require Import ZArith List Lia.
From Verif Require Import Model.Base Model.Words Model.Buffer Model.UBig Model.IBig Model.Modular
  Model.Cost Model.CostOps Model.CostModular Model.CostInverse Spec.Val Spec.Num Spec.Modular
  Proofs.ModularProofs Proofs.ModularApi Proofs.CostInverseProofs Proofs.Samples.
Import ListNotations.
Open Scope Z_scope.

(** Model/CostInverse.v repeats src/modular/div.rs with the counter of Model/Cost.v.  The
    counter changes nothing. *)
Theorem C65_same (A : Arch) (x y : modulo) (e : ibig) :
  snd (c_residue x) = residue x /\ snd (c_inverse x) = inverse x /\ snd (c_mod_div_rr x y) = mod_div_rr x y /\
  snd (c_mod_pow_signed x e) = mod_pow_signed x e.
Proof. exact (conj (residue_erase x) (conj (inverse_erase x) (conj (mod_div_erase x y) (mod_pow_signed_erase x e)))). Qed.
Print Assumptions C65_same.

Theorem C65_residue (A : Arch) (AOK : ArchOk A) (r : ring) (n : Z) (x : modulo) (a k : Z) (z : ubig) :
  element r n x a -> c_residue x = (k, Ok z) -> residue x = Ok z /\ 0 <= k <= 8 * words_in n.
Proof. exact (residue_steps r n x a k z). Qed.
Print Assumptions C65_residue.

(** [o] is [None] if there is no inverse: that also is found in quadratic time. *)
Theorem C65_inverse (A : Arch) (AOK : ArchOk A) (r : ring) (n : Z) (x : modulo) (a k : Z) (o : option modulo) :
  element r n x a -> c_inverse x = (k, Ok o) ->
  inverse x = Ok o /\ 0 <= k <= (12000 + 280 * wbits) * (words_in n * words_in n).
Proof. exact (inverse_steps r n x a k o). Qed.
Print Assumptions C65_inverse.

Theorem C65_div (A : Arch) (AOK : ArchOk A) (r : ring) (n : Z) (x : modulo) (a : Z) (y : modulo) (b k : Z) (z : modulo) :
  element r n x a -> element r n y b -> c_mod_div_rr x y = (k, Ok z) ->
  mod_div_rr x y = Ok z /\ 0 <= k <= (16000 + 280 * wbits) * (words_in n * words_in n).
Proof. exact (div_steps r n x a y b k z). Qed.
Print Assumptions C65_div.

(** A power with a negative exponent is one inverse and one power. *)
Theorem C65_pow_signed (A : Arch) (AOK : ArchOk A) (r : ring) (n : Z) (x : modulo) (a : Z) (e : ibig) (k : Z) (z : modulo) :
  element r n x a -> ibig_ok e -> c_mod_pow_signed x e = (k, Ok z) ->
  mod_pow_signed x e = Ok z /\
  exists k1 k2, k = k1 + k2 /\ 0 <= k1 <= (12000 + 280 * wbits) * (words_in n * words_in n) /\ (0 <= ival e -> k1 = 0) /\
  0 <= k2 /\ k2 ^ 100 <= (7950 * (words_in n * (Z.log2 (Z.abs (ival e)) + 1))) ^ 100 * words_in n ^ 47.
Proof. exact (pow_signed_steps r n x a e k z). Qed.
Print Assumptions C65_pow_signed.

(** The steps and the value of an operation in the ring of [n]. *)
Definition C65_run {A : Arch} (n : ubig) (x y : ubig) (op : modulo -> modulo -> counted modulo) : res (Z * Z) :=
  r <- ring_new 1 n ;; a <- ubig_into_modulo x r ;; b <- ubig_into_modulo y r ;;
  let '(k, m) := op a b in m <- m ;; u <- residue m ;; Ok (k, uval u).

Example C65_hypotheses : let A := arch16 in exists r x y, element r (2 ^ 80 + 1) x (2 ^ 40) /\ element r (2 ^ 80 + 1) y 7 /\ words_in (2 ^ 80 + 1) = 6.
Proof.
  cbv zeta. destruct (@ring_new_ring arch16 _ 3 (lg [1; 0; 0; 0; 0; 1])) as (r & _ & Hr & _); [sample|discriminate|]. exists r.
  change (uval (lg [1; 0; 0; 0; 0; 1])) with (2 ^ 80 + 1) in Hr.
  destruct (@unsigned_into_modulo_spec arch16 _ r (2 ^ 80 + 1) 64 (2 ^ 40) Hr) as (x & _ & Hx); [right; right; right; left; reflexivity|split; [discriminate|reflexivity]|].
  destruct (@unsigned_into_modulo_spec arch16 _ r (2 ^ 80 + 1) 64 7 Hr) as (y & _ & Hy); [right; right; right; left; reflexivity|split; [discriminate|reflexivity]|].
  exists x, y. split; [exact Hx|]. split; [exact Hy|reflexivity].
Qed.
(** 2^40 / 7 in the ring of 2^48 + 1, 3^-100 in the ring of 2^32 + 1, 34 in the ring of 2^32. *)
Example C65_quotient : let A := arch16 in
  C65_run (lg [1; 0; 0; 1]) (lg [0; 0; 256]) (Small 7) c_mod_div_rr = Ok (407, 241421338841674) /\ (7 * 241421338841674) mod (2 ^ 48 + 1) = 2 ^ 40.
Proof. vm_compute. split; reflexivity. Qed.
Example C65_negative_power : let A := arch16 in
  C65_run (lg [1; 0; 1]) (Small 3) (Small 0) (fun x _ => c_mod_pow_signed x (mkIBig Negative (Small 100))) = Ok (662, 2309283524) /\
  (3 ^ 100 * 2309283524) mod (2 ^ 32 + 1) = 1.
Proof. vm_compute. split; reflexivity. Qed.
Example C65_no_inverse : let A := arch16 in
  (r <- ring_new 1 (lg [0; 0; 1]) ;; a <- ubig_into_modulo (Small 34) r ;; Ok (c_inverse a)) = Ok (298, Ok None).
Proof. vm_compute. reflexivity. Qed.
(** The steps of differences of equally long and of longer and shorter numbers. *)
Example C65_differences : let A := arch16 in
  map (fun '(x, y) => let '(k, r) := c_sub_ubig_val_val (lg x) (lg y) in x <- r ;; Ok (k, ival x))
    [([1; 2; 3], [1; 2; 4]); ([1; 2; 3], [1; 2; 3; 4; 5]); ([1; 2; 3; 4; 5], [1; 2; 3])] =
  [Ok (17, - 2 ^ 32); Ok (27, - val [0; 0; 0; 4; 5]); Ok (27, val [0; 0; 0; 4; 5])].
Proof. vm_compute. reflexivity. Qed.
