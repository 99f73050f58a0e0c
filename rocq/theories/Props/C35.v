(** C35: values of different rings never mix. *)
From Verif Require Import Model.Base Model.Words Model.Buffer Model.UBig Model.IBig Model.Modular
  Spec.Val Spec.Num Spec.Prim Spec.Modular Proofs.ModularApi Proofs.ModularTheorems Proofs.Samples.

(** Rings are different when they are different objects, even with equal moduli. *)
Theorem C35_different_rings (A : Arch) (AOK : ArchOk A) (x y : modulo) :
  ring_addr (ring_of x) <> ring_addr (ring_of y) ->
  Forall (fun op => op x y = Panic DifferentRings) (adds ++ subs ++ muls) /\ modulo_eq x y = Panic DifferentRings.
Proof. exact (different_rings x y). Qed.
Print Assumptions C35_different_rings.

(** Division looks for the inverse of the divisor first. *)
Theorem C35_div_different_rings (A : Arch) (AOK : ArchOk A) (r : ring) (n : Z) (x : modulo) (a : Z) (s : ring) (m : Z) (y : modulo) (b : Z) :
  element r n x a -> element s m y b -> ring_addr r <> ring_addr s ->
  Forall (fun op => (Z.gcd b m = 1 /\ op x y = Panic DifferentRings) \/ (Z.gcd b m <> 1 /\ op x y = Panic NonInvertible) \/ gave_up m (op x y)) divs.
Proof. exact (div_different_rings r n x a s m y b). Qed.
Print Assumptions C35_div_different_rings.

Definition C35_run {A : Arch} (n1 n2 x y : ubig) (op : modulo -> modulo -> res modulo) : res Z :=
  r <- ring_new 1 n1 ;; s <- ring_new 2 n2 ;; a <- ubig_into_modulo x r ;; b <- ubig_into_modulo y s ;; m <- op a b ;; u <- residue m ;; Ok (uval u).

Example C35_equal_moduli : let A := arch16 in
  map (C35_run (Small 100) (Small 100) (Small 5) (Small 7)) (adds ++ subs ++ muls ++ divs) = repeat (Panic DifferentRings) 24.
Proof. cbv zeta. sample. Qed.
Example C35_different_moduli : let A := arch16 in
  map (C35_run (Small 100) (lg [0; 1]) (Small 5) (Small 6)) (adds ++ subs ++ muls ++ divs) =
  repeat (Panic DifferentRings) 18 ++ repeat (Panic NonInvertible) 6.
Proof. cbv zeta. sample. Qed.
