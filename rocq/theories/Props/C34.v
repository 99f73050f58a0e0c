(** C34: modular inverse and division. *)
From Verif Require Import Model.Base Model.Words Model.Buffer Model.UBig Model.IBig Model.Modular
  Spec.Val Spec.Num Spec.Prim Spec.Modular Proofs.ModularApi Proofs.ModularTheorems Proofs.Samples.

(** The full statements would be these without the bound on the modulus and without the
    condition on memory.  They are false for moduli of MAX_BIT_LEN bits, see C24, and for
    those the products of which need too much scratch memory, see C32. *)
Theorem C34_inverse_partial (A : Arch) (AOK : ArchOk A) (r : ring) (n : Z) (x : modulo) (a : Z) :
  element r n x a -> 2 * n < MAXV -> inverse_result r n (inverse x) a.
Proof. exact (inverse_fits r n x a). Qed.
Print Assumptions C34_inverse_partial.

Theorem C34_div_partial (A : Arch) (AOK : ArchOk A) (r : ring) (n : Z) (x : modulo) (a : Z) (y : modulo) (b : Z) :
  element r n x a -> element r n y b -> 2 * n < MAXV -> room_for_mul n = true -> Forall (fun op => quotient_result r n (op x y) a b) divs.
Proof. exact (divs_fits r n x a y b). Qed.
Print Assumptions C34_div_partial.

(** For all moduli: the result is right, or the operation panics because a number became
    too large or there is no memory for a product. *)
Theorem C34_inverse_all (A : Arch) (AOK : ArchOk A) (r : ring) (n : Z) (x : modulo) (a : Z) :
  element r n x a -> inverse_result r n (inverse x) a \/ gave_up n (inverse x).
Proof. exact (inverse_all r n x a). Qed.
Print Assumptions C34_inverse_all.

Theorem C34_div_all (A : Arch) (AOK : ArchOk A) (r : ring) (n : Z) (x : modulo) (a : Z) (y : modulo) (b : Z) :
  element r n x a -> element r n y b -> Forall (fun op => quotient_or_stop r n (op x y) a b) divs.
Proof. exact (divs_all r n x a y b). Qed.
Print Assumptions C34_div_all.

(** On every machine, 2 has an inverse in the ring of the largest modulus, but the
    operations panic. *)
Theorem C34_inverse_refuted (A : Arch) (AOK : ArchOk A) : exists r n x y,
  element r n x 2 /\ element r n y 1 /\ Z.gcd 2 n = 1 /\ inverse x = Panic NumberTooLarge /\
  Forall (fun op => op y x = Panic NumberTooLarge) divs.
Proof. exact inverse_too_large. Qed.
Print Assumptions C34_inverse_refuted.

Definition C34_inverse_run {A : Arch} (n x : ubig) : res (option Z) :=
  r <- ring_new 1 n ;; a <- ubig_into_modulo x r ;; o <- inverse a ;;
  match o with None => Ok None | Some m => u <- residue m ;; Ok (Some (uval u)) end.
Definition C34_div_run {A : Arch} (n x y : ubig) (op : modulo -> modulo -> res modulo) : res Z :=
  r <- ring_new 1 n ;; a <- ubig_into_modulo x r ;; b <- ubig_into_modulo y r ;; m <- op a b ;; u <- residue m ;; Ok (uval u).

Example C34_inverse_values : let A := arch16 in
  map (C34_inverse_run (Small 100)) [Small 7; Small 6; Small 0; Small 99] = [Ok (Some 43); Ok None; Ok None; Ok (Some 99)] /\
  map (C34_inverse_run (lg [1; 1])) [Small 2; Small 0; lg [0; 1]] = [Ok (Some 32769); Ok None; Ok (Some 65536)] /\
  C34_inverse_run (Small 1) (Small 0) = Ok (Some 0).
Proof. cbv zeta. sample. Qed.
Example C34_div_values : let A := arch16 in
  map (C34_div_run (Small 100) (Small 5) (Small 7)) divs = repeat (Ok 15) 6 /\
  C34_div_run (Small 100) (Small 5) (Small 10) mod_div_vv = Panic NonInvertible.
Proof. cbv zeta. sample. Qed.
