(** C66: the factorial example. *)
From Verif Require Import Model.Base Model.Buffer Model.UBig Model.Tools
  Spec.Val Spec.Num Spec.Digits Spec.FmtText Spec.Factorial Proofs.FactorialProofs Proofs.Samples Proofs.TextSamples.

(** [product a b] is a * (a+1) * ... * (b-1), for all numbers the argument type allows. *)
Theorem C66_product (A : Arch) (AOK : ArchOk A) (a b : Z) :
  1 <= a < b -> b < 2 ^ 32 -> yields (product a b) (run_product a b).
Proof. exact (product_spec a b). Qed.
Print Assumptions C66_product.

(** The program, for any number in the place of a million: it prints the factorial in
    base 16, or panics as documented when that is too large. *)
Theorem C66_prints (A : Arch) (AOK : ArchOk A) (be : bool) (n : Z) : 1 <= n < 2 ^ 32 - 1 ->
  (factorial n < MAXV -> exists ds, canonical 16 (factorial n) ds /\ factorial_text be n = Ok ([48; 120] ++ map (digit_text false) ds)) /\
  (MAXV <= factorial n -> factorial_text be n = Panic NumberTooLarge).
Proof. exact (factorial_prints be n). Qed.
Print Assumptions C66_prints.

(** The factorial of a million is not too large with words of 32 or 64 bits. *)
Theorem C66_million (A : Arch) (AOK : ArchOk A) : 32 <= wbits -> 32 <= ubits -> factorial 1000000 < MAXV.
Proof. exact million_fits. Qed.
Print Assumptions C66_million.

(** The factorials are those of the standard library. *)
Theorem C66_factorial (n : nat) : factorial (Z.of_nat n) = Z.of_nat (fact n).
Proof. exact (factorial_fact n). Qed.
Print Assumptions C66_factorial.

Example C66_case : let A := arch16 in
  factorial_text false 20 = Ok (txt "0x21c3677c82b40000") /\ factorial 20 = 0x21c3677c82b40000 /\
  (u <- product 5 9 ;; Ok (uval u)) = Ok 1680 /\ run_product 5 9 = 1680 /\ factorial_text false 1 = Ok (txt "0x1").
Proof. cbv zeta. sample. Qed.
