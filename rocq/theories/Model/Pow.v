(** Exponentiation: src/pow.rs.  Definitions only. *)
From Verif Require Import Model.Base Model.Words Model.Buffer Model.UBig Model.IBig Model.AddOps Model.MulOps Model.Bits.

Section Pow.
Context {A : Arch}.

(** src/pow.rs:38-47, counting [p] down to zero. *)
Fixpoint pow_loop (p : nat) (self : ubig) (exp : Z) (r : ubig) : res ubig :=
  r <- (if Z.testbit exp (Z.of_nat p) then ubig_mul_assign_r r self else Ok r) ;;
  match p with
  | O => Ok r
  | S p => r <- ubig_mul_rr r r ;; pow_loop p self exp r
  end.

(** src/pow.rs:36-48; [usize::BITS - exp.leading_zeros()] is the bit length. *)
Definition pow_large (self : ubig) (exp : Z) : res ubig :=
  r <- ubig_mul_rr self self ;; pow_loop (Z.to_nat (bitlen exp - 2)) self exp r.

(** src/pow.rs:19-49 *)
Definition ubig_pow (self : ubig) (exp : Z) : res ubig :=
  if exp =? 0 then Ok (from_word 1)
  else if exp =? 1 then ubig_clone self
  else if exp =? 2 then ubig_mul_rr self self
  else
    match self with
    | Small w =>
        if w =? 0 then Ok (from_word 0)
        else if w =? 1 then Ok (from_word 1)
        else if w =? 2 then set_bit (from_word 0) exp
        else pow_large self exp
    | Large _ => pow_large self exp
    end.

(** src/pow.rs:62-69 *)
Definition ibig_pow (self : ibig) (exp : Z) : res ibig :=
  let s := match isign self with Negative => if exp mod 2 =? 1 then Negative else Positive | Positive => Positive end in
  m <- ubig_pow (imag self) exp ;; Ok (from_sign_magnitude s m).

End Pow.
