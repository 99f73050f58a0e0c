(** C48: the platform versions of add-with-carry and subtract-with-borrow agree. *)
From Verif Require Import Model.Base Model.Words Model.Add Spec.Val Proofs.AddProofs Proofs.Samples.

(** The portable code is exact: the word and the carry together are the sum. *)
Theorem C48_add_with_carry (A : Arch) (AOK : ArchOk A) (a b : Z) (c : bool) : 0 <= a < 2 ^ wbits -> 0 <= b < 2 ^ wbits ->
  let '(s, o) := add_with_carry a b c in s + 2 ^ wbits * Z.b2z o = a + b + Z.b2z c /\ 0 <= s < 2 ^ wbits.
Proof. exact (add_with_carry_spec a b c). Qed.
Print Assumptions C48_add_with_carry.

Theorem C48_sub_with_borrow (A : Arch) (AOK : ArchOk A) (a b : Z) (c : bool) : 0 <= a < 2 ^ wbits -> 0 <= b < 2 ^ wbits ->
  let '(s, o) := sub_with_borrow a b c in s - 2 ^ wbits * Z.b2z o = a - b - Z.b2z c /\ 0 <= s < 2 ^ wbits.
Proof. exact (sub_with_borrow_spec a b c). Qed.
Print Assumptions C48_sub_with_borrow.

(** The x86 and x86_64 versions return the same. *)
Theorem C48_x86_add (A : Arch) (AOK : ArchOk A) (a b : Z) (c : bool) : 0 <= a < 2 ^ wbits -> 0 <= b < 2 ^ wbits ->
  x86_add_with_carry a b c = add_with_carry a b c.
Proof. exact (x86_add_with_carry_eq a b c). Qed.
Print Assumptions C48_x86_add.

Theorem C48_x86_sub (A : Arch) (AOK : ArchOk A) (a b : Z) (c : bool) : 0 <= a < 2 ^ wbits -> 0 <= b < 2 ^ wbits ->
  x86_sub_with_borrow a b c = sub_with_borrow a b c.
Proof. exact (x86_sub_with_borrow_eq a b c). Qed.
Print Assumptions C48_x86_sub.

Example C48_case : let A := arch64 in
  add_with_carry (2 ^ 64 - 1) 0 true = (0, true) /\ x86_add_with_carry (2 ^ 64 - 1) (2 ^ 64 - 1) true = (2 ^ 64 - 1, true) /\
  sub_with_borrow 0 (2 ^ 64 - 1) true = (0, true) /\ x86_sub_with_borrow 5 4 true = (0, false).
Proof. cbv zeta. sample. Qed.
