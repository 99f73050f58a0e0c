(** C70: the scratch memory is linear. *)
From Coq Require Import ZArith List Lia.
From Verif Require Import Model.Base Model.Words Model.Buffer Model.Mul Model.Div Model.Modular Model.RawMemory
  Spec.Val Spec.Chunk Proofs.ScratchLinear Proofs.Samples.
Import ListNotations.
Open Scope Z_scope.

(** A product needs at most five words of scratch memory for each word of the shorter
    operand, however long the other one is. *)
Theorem C70_mul (A : Arch) (AOK : ArchOk A) (t : ty) (n : nat) (l : layout) :
  word_type t -> Z.of_nat n <= MAX_LEN -> mul_layout t n = Ok l -> l_size l <= 5 * (Z.of_nat n * t_size t).
Proof. exact (mul_scratch t n l). Qed.
Print Assumptions C70_mul.

(** A quotient of [n] words by [k] words: at most five words for two words of the divisor,
    and at most five for each word of the quotient. *)
Theorem C70_div (A : Arch) (AOK : ArchOk A) (t : ty) (n k : nat) (l : layout) :
  word_type t -> (2 <= k <= n)%nat -> Z.of_nat n <= MAX_LEN -> div_layout t n k = Ok l ->
  2 * l_size l <= 5 * (Z.of_nat k * t_size t) /\ l_size l <= 5 * ((Z.of_nat n - Z.of_nat k) * t_size t).
Proof. exact (div_scratch t n k l). Qed.
Print Assumptions C70_div.

(** A product in a ring: at most seven words for each word of the modulus, with the
    unreduced product. *)
Theorem C70_ring_mul (A : Arch) (AOK : ArchOk A) (t : ty) (n : nat) (l : layout) :
  word_type t -> (2 <= n)%nat -> Z.of_nat n <= MAX_LEN -> ring_mul_layout t n = Ok l ->
  l_size l <= 7 * (Z.of_nat n * t_size t).
Proof. exact (ring_mul_scratch t n l). Qed.
Print Assumptions C70_ring_mul.

(** A power in a ring: the table of odd powers adds at most one number for every three bits of
    the exponent, plus one. *)
Theorem C70_ring_pow (A : Arch) (AOK : ArchOk A) (t : ty) (n : nat) (bits w : Z) (l : layout) :
  word_type t -> (2 <= n)%nat -> Z.of_nat n <= MAX_LEN -> 0 <= bits < 2 ^ ubits ->
  choose_pow_window_len bits = Ok w -> ring_pow_layout t n w = Ok l ->
  3 * l_size l <= (bits + 24) * (Z.of_nat n * t_size t).
Proof. exact (ring_pow_scratch t n bits w l). Qed.
Print Assumptions C70_ring_pow.

(** More precisely, the table has at most 2 * bits / (w * (w + 1)) + 1 numbers. *)
Theorem C70_table (A : Arch) (AOK : ArchOk A) (bits w : Z) :
  0 <= bits < 2 ^ ubits -> choose_pow_window_len bits = Ok w ->
  1 <= w /\ (2 ^ (w - 1) - 1) * (w * (w + 1)) <= 2 * bits + w * (w + 1).
Proof. exact (table_small bits w). Qed.
Print Assumptions C70_table.

(** Operands of 24 words need nothing; the quotient of 1000 words by 500 is calculated with
    products of up to 250 words; an exponent of 500 bits has a table of 15 powers. *)
Example C70_case : let A := arch16 in let t := mkTy 2 2 in
  word_type t /\ mul_layout t 24 = Ok (mkLayout 0 1) /\ mul_layout t 100 = Ok (mkLayout (2 * 214) 2) /\
  mul_layout t 500 = Ok (mkLayout (2 * 2117) 2) /\ div_layout t 1000 500 = Ok (mkLayout (2 * 1104) 2) /\
  choose_pow_window_len 500 = Ok 5 /\ ring_pow_layout t 100 5 = Ok (mkLayout (2 * (15 * 100 + 414)) 2).
Proof.
  cbv zeta. split; [split; [split; [exists 1; cbn; lia|split; [cbn; lia|exists 1; reflexivity]]|reflexivity]|].
  repeat apply conj; vm_compute; reflexivity.
Qed.
