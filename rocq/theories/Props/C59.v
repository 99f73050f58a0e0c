(** C59: the recursive algorithms nest only logarithmically deep, so that no
    number can make them exhaust the stack. *)
From Coq Require Import ZArith List Lia.
From Verif Require Import Model.Base Model.Words Model.FastDivide Model.Buffer Model.UBig Model.Mul Model.Div
  Model.Radix Model.Parse Model.Fmt Spec.Val Spec.Num Proofs.Basics Proofs.BufferProofs Proofs.DepthProofs Proofs.Samples.
Import ListNotations.
Open Scope Z_scope.

(** [same_len_fuel], [add_signed_mul_fuel] and [div_rem_depth] are the functions
    of src/mul and src/div in which a call nested more deeply than the first
    argument is an error.  All of them, counting the calls of all three
    together, give the result of the unrestricted functions. *)
Theorem C59_mul_same_len (A : Arch) (AOK : ArchOk A) (k depth : nat) (c : list Z) (s : sign) (a b : list Z) (mem : Z) :
  wf c -> wf a -> wf b -> length b = length a -> length c = (2 * length a)%nat -> mul_memory (length a) <= mem ->
  Z.of_nat (length a) <= 24 * 2 ^ Z.of_nat k -> (k + 1 <= depth)%nat ->
  exists c' carry, same_len_fuel depth c s a b mem = Ok (c', carry) /\
    add_signed_mul_same_len c s a b mem = Ok (c', carry).
Proof. exact (same_len_depth k depth c s a b mem). Qed.
Print Assumptions C59_mul_same_len.

(** Only the shorter operand counts. *)
Theorem C59_mul (A : Arch) (AOK : ArchOk A) (k depth : nat) (c : list Z) (s : sign) (a b : list Z) (mem : Z) :
  wf c -> wf a -> wf b -> length c = (length a + length b)%nat ->
  mul_memory (Nat.min (length a) (length b)) <= mem ->
  Z.of_nat (Nat.min (length a) (length b)) <= 24 * 2 ^ Z.of_nat k -> (2 * k + 2 <= depth)%nat ->
  exists c' carry, add_signed_mul_fuel depth c s a b mem = Ok (c', carry) /\
    add_signed_mul c s a b mem = Ok (c', carry).
Proof. exact (mul_depth k depth c s a b mem). Qed.
Print Assumptions C59_mul.

(** Only the divisor counts. *)
Theorem C59_div (A : Arch) (AOK : ArchOk A) (k depth : nat) (lhs rest : list Z) (top : Z)
    (f : FastDivideNormalized) (need mem : Z) :
  wf lhs -> wf (rest ++ [top]) -> B <= 2 * top -> fdn_new top = Ok f ->
  (1 <= length rest)%nat -> (length rest < length lhs)%nat ->
  div_memory (length lhs) (S (length rest)) = Ok need -> need <= mem ->
  Z.of_nat (S (length rest)) <= 32 * 2 ^ Z.of_nat k -> (2 * k + 3 <= depth)%nat ->
  exists lhs' o, div_rem_depth depth lhs (rest ++ [top]) f mem = Ok (lhs', o) /\
    div_rem_in_place lhs (rest ++ [top]) f mem = Ok (lhs', o).
Proof. exact (div_depth k depth lhs rest top f need mem). Qed.
Print Assumptions C59_div.

(** Twice the number of bits of an address is enough for all numbers. *)
Theorem C59_mul_platform (A : Arch) (AOK : ArchOk A) (c : list Z) (s : sign) (a b : list Z) (mem : Z) :
  wf c -> wf a -> wf b -> length c = (length a + length b)%nat ->
  mul_memory (Nat.min (length a) (length b)) <= mem -> Z.of_nat (length a) <= MAX_LEN ->
  exists c' carry, add_signed_mul_fuel (Z.to_nat (2 * ubits - 14)) c s a b mem = Ok (c', carry) /\
    add_signed_mul c s a b mem = Ok (c', carry).
Proof. exact (mul_depth_platform c s a b mem). Qed.
Print Assumptions C59_mul_platform.

Theorem C59_div_platform (A : Arch) (AOK : ArchOk A) (lhs rest : list Z) (top : Z)
    (f : FastDivideNormalized) (need mem : Z) :
  wf lhs -> wf (rest ++ [top]) -> B <= 2 * top -> fdn_new top = Ok f ->
  (1 <= length rest)%nat -> (length rest < length lhs)%nat ->
  div_memory (length lhs) (S (length rest)) = Ok need -> need <= mem ->
  Z.of_nat (S (length rest)) <= MAX_LEN ->
  exists lhs' o, div_rem_depth (Z.to_nat (2 * ubits - 13)) lhs (rest ++ [top]) f mem = Ok (lhs', o) /\
    div_rem_in_place lhs (rest ++ [top]) f mem = Ok (lhs', o).
Proof. exact (div_depth_platform lhs rest top f need mem). Qed.
Print Assumptions C59_div_platform.

(** src/parse/non_power_two.rs: [np_divide_conquer] descends through the list
    of powers, which has at most [1 + log2 (n - 1)] elements for a text of [n]
    bytes. *)
Theorem C59_parse (A : Arch) (fuel : nat) (chunk_bytes n : Z) (p : ubig) (powers : list ubig) :
  1 <= chunk_bytes -> powers_loop fuel chunk_bytes n [p] = Ok powers ->
  2 ^ (Z.of_nat (length powers) - 1) <= Z.max 1 (n - 1).
Proof. exact (parse_depth fuel chunk_bytes n p powers). Qed.
Print Assumptions C59_parse.

(** src/fmt/non_power_two.rs: [write_big_chunk] is called with an index below
    the number of powers and decrements it; there are at most [1 + log2 n]
    powers for a number of [n] words. *)
Theorem C59_fmt (A : Arch) (AOK : ArchOk A) (x : ubig) (radix : Z) (l : NpLarge) :
  2 <= radix <= 36 -> is_pow2 radix = false -> ubig_ok x -> 1 <= uval x -> npl_new x radix = Ok l ->
  2 ^ Z.of_nat (length (npl_powers l)) <= 2 * Z.of_nat (length (as_words x)) /\
  Forall (fun c => (fst c < length (npl_powers l))%nat) (npl_chunks l).
Proof. exact (npl_new_depth x radix l). Qed.
Print Assumptions C59_fmt.

(** 26 words: two nested calls (Karatsuba, then the schoolbook method) are
    needed and enough. *)
Definition ones (n : nat) : list Z := repeat 1 n.
Example C59_two : let A := arch16 in
  same_len_fuel 1 (repeat 0 52) Positive (ones 26) (ones 26) 1000 = Panic Internal /\
  same_len_fuel 2 (repeat 0 52) Positive (ones 26) (ones 26) 1000 =
    add_signed_mul_same_len (repeat 0 52) Positive (ones 26) (ones 26) 1000.
Proof. cbv zeta. sample. Qed.

(** Lengths as in Euclid's algorithm: 44 = 26 + 18. *)
Example C59_euclid : let A := arch16 in
  add_signed_mul_fuel 1 (repeat 0 70) Positive (ones 44) (ones 26) 1000 = Panic Internal /\
  exists c, add_signed_mul_fuel 2 (repeat 0 70) Positive (ones 44) (ones 26) 1000 = Ok (c, 0) /\ nth 30 c 0 = 26.
Proof. cbv zeta. split; [sample|]. eexists. split; [vm_compute; reflexivity|reflexivity]. Qed.
