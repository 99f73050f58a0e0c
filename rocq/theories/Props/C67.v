(** C67: the tool that finds the primes of the number-theoretic transform. *)
From Coq Require Import Znumtheory.
From Verif Require Import Model.Base Model.Buffer Model.UBig Model.Rand Model.Modular Model.Ntt Model.Tools
  Spec.Val Spec.Num Spec.Modular Spec.Rand Spec.Order Spec.PrimeSearch
  Proofs.PrimeToolProofs Proofs.RootSearchProofs Proofs.PrimeSearchProofs Proofs.NttConstants Proofs.Samples.

(** Whatever the random numbers are, the prime test does not panic, and if it ends its
    answer is right. *)
Theorem C67_is_prime (A : Arch) (AOK : ArchOk A) (rounds attempts : nat) (mult : ubig) (order : Z) (cs : list Z) (o : res (option bool)) :
  ubig_ok mult -> 1 <= uval mult -> 1 <= order < 2 ^ ubits ->
  let n := uval mult * 2 ^ order + 1 in n < MAXV -> room_for_pow n n = true -> runs (is_prime rounds attempts mult order) cs o ->
  o = Ok None \/ (o = Ok (Some true) /\ prime n) \/ (o = Ok (Some false) /\ ~ prime n).
Proof. exact (is_prime_right rounds attempts mult order cs o). Qed.
Print Assumptions C67_is_prime.

(** For all numbers there is a random number that ends the test in the first round. *)
Theorem C67_is_prime_ends (A : Arch) (AOK : ArchOk A) (rounds attempts : nat) (mult : ubig) (order : Z) :
  ubig_ok mult -> 1 <= uval mult -> 1 <= order < 2 ^ ubits ->
  let n := uval mult * 2 ^ order + 1 in n < MAXV -> room_for_pow n n = true -> (0 < rounds)%nat -> (0 < attempts)%nat ->
  exists cs v, runs (is_prime rounds attempts mult order) cs (Ok (Some v)).
Proof. exact (is_prime_ends rounds attempts mult order). Qed.
Print Assumptions C67_is_prime_ends.

(** There is a least number of order 2^order, and the search returns it as soon as it is
    allowed that many rounds. *)
Theorem C67_find_root (A : Arch) (AOK : ArchOk A) (prime_number : ubig) (order : Z) :
  ubig_ok prime_number -> prime (uval prime_number) -> 1 <= order -> order - 1 < 2 ^ ubits -> (2 ^ order | uval prime_number - 1) ->
  room_for_pow (uval prime_number) (2 ^ (order - 1)) = true ->
  exists g, least_root order (uval prime_number) g /\ forall tries : nat,
    if g <=? Z.of_nat tries then exists u, find_root tries prime_number order = Ok (Some u) /\ ubig_ok u /\ uval u = g
    else find_root tries prime_number order = Ok None.
Proof. exact (find_root_spec prime_number order). Qed.
Print Assumptions C67_find_root.

(** The tool prints the largest order with three primes, all primes for it in order and their
    least roots; it panics exactly if the product of the last three is too small. *)
Theorem C67_search (A : Arch) (AOK : ArchOk A) (rounds attempts tries : nat) (bits : Z) (cs : list Z) (o : res (option (Z * list ubig * list ubig))) :
  3 <= bits <= 64 -> runs (print_primes rounds attempts tries bits) cs o ->
  o = Ok None \/ exists order primes roots, search_result bits order primes roots /\
    if enough bits order primes
    then exists us rs, o = Ok (Some (order, us, rs)) /\ Forall ubig_ok us /\ Forall ubig_ok rs /\ map uval us = primes /\ map uval rs = roots
    else o = Panic Internal.
Proof. exact (print_primes_spec rounds attempts tries bits cs o). Qed.
Print Assumptions C67_search.

(** Some random numbers end the search. *)
Theorem C67_search_ends (A : Arch) (AOK : ArchOk A) (rounds attempts tries : nat) (bits : Z) :
  3 <= bits <= 64 -> (0 < rounds)%nat -> (0 < attempts)%nat -> 2 ^ bits <= Z.of_nat tries ->
  exists cs o, runs (print_primes rounds attempts tries bits) cs o /\ o <> Ok None.
Proof. exact (print_primes_ends rounds attempts tries bits). Qed.
Print Assumptions C67_search_ends.

(** The constants of the library, for a word size, are the result of the search for that
    number of bits: the order, and the last three primes with their roots. *)
Theorem C67_constants (A : Arch) (AOK : ArchOk A) (order : Z) (primes roots : list Z) : search_result wbits order primes roots ->
  order = NTT_MAX_ORDER /\
  skipn (length primes - 3) (combine primes roots) = map (fun p => (p_prime p, p_max_order_root p)) PRIMES /\
  enough wbits order primes = true.
Proof. exact (ntt_constants order primes roots). Qed.
Print Assumptions C67_constants.

(** 13 is found to be prime with the random number 2 but not with 3, which is no generator;
    21 is found to be composite. *)
Fixpoint C67_answer {T : Type} (m : rand T) (cs : list Z) : option (res T) :=
  match m, cs with
  | Ret x, [] => Some (Ok x)
  | Fail p, [] => Some (Panic p)
  | Pick n k, c :: cs => if (0 <=? c) && (c <? n) then C67_answer (k c) cs else None
  | _, _ => None
  end.
Example C67_case : let A := arch16 in
  C67_answer (is_prime 1 1 (Small 3) 2) [1] = Some (Ok (Some true)) /\ C67_answer (is_prime 1 1 (Small 3) 2) [2] = Some (Ok None) /\
  C67_answer (is_prime 2 1 (Small 3) 2) [2; 1] = Some (Ok (Some true)) /\ C67_answer (is_prime 1 1 (Small 5) 2) [1] = Some (Ok (Some false)) /\
  room_for_pow 13 13 = true /\ room_for_pow (2 ^ 40 + 1) (2 ^ 40 + 1) = true.
Proof. cbv zeta. sample. Qed.
(** With three bits: the primes 3, 5 and 7, whose least roots of order 2 are 2, 4 and 6. *)
Example C67_three_bits : let A := arch16 in
  C67_answer (print_primes 1 1 8 3) [1; 1; 2] = Some (Ok (Some (1, [Small 3; Small 5; Small 7], [Small 2; Small 4; Small 6]))) /\
  C67_answer (print_primes 1 1 8 3) [3] = Some (Ok None) /\ enough 3 1 [3; 5; 7] = true.
Proof. cbv zeta. sample. Qed.
