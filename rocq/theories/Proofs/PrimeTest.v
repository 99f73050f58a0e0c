(** Why the prime test of the tool is right: Miller-Rabin and Lucas. *)
From Coq Require Import ZArith Znumtheory Zpow_facts List Lia.
From Verif Require Import Spec.Order Proofs.OrderProofs Proofs.PrimitiveRoots.
Open Scope Z_scope.

Lemma square_root_of_one p x : prime p -> 0 <= x < p -> x * x mod p = 1 -> x = 1 \/ x = p - 1.
Proof.
  intros P Hx E. pose proof (prime_ge_2 p P) as Hp.
  assert (D : (p | (x - 1) * (x + 1))).
  { exists (x * x / p). pose proof (Z.div_mod (x * x) p ltac:(lia)). lia. }
  apply prime_mult in D; [|exact P]. destruct D as [D|D].
  - left. destruct (Z.eq_dec x 1) as [e|N]; [exact e|]. destruct (Z.eq_dec x 0) as [-> |N0]; [rewrite Z.mod_0_l in E; lia|].
    apply Z.divide_pos_le in D; lia.
  - right. apply Z.divide_pos_le in D; lia.
Qed.

Lemma square_step b k p : 0 < p -> 0 <= k -> (b ^ 2 ^ k mod p) * (b ^ 2 ^ k mod p) mod p = b ^ 2 ^ (k + 1) mod p.
Proof.
  intros Hp Hk. rewrite <- Zmult_mod, <- Z.pow_add_r by (apply Z.pow_nonneg; lia). f_equal. f_equal.
  rewrite Z.pow_add_r, Z.pow_1_r by lia. ring.
Qed.

(** Modulo a prime, the squares lead to one only through minus one. *)
Lemma rabin_prime p b : prime p -> forall k : nat, b ^ 2 ^ Z.of_nat k mod p = 1 ->
  (forall j, 0 <= j < Z.of_nat k -> b ^ 2 ^ j mod p <> p - 1) -> b mod p = 1.
Proof.
  intros P. pose proof (prime_ge_2 p P) as Hp. induction k as [|k IH]; intros E N.
  - cbn in E. rewrite Z.mul_1_r in E. exact E.
  - apply IH; [|intros j Hj; apply N; lia]. rewrite Nat2Z.inj_succ, <- Z.add_1_r, <- square_step in E by lia.
    apply square_root_of_one in E; [|exact P|apply Z.mod_pos_bound; lia]. destruct E as [E|E]; [exact E|].
    exfalso. apply (N (Z.of_nat k)); [lia|exact E].
Qed.

Lemma minus_one_square p x : 2 < p -> x = p - 1 -> x * x mod p = 1.
Proof. intros Hp ->. replace ((p - 1) * (p - 1)) with (1 + (p - 2) * p) by ring. rewrite Z.mod_add by lia. apply Z.mod_small. lia. Qed.

(** Once minus one is reached, the squares stay one. *)
Lemma rabin_stays p b j k : 2 < p -> 0 <= j < k -> b ^ 2 ^ j mod p = p - 1 -> b ^ 2 ^ k mod p = 1.
Proof.
  intros Hp Hj E. assert (E1 : b ^ 2 ^ (j + 1) mod p = 1). { rewrite <- square_step by lia. apply minus_one_square; assumption. }
  replace k with (j + 1 + (k - j - 1)) by lia. rewrite Z.pow_add_r by lia. apply power_one; [lia| | |exact E1]; apply Z.pow_nonneg; lia.
Qed.

Lemma one_stays p b k : 1 < p -> 0 <= k -> b mod p = 1 -> b ^ 2 ^ k mod p = 1.
Proof.
  intros Hp Hk E. rewrite <- pow_mod_l, E, Z.pow_1_l by (try apply Z.pow_nonneg; lia). apply mod_one. exact Hp.
Qed.

(** Lucas: a generator is recognized at the maximal divisors of [n - 1 = m * 2^o]. *)
Lemma lucas a m o : 1 <= m -> 1 <= o -> let n := m * 2 ^ o + 1 in
  a ^ (m * 2 ^ (o - 1)) mod n = n - 1 ->
  (forall d, 2 <= d <= m -> (d | m) -> a ^ (m / d * 2 ^ o) mod n <> 1) ->
  has_order a (n - 1) n.
Proof.
  intros Hm Ho n H1 H2. assert (P2 : 2 ^ o = 2 * 2 ^ (o - 1)) by (rewrite <- Z.pow_succ_r by lia; f_equal; lia).
  assert (PP : 0 < 2 ^ (o - 1)) by (apply Z.pow_pos_nonneg; lia).
  assert (Hn : 2 < n) by (unfold n; nia).
  assert (E : a ^ (n - 1) mod n = 1).
  { replace (n - 1) with (m * 2 ^ (o - 1) + m * 2 ^ (o - 1)) by (unfold n; lia).
    rewrite Z.pow_add_r, Zmult_mod by nia. apply minus_one_square; [exact Hn|exact H1]. }
  destruct (least_power a n (n - 1) ltac:(lia) ltac:(lia) E) as (k & Hk & O).
  replace (n - 1) with k; [exact O|].
  pose proof (proj1 (order_iff a k (n - 1) n ltac:(lia) ltac:(lia) ltac:(lia) O) E) as [t Et].
  destruct (Z.eq_dec t 1) as [-> |N1]; [lia|exfalso]. assert (Ht : 2 <= t) by nia.
  destruct (Z.eq_dec (t mod 2) 0) as [T0|T1].
  - (* k divides half of n - 1 *)
    apply Z.mod_divide in T0; [|lia]. destruct T0 as [s ->].
    assert (K : a ^ (m * 2 ^ (o - 1)) mod n = 1); [|lia].
    apply (order_iff a k (m * 2 ^ (o - 1)) n); [lia|lia|nia|exact O|]. exists s. unfold n in Et. lia.
  - (* t is odd and divides m *)
    assert (D : (t | m)).
    { apply Gauss with (2 ^ o); [exists k; unfold n in Et; lia|]. apply rel_prime_Zpower_r; [lia|].
      apply rel_prime_sym, prime_rel_prime; [exact prime_2|]. intros C. apply Z.mod_divide in C; [|lia]. contradiction. }
    apply (H2 t); [split; [exact Ht|apply Z.divide_pos_le; [lia|exact D]]|exact D|].
    replace (m / t * 2 ^ o) with k; [apply O|]. destruct D as [s ->]. rewrite Z.div_mul by lia. unfold n in Et. nia.
Qed.

(** A generator passes. *)
Lemma generator_half a m o : 1 <= m -> 1 <= o -> let n := m * 2 ^ o + 1 in has_order a (n - 1) n ->
  a ^ (m * 2 ^ (o - 1)) mod n = n - 1.
Proof.
  intros Hm Ho n O. assert (P2 : 2 ^ o = 2 * 2 ^ (o - 1)) by (rewrite <- Z.pow_succ_r by lia; f_equal; lia).
  assert (PP : 0 < 2 ^ (o - 1)) by (apply Z.pow_pos_nonneg; lia).
  assert (Hn : 2 < n) by (unfold n; nia). pose proof (prime_by_generator a n ltac:(lia) O) as P.
  destruct (square_root_of_one n (a ^ (m * 2 ^ (o - 1)) mod n) P) as [E|E]; [apply Z.mod_pos_bound; lia| | |exact E].
  - rewrite <- Zmult_mod, <- Z.pow_add_r by nia. replace (m * 2 ^ (o - 1) + m * 2 ^ (o - 1)) with (n - 1) by (unfold n; lia). apply O.
  - exfalso. destruct O as [_ O]. apply (O (m * 2 ^ (o - 1))); [unfold n; nia|exact E].
Qed.

(** The powers of a divisor are neither one nor minus one. *)
Lemma divisor_powers d n e : 1 < d -> (d | n) -> 2 < n -> 1 <= e -> d ^ e mod n <> 1 /\ d ^ e mod n <> n - 1.
Proof.
  intros Hd D Hn He. assert (K : (d | d ^ e mod n)).
  { rewrite Z.mod_eq by lia. apply Z.divide_sub_r; [|apply Z.divide_mul_l; exact D].
    exists (d ^ (e - 1)). replace e with (e - 1 + 1) at 1 by lia. rewrite Z.pow_add_r, Z.pow_1_r by lia. reflexivity. }
  split; intros E; rewrite E in K.
  - apply Z.divide_1_r_nonneg in K; lia.
  - assert (C : (d | 1)). { replace 1 with (n - (n - 1)) by ring. apply Z.divide_sub_r; assumption. }
    apply Z.divide_1_r_nonneg in C; lia.
Qed.
