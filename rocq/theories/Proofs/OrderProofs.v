(** Roots of unity, and a primality test by an element of large order. *)
From Coq Require Import ZArith List Lia Znumtheory Zpow_facts.
From Verif Require Import Spec.Order.
Import ListNotations.
Open Scope Z_scope.

Lemma pow_mod_l x n p : 0 < p -> (x mod p) ^ n mod p = x ^ n mod p.
Proof. intros H. symmetry. apply Zpower_mod. lia. Qed.

Lemma odd_part d : 0 < d -> exists k o, 0 <= k /\ 0 <= o /\ d = 2 ^ k * (2 * o + 1).
Proof.
  intros H. assert (H0 : 0 <= d) by lia. revert H. pattern d. apply Z_lt_induction; [|exact H0]. clear d H0. intros d IH H.
  destruct (Z.Even_or_Odd d) as [[e E]|[o E]].
  - destruct (IH e) as (k & o & Hk & Ho & Ee); [lia|lia|]. exists (k + 1), o. split; [lia|]. split; [lia|].
    rewrite Z.pow_add_r by lia. change (2 ^ 1) with 2. rewrite E, Ee. ring.
  - exists 0, o. split; [lia|]. split; [lia|]. rewrite Z.pow_0_r. lia.
Qed.

Lemma minus_one_odd o : 0 <= o -> (-1) ^ (2 * o + 1) = -1.
Proof. intros H. rewrite Z.pow_add_r, Z.pow_mul_r by lia. change ((-1) ^ 2) with 1. rewrite Z.pow_1_l by lia. reflexivity. Qed.

(** An element whose power [2^(m-1)] is -1 has order exactly [2^m]. *)
Lemma order_divides x m d q : 2 < q -> 1 <= m -> x ^ 2 ^ (m - 1) mod q = (-1) mod q -> 0 < d < 2 ^ m -> x ^ d mod q <> 1.
Proof.
  intros Hq Hm Hx Hd E. destruct (odd_part d) as (k & o & Hk & Ho & Ed); [lia|].
  assert (Lk : k < m).
  { apply (Z.pow_lt_mono_r_iff 2); [lia|lia|]. assert (0 < 2 ^ k) by (apply Z.pow_pos_nonneg; lia). nia. }
  assert (P : 0 <= 2 ^ (m - 1 - k)) by (apply Z.pow_nonneg; lia).
  assert (E1 : (x ^ d) ^ 2 ^ (m - 1 - k) mod q = 1).
  { rewrite <- pow_mod_l, E, Z.pow_1_l by lia. apply Z.mod_1_l. lia. }
  rewrite <- Z.pow_mul_r in E1 by lia.
  replace (d * 2 ^ (m - 1 - k)) with (2 ^ (m - 1) * (2 * o + 1)) in E1.
  - rewrite Z.pow_mul_r in E1 by (try apply Z.pow_nonneg; lia).
    rewrite <- pow_mod_l, Hx, pow_mod_l, minus_one_odd in E1 by lia.
    assert (F : (-1) mod q = q - 1) by (symmetry; apply Z.mod_unique with (-1); lia). lia.
  - rewrite Ed. replace (m - 1) with (k + (m - 1 - k)) at 1 by lia. rewrite Z.pow_add_r by lia. ring.
Qed.

Lemma order_full x m q : 2 < q -> 1 <= m -> x ^ 2 ^ (m - 1) mod q = (-1) mod q -> x ^ 2 ^ m mod q = 1.
Proof.
  intros Hq Hm Hx. replace (2 ^ m) with (2 ^ (m - 1) * 2).
  - rewrite Z.pow_mul_r by (try apply Z.pow_nonneg; lia). rewrite <- pow_mod_l, Hx, pow_mod_l by lia.
    change ((-1) ^ 2) with 1. apply Z.mod_1_l. lia.
  - replace m with (m - 1 + 1) at 2 by lia. rewrite Z.pow_add_r by lia. reflexivity.
Qed.

Lemma order_exact x m q : 2 < q -> 1 <= m -> x ^ 2 ^ (m - 1) mod q = (-1) mod q -> has_order x (2 ^ m) q.
Proof. intros Hq Hm Hx. split; [apply order_full; auto|]. intros j Hj. apply (order_divides x m j q); auto. Qed.

(** A number in [1, q) for each of the powers: there are at most [q-1] of them. *)
(** The powers below the order are different and not zero. *)
Definition power_nat (x q : Z) (i : nat) : nat := Z.to_nat (x ^ Z.of_nat i mod q).

Lemma order_powers x k q : 1 < q -> 0 < k -> has_order x k q ->
  NoDup (map (power_nat x q) (seq 0 (Z.to_nat k))) /\ incl (map (power_nat x q) (seq 0 (Z.to_nat k))) (seq 1 (Z.to_nat q - 1)).
Proof.
  intros Hq Hk [E1 E2]. set (f := power_nat x q). set (n := Z.to_nat k).
  assert (C : forall a b, (a < b < n)%nat -> f a <> f b).
  { intros a b H E. unfold f, power_nat in E. apply Z2Nat.inj in E; try (apply Z.mod_pos_bound; lia).
    apply (E2 (Z.of_nat b - Z.of_nat a)); [unfold n in H; lia|].
    (* multiply by the inverse of x^a *)
    assert (EB : x ^ (k - Z.of_nat a) * x ^ Z.of_nat b = x ^ k * x ^ (Z.of_nat b - Z.of_nat a)).
    { unfold n in H. rewrite <- !Z.pow_add_r by lia. f_equal. lia. }
    assert (EA : x ^ (k - Z.of_nat a) * x ^ Z.of_nat a = x ^ k).
    { unfold n in H. rewrite <- Z.pow_add_r by lia. f_equal. lia. }
    assert (T : (x ^ k * x ^ (Z.of_nat b - Z.of_nat a)) mod q = x ^ k mod q).
    { rewrite <- EB, <- EA. rewrite Zmult_mod, <- E, <- Zmult_mod. reflexivity. }
    rewrite Zmult_mod, E1, Z.mul_1_l, Zmod_mod in T. exact T. }
  split.
  { assert (I : forall a b, In a (seq 0 n) -> In b (seq 0 n) -> f a = f b -> a = b).
    { intros a b Ha Hb E. apply in_seq in Ha, Hb. destruct (Nat.lt_trichotomy a b) as [L|[L|L]]; [|exact L|].
      - exfalso. apply (C a b); [lia|exact E].
      - exfalso. apply (C b a); [lia|congruence]. }
    clear - I. pose proof (seq_NoDup n 0) as N. induction N as [|a l Ha N IH]; cbn [map]; constructor.
    - intros K. apply in_map_iff in K as (b & E & Hb). apply Ha. rewrite (I a b); [exact Hb|left; reflexivity|right; exact Hb|congruence].
    - apply IH. intros b c Hb Hc. apply I; right; assumption. }
  { intros y Hy. apply in_map_iff in Hy as (i & <- & Hi). apply in_seq in Hi. apply in_seq. unfold f, power_nat.
    pose proof (Z.mod_pos_bound (x ^ Z.of_nat i) q ltac:(lia)) as Bd.
    assert (NZ : x ^ Z.of_nat i mod q <> 0).
    { intros E0. assert (K : x ^ k mod q = 0); [|lia].
      replace k with (Z.of_nat i + (k - Z.of_nat i)) by lia. unfold n in Hi. rewrite Z.pow_add_r by lia.
      rewrite Zmult_mod, E0. apply Z.mod_0_l. lia. }
    lia. }
Qed.

Lemma order_bound x k q : 1 < q -> 0 < k -> has_order x k q -> k < q.
Proof.
  intros Hq Hk H. destruct (order_powers x k q Hq Hk H) as [ND IN].
  apply NoDup_incl_length in IN; [|exact ND]. rewrite map_length, !seq_length in IN. lia.
Qed.

(** A number above one has a divisor above one that is at most its root, or is prime. *)
Lemma prime_by_order p x m : 2 < p -> p mod 2 = 1 -> 1 <= m -> x ^ 2 ^ (m - 1) mod p = (-1) mod p -> p < 2 ^ m * 2 ^ m -> prime p.
Proof.
  intros Hp Odd Hm Hx Hsq. apply prime_alt. split; [lia|]. intros d Hd Dv.
  assert (K : forall e, 1 < e -> (e | p) -> 2 ^ m < e).
  { intros e He De. assert (2 < e).
    { destruct (Z.eq_dec e 2) as [->|]; [|lia]. apply Zdivide_mod in De. lia. }
    apply (order_bound x); [lia|apply Z.pow_pos_nonneg; lia|]. apply order_exact; auto.
    rewrite (Zmod_div_mod e p (x ^ 2 ^ (m - 1))), Hx, <- (Zmod_div_mod e p (-1)) by (auto; lia). reflexivity. }
  destruct Dv as [e Ee]. assert (He : 1 < e) by nia.
  assert (K1 : 2 ^ m < d) by (apply K; [lia|exists e; exact Ee]).
  assert (K2 : 2 ^ m < e) by (apply K; [lia|exists d; lia]).
  assert (0 < 2 ^ m) by (apply Z.pow_pos_nonneg; lia). nia.
Qed.
