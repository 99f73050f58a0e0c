(** Numbers modulo a prime: Fermat's theorem, roots of polynomials, and primitive roots. *)
From Coq Require Import ZArith Znumtheory Zpow_facts List Lia Permutation.
From Verif Require Import Spec.Order Proofs.OrderProofs.
Import ListNotations.
Open Scope Z_scope.

(** ** Orders *)

Lemma mod_one q : 1 < q -> 1 mod q = 1.
Proof. intros H. apply Z.mod_small. lia. Qed.

Lemma power_one x k j q : 1 < q -> 0 <= k -> 0 <= j -> x ^ k mod q = 1 -> x ^ (k * j) mod q = 1.
Proof. intros Hq Hk Hj E. rewrite Z.pow_mul_r by lia. rewrite <- pow_mod_l, E, Z.pow_1_l by lia. apply mod_one; exact Hq. Qed.

Lemma power_cancel x a b q : 1 < q -> 0 <= a -> 0 <= b -> x ^ a mod q = 1 -> x ^ (a + b) mod q = x ^ b mod q.
Proof. intros Hq Ha Hb E. rewrite Z.pow_add_r, Zmult_mod, E, Z.mul_1_l, Zmod_mod by lia. reflexivity. Qed.

(** The powers that are one are the multiples of the order. *)
Lemma order_iff x k m q : 1 < q -> 0 < k -> 0 <= m -> has_order x k q -> (x ^ m mod q = 1 <-> (k | m)).
Proof.
  intros Hq Hk Hm [E1 E2]. split.
  - intros E. pose proof (Z.div_mod m k ltac:(lia)) as D. pose proof (Z.mod_pos_bound m k Hk) as M.
    assert (Q : 0 <= m / k) by (apply Z.div_pos; lia).
    assert (E' : x ^ (m mod k) mod q = 1).
    { rewrite <- E. rewrite D at 2. symmetry. apply power_cancel; [exact Hq|nia|lia|]. apply power_one; [exact Hq|lia|lia|exact E1]. }
    destruct (Z.eq_dec (m mod k) 0) as [Z0|NZ]; [apply Z.mod_divide; [lia|exact Z0]|]. exfalso. apply (E2 (m mod k)); [lia|exact E'].
  - intros [j ->]. rewrite Z.mul_comm. apply power_one; [exact Hq|lia|nia|exact E1].
Qed.

(** A power that is one gives an order. *)
Lemma least_power x q k : 1 < q -> 0 < k -> x ^ k mod q = 1 -> exists l, 0 < l <= k /\ has_order x l q.
Proof.
  intros Hq Hk E. rewrite <- (Z2Nat.id k) in E, Hk |- * by lia. remember (Z.to_nat k) as n eqn:En. clear En k.
  induction n as [n IH] using lt_wf_ind.
  destruct (existsb (fun j => x ^ Z.of_nat j mod q =? 1) (seq 1 (n - 1))) eqn:X.
  - apply existsb_exists in X as (j & Hj & Ej). apply in_seq in Hj. apply Z.eqb_eq in Ej.
    destruct (IH j) as (l & Hl & O); [lia|lia|exact Ej|]. exists l. split; [lia|exact O].
  - exists (Z.of_nat n). split; [lia|]. split; [exact E|]. intros j Hj C.
    assert (T : existsb (fun j => x ^ Z.of_nat j mod q =? 1) (seq 1 (n - 1)) = true); [|congruence].
    apply existsb_exists. exists (Z.to_nat j). split; [apply in_seq; lia|]. rewrite Z2Nat.id by lia. apply Z.eqb_eq. exact C.
Qed.

Lemma order_power x d e q : 1 < q -> 0 < d -> 0 < e -> has_order x (d * e) q -> has_order (x ^ d mod q) e q.
Proof.
  intros Hq Hd He [E1 E2]. split.
  - rewrite pow_mod_l, <- Z.pow_mul_r by lia. exact E1.
  - intros j Hj. rewrite pow_mod_l, <- Z.pow_mul_r by lia. apply E2. nia.
Qed.

Lemma divide_mul_coprime a b c : rel_prime a b -> (a | c) -> (b | c) -> (a * b | c).
Proof.
  intros R [u ->] Hb. assert (K : (b | u)). { apply Gauss with a; [rewrite Z.mul_comm; exact Hb|apply rel_prime_sym; exact R]. }
  destruct K as [v ->]. exists v. ring.
Qed.

(** Orders without a common divisor multiply. *)
Lemma order_product x y k l q : 1 < q -> 0 < k -> 0 < l -> rel_prime k l -> has_order x k q -> has_order y l q ->
  has_order (x * y mod q) (k * l) q.
Proof.
  intros Hq Hk Hl R Hx Hy.
  assert (X : forall m, 0 <= m -> (x * y mod q) ^ m mod q = (x ^ m mod q) * (y ^ m mod q) mod q).
  { intros m Hm. rewrite pow_mod_l, Z.pow_mul_l, Zmult_mod by lia. reflexivity. }
  split.
  - rewrite X by nia. rewrite (proj2 (order_iff x k (k * l) q Hq Hk ltac:(nia) Hx)) by (exists l; ring).
    rewrite (proj2 (order_iff y l (k * l) q Hq Hl ltac:(nia) Hy)) by (exists k; ring). apply mod_one; exact Hq.
  - intros j Hj C.
    assert (D : (k * l | j)).
    { apply divide_mul_coprime; [exact R| |].
      - apply Gauss with l; [|exact R]. apply (order_iff x k (l * j) q Hq Hk ltac:(nia) Hx).
        pose proof (power_one _ j l q Hq ltac:(lia) ltac:(lia) C) as P. rewrite X in P by nia.
        rewrite (proj2 (order_iff y l (j * l) q Hq Hl ltac:(nia) Hy)) in P by (exists j; ring).
        rewrite Z.mul_1_r, Zmod_mod in P. rewrite Z.mul_comm. exact P.
      - apply Gauss with k; [|apply rel_prime_sym; exact R]. apply (order_iff y l (k * j) q Hq Hl ltac:(nia) Hy).
        pose proof (power_one _ j k q Hq ltac:(lia) ltac:(lia) C) as P. rewrite X in P by nia.
        rewrite (proj2 (order_iff x k (j * k) q Hq Hk ltac:(nia) Hx)) in P by (exists j; ring).
        rewrite Z.mul_1_l, Zmod_mod in P. rewrite Z.mul_comm. exact P. }
    apply Z.divide_pos_le in D; lia.
Qed.

(** ** An element of order n - 1 reaches every number, so that n is prime *)

Lemma order_reaches g n a : 1 < n -> has_order g (n - 1) n -> 1 <= a < n -> exists j, 0 <= j < n - 1 /\ g ^ j mod n = a.
Proof.
  intros Hn H Ha. destruct (order_powers g (n - 1) n Hn ltac:(lia) H) as [ND IN].
  assert (R : incl (seq 1 (Z.to_nat n - 1)) (map (power_nat g n) (seq 0 (Z.to_nat (n - 1))))).
  { apply NoDup_length_incl; [exact ND| |exact IN]. rewrite map_length, !seq_length. lia. }
  specialize (R (Z.to_nat a)). rewrite in_map_iff in R. destruct R as (j & E & Hj); [apply in_seq; lia|].
  apply in_seq in Hj. exists (Z.of_nat j). split; [lia|]. unfold power_nat in E.
  pose proof (Z.mod_pos_bound (g ^ Z.of_nat j) n ltac:(lia)). apply Z2Nat.inj in E; lia.
Qed.

Lemma prime_by_generator g n : 1 < n -> has_order g (n - 1) n -> prime n.
Proof.
  intros Hn H. apply prime_intro; [exact Hn|]. intros a Ha.
  destruct (order_reaches g n a Hn H ltac:(lia)) as (j & Hj & E).
  assert (I : (a * (g ^ (n - 1 - j))) mod n = 1).
  { rewrite <- E, Z.mul_mod_idemp_l, <- Z.pow_add_r by lia. replace (j + (n - 1 - j)) with (n - 1) by lia. apply H. }
  apply bezout_rel_prime. exists (g ^ (n - 1 - j)) (- (a * g ^ (n - 1 - j) / n)).
  pose proof (Z.div_mod (a * g ^ (n - 1 - j)) n ltac:(lia)). lia.
Qed.

(** ** Fermat's theorem *)

Lemma prod_scale a p l : 0 < p ->
  fold_right Z.mul 1 (map (fun i => a * Z.of_nat i mod p) l) mod p = a ^ Z.of_nat (length l) * fold_right Z.mul 1 (map Z.of_nat l) mod p.
Proof.
  intros Hp. induction l as [|i l IH]; cbn [map fold_right length]; [reflexivity|].
  rewrite Zmult_mod, IH, <- Zmult_mod, Z.mul_mod_idemp_l, Nat2Z.inj_succ, Z.pow_succ_r by lia. f_equal. ring.
Qed.

Lemma prod_perm l m : Permutation l m -> fold_right Z.mul 1 l = fold_right Z.mul 1 m.
Proof. induction 1; cbn [fold_right]; lia. Qed.

Lemma prime_mod_inj p a x y : prime p -> 0 < a < p -> 0 <= x < p -> 0 <= y < p -> a * x mod p = a * y mod p -> x = y.
Proof.
  intros P Ha Hx Hy E. assert (D : (p | a * (x - y))).
  { apply Z.mod_divide; [lia|]. rewrite Z.mul_sub_distr_l, Zminus_mod, E, Z.sub_diag. apply Z.mod_0_l. lia. }
  apply prime_mult in D; [|exact P]. destruct D as [D|D].
  - apply Z.divide_pos_le in D; lia.
  - destruct (Z.eq_dec x y) as [e|N]; [exact e|]. exfalso. apply Z.divide_abs_r in D. apply Z.divide_pos_le in D; lia.
Qed.

Theorem fermat p a : prime p -> 1 <= a < p -> a ^ (p - 1) mod p = 1.
Proof.
  intros P Ha. set (l := seq 1 (Z.to_nat p - 1)). set (f := fun i : nat => Z.to_nat (a * Z.of_nat i mod p)).
  assert (M : forall i, 0 <= a * Z.of_nat i mod p < p) by (intros; apply Z.mod_pos_bound; lia).
  assert (PM : Permutation (map f l) l).
  { apply NoDup_Permutation_bis.
    - assert (I : forall x y, In x l -> In y l -> f x = f y -> x = y).
      { intros x y Hx Hy E. apply in_seq in Hx, Hy. unfold f in E. pose proof (M x). pose proof (M y). apply Z2Nat.inj in E; try lia.
        apply prime_mod_inj in E; try lia. exact P. }
      clear - I. pose proof (seq_NoDup (Z.to_nat p - 1) 1) as N. fold l in N. clearbody l. induction N as [|x l Hx N IH]; cbn [map]; constructor.
      + intros K. apply in_map_iff in K as (y & E & Hy). apply Hx. rewrite (I x y); [exact Hy|left; reflexivity|right; exact Hy|congruence].
      + apply IH. intros y z Hy Hz. apply I; right; assumption.
    - rewrite map_length. apply Nat.le_refl.
    - intros y Hy. apply in_map_iff in Hy as (i & <- & Hi). apply in_seq in Hi. apply in_seq. pose proof (M i). unfold f.
      assert (NZ : a * Z.of_nat i mod p <> 0).
      { intros E. apply Z.mod_divide in E; [|lia]. apply prime_mult in E; [|exact P].
        destruct E as [E|E]; apply Z.divide_pos_le in E; lia. }
      lia. }
  assert (E : fold_right Z.mul 1 (map (fun i => a * Z.of_nat i mod p) l) = fold_right Z.mul 1 (map Z.of_nat l)).
  { rewrite <- (prod_perm _ _ (Permutation_map Z.of_nat PM)), map_map. f_equal. apply map_ext. intros i. unfold f.
    pose proof (M i). rewrite Z2Nat.id by lia. reflexivity. }
  pose proof (prod_scale a p l ltac:(lia)) as S1. rewrite E in S1.
  replace (Z.of_nat (length l)) with (p - 1) in S1 by (unfold l; rewrite seq_length; lia).
  assert (R : ~ (p | fold_right Z.mul 1 (map Z.of_nat l))).
  { assert (K : Forall (fun i => ~ (p | Z.of_nat i)) l).
    { apply Forall_forall. intros i Hi C. apply in_seq in Hi. apply Z.divide_pos_le in C; lia. }
    clear - P K. induction K as [|i l Hi K IH]; cbn [map fold_right].
    - intros C. apply Z.divide_1_r_nonneg in C; pose proof (prime_ge_2 p P); lia.
    - intros C. apply prime_mult in C; [|exact P]. tauto. }
  set (q := fold_right Z.mul 1 (map Z.of_nat l)) in *.
  assert (D : (p | (a ^ (p - 1) - 1) * q)).
  { apply Z.mod_divide; [lia|]. rewrite Z.mul_sub_distr_r, Z.mul_1_l, Zminus_mod, <- S1, Z.sub_diag. apply Z.mod_0_l. lia. }
  apply prime_mult in D; [|exact P]. destruct D as [[c D]|D]; [|contradiction].
  replace (a ^ (p - 1)) with (1 + c * p) by lia. rewrite Z.mod_add by lia. apply mod_one. lia.
Qed.

(** ** Roots of polynomials modulo a prime *)

Fixpoint poly (c : list Z) (x : Z) : Z :=
  match c with [] => 0 | a :: t => a + x * poly t x end.

(** The quotient by x - a. *)
Fixpoint quot (c : list Z) (a : Z) : list Z :=
  match c with
  | [] => []
  | _ :: t => match t with [] => [] | _ => poly t a :: quot t a end
  end.

Lemma poly_quot c a x : poly c x = poly c a + (x - a) * poly (quot c a) x.
Proof.
  induction c as [|b t IH]; [cbn; ring|]. destruct t as [|b' t]; [cbn; ring|].
  change (quot (b :: b' :: t) a) with (poly (b' :: t) a :: quot (b' :: t) a).
  change (poly (b :: b' :: t) x) with (b + x * poly (b' :: t) x). change (poly (b :: b' :: t) a) with (b + a * poly (b' :: t) a).
  cbn [poly] in IH |- *. rewrite IH. ring.
Qed.

Lemma quot_length c a : length (quot c a) = pred (length c).
Proof.
  induction c as [|b t IH]; [reflexivity|]. destruct t as [|b' t]; [reflexivity|].
  change (quot (b :: b' :: t) a) with (poly (b' :: t) a :: quot (b' :: t) a). cbn [length] in *. rewrite IH. reflexivity.
Qed.

Lemma quot_last c a : (2 <= length c)%nat -> last (quot c a) 0 = last c 0.
Proof.
  induction c as [|b t IH]; [cbn; lia|]. destruct t as [|b' t]; [cbn; lia|]. intros _.
  change (quot (b :: b' :: t) a) with (poly (b' :: t) a :: quot (b' :: t) a). destruct t as [|b'' t]; [cbn; ring|].
  change (last (b :: b' :: b'' :: t) 0) with (last (b' :: b'' :: t) 0). rewrite <- IH by (cbn; lia).
  change (quot (b' :: b'' :: t) a) with (poly (b'' :: t) a :: quot (b'' :: t) a). reflexivity.
Qed.

(** A polynomial of degree [length c - 1] has no more roots than that. *)
Lemma root_bound p c : prime p -> last c 0 = 1 -> forall l, NoDup l -> Forall (fun x => 0 <= x < p /\ (p | poly c x)) l -> (length l < length c)%nat.
Proof.
  intros P. remember (length c) as n eqn:En. revert c En. induction n as [|n IH]; intros c En L l ND F.
  - destruct c; [cbn in L; lia|discriminate].
  - destruct l as [|a l]; [cbn; lia|]. cbn [length]. apply -> Nat.succ_lt_mono.
    inversion F as [|? ? [Ha Ra] F']; subst. inversion ND as [|? ? Na ND']; subst.
    destruct c as [|c0 [|c1 c]]; [discriminate| |].
    + cbn in L, Ra. subst c0. rewrite Z.mul_0_r, Z.add_0_r in Ra. apply Z.divide_1_r_nonneg in Ra; pose proof (prime_ge_2 p P); lia.
    + apply (IH (quot (c0 :: c1 :: c) a)).
      * rewrite quot_length, <- En. reflexivity.
      * rewrite quot_last by (cbn; lia). exact L.
      * exact ND'.
      * apply Forall_forall. intros x Hx. rewrite Forall_forall in F'. destruct (F' x Hx) as [Hx' Rx]. split; [exact Hx'|].
        rewrite (poly_quot _ a x) in Rx. apply Z.divide_add_cancel_r in Rx; [|exact Ra].
        apply prime_mult in Rx; [|exact P]. destruct Rx as [Rx|Rx]; [|exact Rx]. exfalso.
        apply Na. replace a with x; [exact Hx|]. apply Z.divide_abs_r in Rx.
        destruct (Z.eq_dec x a) as [e|N]; [exact e|]. apply Z.divide_pos_le in Rx; lia.
Qed.

Definition x_pow_minus_one (k : nat) : list Z := -1 :: repeat 0 (k - 1) ++ [1].

Lemma x_pow_minus_one_poly k x : (0 < k)%nat -> poly (x_pow_minus_one k) x = x ^ Z.of_nat k - 1.
Proof.
  intros H. unfold x_pow_minus_one. cbn [poly].
  assert (E : forall j, poly (repeat 0 j ++ [1]) x = x ^ Z.of_nat j).
  { induction j as [|j IH]; [cbn [repeat app poly Z.of_nat]; rewrite Z.pow_0_r; ring|]. cbn [repeat app poly]. rewrite IH, Nat2Z.inj_succ, Z.pow_succ_r by lia. ring. }
  rewrite E. destruct k as [|k]; [lia|]. replace (S k - 1)%nat with k by lia. rewrite Nat2Z.inj_succ, Z.pow_succ_r by lia. ring.
Qed.

(** Fewer than p - 1 numbers are roots of unity of a smaller order. *)
Lemma some_power_not_one p k : prime p -> 0 < k < p - 1 -> exists a, 1 <= a < p /\ a ^ k mod p <> 1.
Proof.
  intros P Hk.
  destruct (existsb (fun i => negb (Z.of_nat i ^ k mod p =? 1)) (seq 1 (Z.to_nat p - 1))) eqn:X.
  - apply existsb_exists in X as (i & Hi & E). apply in_seq in Hi. exists (Z.of_nat i). split; [lia|].
    apply Bool.negb_true_iff, Z.eqb_neq in E. exact E.
  - exfalso. assert (LT : (length (map Z.of_nat (seq 1 (Z.to_nat p - 1))) < length (x_pow_minus_one (Z.to_nat k)))%nat).
    { apply (root_bound p); [exact P| | |].
      - unfold x_pow_minus_one. change (-1 :: repeat 0 (Z.to_nat k - 1) ++ [1]) with ((-1 :: repeat 0 (Z.to_nat k - 1)) ++ [1]). apply last_last.
      - apply FinFun.Injective_map_NoDup; [|apply seq_NoDup]. intros x y. apply Nat2Z.inj.
      - apply Forall_forall. intros x Hx. apply in_map_iff in Hx as (i & <- & Hi). pose proof Hi as Hi'. apply in_seq in Hi. split; [lia|].
        rewrite x_pow_minus_one_poly, Z2Nat.id by lia.
        assert (E : Z.of_nat i ^ k mod p = 1).
        { destruct (Z.eqb_spec (Z.of_nat i ^ k mod p) 1) as [e|N]; [exact e|]. exfalso.
          assert (T : existsb (fun i => negb (Z.of_nat i ^ k mod p =? 1)) (seq 1 (Z.to_nat p - 1)) = true); [|congruence].
          apply existsb_exists. exists i. split; [exact Hi'|]. apply Bool.negb_true_iff, Z.eqb_neq. exact N. }
        exists (Z.of_nat i ^ k / p). pose proof (Z.div_mod (Z.of_nat i ^ k) p ltac:(lia)). lia. }
    rewrite map_length, seq_length in LT. unfold x_pow_minus_one in LT. cbn [length] in LT. rewrite app_length, repeat_length in LT. cbn [length] in LT. lia.
Qed.

(** ** Primitive roots *)

Lemma prime_divisor n : 1 < n -> exists q, prime q /\ (q | n).
Proof.
  intros H. assert (K : forall m, forall n, 1 < n -> n <= Z.of_nat m -> exists q, prime q /\ (q | n)).
  { induction m as [|m IH]; intros k Hk Hm; [lia|].
    destruct (prime_dec k) as [P|N]; [exists k; split; [exact P|apply Z.divide_refl]|].
    destruct (not_prime_divide k Hk N) as (d & Hd & D). destruct (IH d) as (q & Q & QD); [lia|lia|]. exists q. split; [exact Q|].
    apply Z.divide_trans with d; assumption. }
  apply (K (Z.to_nat n)); lia.
Qed.

(** n = q^e * m with m not divisible by q *)
Lemma split_power q n : prime q -> 0 < n -> exists e m, 0 <= e /\ 0 < m /\ n = q ^ e * m /\ ~ (q | m).
Proof.
  intros Q H. pose proof (prime_ge_2 q Q) as Hq.
  assert (K : forall k n, 0 < n <= Z.of_nat k -> exists e m, 0 <= e /\ 0 < m /\ n = q ^ e * m /\ ~ (q | m)).
  { induction k as [|k IH]; intros j Hj; [lia|].
    destruct (Zdivide_dec q j) as [[c ->]|N].
    - destruct (IH c) as (e & m & He & Hm & -> & Nm); [nia|]. exists (e + 1), m.
      split; [lia|]. split; [exact Hm|]. split; [|exact Nm]. rewrite Z.pow_add_r, Z.pow_1_r by lia. ring.
    - exists 0, j. split; [lia|]. split; [lia|]. split; [rewrite Z.pow_0_r; ring|exact N]. }
  apply (K (Z.to_nat n)). lia.
Qed.

Lemma divisor_of_power q e k : prime q -> 1 <= e -> 0 < k -> (k | q ^ e) -> ~ (k | q ^ (e - 1)) -> k = q ^ e.
Proof.
  intros Q He Hk [t E] N. pose proof (prime_ge_2 q Q). destruct (Zdivide_dec q t) as [[u ->]|NT].
  - exfalso. apply N. exists u. replace e with (e - 1 + 1) in E by lia. rewrite Z.pow_add_r, Z.pow_1_r in E by lia.
    apply Z.mul_cancel_r with q; [lia|]. rewrite E. ring.
  - assert (T : (t | 1)).
    { assert (R : rel_prime t (q ^ e)). { apply rel_prime_Zpower_r; [lia|]. apply rel_prime_sym, prime_rel_prime; assumption. }
      apply Gauss with (q ^ e); [|exact R]. exists k. rewrite Z.mul_1_r, E. ring. }
    apply Z.divide_1_r in T. assert (0 < q ^ e) by (apply Z.pow_pos_nonneg; lia). destruct T as [-> | ->]; lia.
Qed.

Lemma order_nonzero x k q : 1 < q -> 0 < k -> has_order x k q -> x mod q <> 0.
Proof.
  intros Hq Hk [E _] Z0. rewrite <- pow_mod_l, Z0, Z.pow_0_l, Z.mod_0_l in E by lia. lia.
Qed.

(** There is an element of every order that divides p - 1. *)
Lemma element_of_order p : prime p -> forall n, 0 < n -> (n | p - 1) -> exists g, 1 <= g < p /\ has_order g n p.
Proof.
  intros P. pose proof (prime_ge_2 p P) as Hp.
  assert (K : forall m n, 0 < n <= Z.of_nat m -> (n | p - 1) -> exists g, 1 <= g < p /\ has_order g n p).
  { induction m as [|m IH]; intros n Hn D; [lia|].
    destruct (Z.eq_dec n 1) as [-> |N1].
    - exists 1. split; [lia|]. split; [apply mod_one; lia|intros; lia].
    - destruct (prime_divisor n ltac:(lia)) as (q & Q & QD). pose proof (prime_ge_2 q Q) as Hq.
      destruct (split_power q n Q ltac:(lia)) as (e & n' & He & Hn' & E & N').
      assert (e <> 0) by (intros ->; rewrite Z.pow_0_r, Z.mul_1_l in E; subst n'; contradiction).
      assert (PQ : q <= q ^ e) by (rewrite <- (Z.pow_1_r q) at 1; apply Z.pow_le_mono_r; lia).
      assert (D1 : (n' | p - 1)) by (apply Z.divide_trans with n; [exists (q ^ e); exact E|exact D]).
      destruct (IH n') as (x & Hx & Ox); [nia|exact D1|].
      assert (Y : exists y, has_order y (q ^ e) p).
      { assert (D2 : (q ^ e | p - 1)) by (apply Z.divide_trans with n; [exists n'; rewrite E; ring|exact D]).
        destruct D2 as [t Et]. assert (Ht : 0 < t) by nia.
        assert (Eq : q ^ e = q ^ (e - 1) * q). { replace e with (e - 1 + 1) at 1 by lia. rewrite Z.pow_add_r, Z.pow_1_r by lia. reflexivity. }
        assert (Pq : 0 < q ^ (e - 1)) by (apply Z.pow_pos_nonneg; lia).
        destruct (some_power_not_one p (t * q ^ (e - 1)) P) as (a & Ha & NA); [nia|].
        exists (a ^ t).
        assert (F : (a ^ t) ^ (q ^ e) mod p = 1). { rewrite <- Z.pow_mul_r, <- Et by lia. apply fermat; assumption. }
        destruct (least_power (a ^ t) p (q ^ e) ltac:(lia) ltac:(lia) F) as (k & Hk & Ok).
        replace (q ^ e) with k; [exact Ok|]. apply divisor_of_power; [exact Q|lia|lia| |].
        - apply (order_iff (a ^ t) k (q ^ e) p); [lia|lia|lia|exact Ok|exact F].
        - intros C. apply NA. rewrite Z.pow_mul_r by lia. apply (order_iff (a ^ t) k (q ^ (e - 1)) p); [lia|lia|lia|exact Ok|exact C]. }
      destruct Y as (y & Oy).
      assert (O : has_order (x * y mod p) (n' * q ^ e) p).
      { apply order_product; [lia|lia|lia| |exact Ox|exact Oy]. apply rel_prime_Zpower_r; [lia|]. apply rel_prime_sym, prime_rel_prime; assumption. }
      replace (n' * q ^ e) with n in O by (rewrite E; ring). exists (x * y mod p). split; [|exact O].
      pose proof (Z.mod_pos_bound (x * y) p ltac:(lia)). pose proof (order_nonzero _ n p ltac:(lia) ltac:(lia) O) as NZ. rewrite Zmod_mod in NZ. lia. }
  intros n Hn D. apply (K (Z.to_nat n)); [lia|exact D].
Qed.

Theorem primitive_root p : prime p -> exists g, 1 <= g < p /\ has_order g (p - 1) p.
Proof. intros P. pose proof (prime_ge_2 p P). apply element_of_order; [exact P|lia|apply Z.divide_refl]. Qed.
