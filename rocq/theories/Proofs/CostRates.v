(** Bounds of the form [x <= k * b^0.47], kept in integers. *)
From Coq Require Import Lia.
From Verif Require Import Model.Base Model.Buffer Model.Mul Model.Cost Spec.Val.
From Verif Require Import Proofs.Basics Proofs.CostProofs Proofs.CostBounds Proofs.CostTheorems.

Definition below (x k b : Z) : Prop := 0 <= x /\ x ^ 100 <= k ^ 100 * b ^ 47.

Section Below.

Lemma pow_pos_100 x : 0 <= x -> 0 <= x ^ 100. Proof. intros H. apply Z.pow_nonneg. exact H. Qed.
Lemma pow_pos_47 x : 0 <= x -> 0 <= x ^ 47. Proof. intros H. apply Z.pow_nonneg. exact H. Qed.

Lemma below_le x y k b : 0 <= x <= y -> below y k b -> below x k b.
Proof. intros L [B0 B1]. split; [clear B1; lia|]. apply Z.le_trans with (y ^ 100); [apply Z.pow_le_mono_l; exact L|exact B1]. Qed.

Lemma below_mono x k k' b b' : 0 <= k <= k' -> 0 <= b <= b' -> below x k b -> below x k' b'.
Proof.
  intros K L [B0 B1]. split; [exact B0|]. apply Z.le_trans with (k ^ 100 * b ^ 47); [exact B1|].
  apply Z.mul_le_mono_nonneg; [apply pow_pos_100; apply K|apply Z.pow_le_mono_l; exact K|apply pow_pos_47; apply L|apply Z.pow_le_mono_l; exact L].
Qed.

Lemma below_scale m x k b : 0 <= m -> below x k b -> below (m * x) (m * k) b.
Proof.
  intros M [B0 B1]. split; [apply Z.mul_nonneg_nonneg; assumption|]. rewrite (Z.pow_mul_l m x), (Z.pow_mul_l m k), <- Z.mul_assoc. apply Z.mul_le_mono_nonneg_l; [apply pow_pos_100; exact M|exact B1].
Qed.

Lemma ratio_bound n a b p r T : 0 <= n -> 0 <= a -> 0 <= b -> 0 <= p -> 0 < r -> 0 <= T -> a * r <= b * p -> b ^ n <= r ^ n * T ->
  (a + b) ^ n <= (p + r) ^ n * T.
Proof.
  intros N A0 B0 P R T0 C E. assert (X0 : (a + b) * r <= b * (p + r)) by (rewrite Z.mul_add_distr_r, Z.mul_add_distr_l; clear E; lia).
  assert (X : ((a + b) * r) ^ n <= (b * (p + r)) ^ n).
  { apply Z.pow_le_mono_l. split; [clear E; apply Z.mul_nonneg_nonneg; lia|exact X0]. }
  rewrite !Z.pow_mul_l in X.
  assert (RN : 0 < r ^ n) by (apply Z.pow_pos_nonneg; lia). assert (PN : 0 <= (p + r) ^ n) by (apply Z.pow_nonneg; lia).
  apply (Z.mul_le_mono_pos_r _ _ (r ^ n) RN). apply Z.le_trans with (b ^ n * (p + r) ^ n); [exact X|].
  replace ((p + r) ^ n * T * r ^ n) with (r ^ n * T * (p + r) ^ n) by ring. apply Z.mul_le_mono_nonneg_r; [exact PN|exact E].
Qed.

(** Minkowski's inequality, for exponents below 1 with a common base. *)
Lemma below_add x y k l b : 0 < k -> 0 < l -> 0 <= b -> below x k b -> below y l b -> below (x + y) (k + l) b.
Proof.
  intros K L B0 [X0 X1] [Y0 Y1]. split; [apply Z.add_nonneg_nonneg; assumption|]. pose proof (pow_pos_47 b B0) as T0.
  destruct (Z.le_ge_cases (x * l) (y * k)) as [C|C].
  - apply ratio_bound; try assumption; [discriminate|apply Z.lt_le_incl; exact K].
  - rewrite (Z.add_comm x), (Z.add_comm k). apply ratio_bound; try assumption; [discriminate|apply Z.lt_le_incl; exact L].
Qed.

Lemma below_const c k b b0 : 0 <= c -> 0 <= k -> 0 <= b0 <= b -> c ^ 100 <= k ^ 100 * b0 ^ 47 -> below c k b.
Proof.
  intros C K L E. split; [exact C|]. apply Z.le_trans with (k ^ 100 * b0 ^ 47); [exact E|].
  apply Z.mul_le_mono_nonneg_l; [apply pow_pos_100; exact K|apply Z.pow_le_mono_l; exact L].
Qed.

(** The base may shrink by half when the factor grows by 2^0.47. *)
Lemma below_half x k l b : 0 <= b -> 0 <= l -> k ^ 100 * 2 ^ 47 <= l ^ 100 -> below x k (2 * b) -> below x l b.
Proof.
  intros B0 L0 KL [X0 X1]. split; [exact X0|]. apply Z.le_trans with (k ^ 100 * (2 * b) ^ 47); [exact X1|].
  rewrite (Z.pow_mul_l 2 b), Z.mul_assoc. apply Z.mul_le_mono_nonneg_r; [apply pow_pos_47; exact B0|exact KL].
Qed.

Lemma below_double x k l b : 0 <= b -> 0 <= l -> k ^ 100 <= l ^ 100 * 2 ^ 47 -> below x k b -> below x l (2 * b).
Proof.
  intros B0 L0 KL [X0 X1]. split; [exact X0|]. apply Z.le_trans with (k ^ 100 * b ^ 47); [exact X1|].
  rewrite (Z.pow_mul_l 2 b), Z.mul_assoc. apply Z.mul_le_mono_nonneg_r; [apply pow_pos_47; exact B0|exact KL].
Qed.

End Below.

Ltac consts := apply le_by; vm_compute; reflexivity.

Section Rates.
Context {A : Arch}.

(** What a multiplication costs, for each word of its factors. *)
Lemma rate_below b : (1 <= b)%nat -> exists H, rate b H /\ below H 114 (Z.of_nat b).
Proof.
  intros B1. destruct (Z.leb_spec (Z.of_nat b) 66) as [SM|SM].
  - destruct (Z.leb_spec (Z.of_nat b) 24) as [S2|S2].
    + exists (Z.of_nat b + 1). split; [apply rate_small; lia|]. apply (below_le _ 25); [lia|].
      apply (below_const 25 114 _ 1); [lia|lia|lia|consts].
    + exists 322. split; [apply rate_66; lia|]. apply (below_const 322 114 _ 25); [lia|lia|lia|consts].
  - destruct (find_level (Z.of_nat b) SM) as (k & K1 & K2). exists (level_rate (S k)). split; [apply rate_level; exact K2|].
    destruct (level_rate_ge (S k)) as [_ LR]. pose proof (level_rate_479 (S k)) as L4. pose proof (pow35 (S k)) as P.
    split; [lia|]. replace (114 ^ 100) with ((114 * 1) ^ 100) by reflexivity.
    apply (root_bound 479 114 (S k) _ 1 (Z.of_nat b)); [lia|lia|lia|lia| | |consts].
    + unfold level in K1. rewrite Nat2Z.inj_succ, Z.pow_succ_r by lia. lia.
    + rewrite Z.mul_1_r, Z.mul_comm. exact LR.
Qed.

End Rates.
