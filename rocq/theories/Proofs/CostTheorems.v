(** The documented complexities of multiplication. *)
From Coq Require Import Lia.
From Verif Require Import Model.Base Model.Words Model.Memory Model.Mul Model.Cost Model.Buffer Spec.Val.
From Verif Require Import Proofs.Basics Proofs.CostProofs Proofs.CostBounds.

Section Theorems.
Context {A : Arch}.

(** *** Finding the level *)

Lemma find_level b : 66 < b -> exists k, level k < b <= level (S k).
Proof.
  intros B0. assert (K : exists k, b <= level k).
  { exists (Z.to_nat b). unfold level. rewrite Z2Nat.id by lia. pose proof (Z.pow_gt_lin_r 3 b). lia. }
  destruct K as [k K]. induction k as [|k IH]; [change (level 0) with 66 in K; lia|].
  destruct (Z.leb_spec b (level k)); [auto|]. exists k. lia.
Qed.

Lemma level_mono j k : (j <= k)%nat -> level j <= level k.
Proof. intros L. unfold level. pose proof (Z.pow_le_mono_r 3 (Z.of_nat j) (Z.of_nat k)). lia. Qed.

Lemma pow35_mono j k : (j <= k)%nat -> 5 ^ Z.of_nat j * 3 ^ Z.of_nat k <= 3 ^ Z.of_nat j * 5 ^ Z.of_nat k.
Proof.
  intros L. replace k with (j + (k - j))%nat by lia. rewrite Nat2Z.inj_add, !Z.pow_add_r by lia.
  pose proof (pow35 j). pose proof (pow35 (k - j)). nia.
Qed.

Definition level_rate (k : nat) : Z := 478 * 5 ^ Z.of_nat k / 3 ^ Z.of_nat k + 1.

Lemma level_rate_ge k : 478 * 5 ^ Z.of_nat k < level_rate k * 3 ^ Z.of_nat k <= 479 * 5 ^ Z.of_nat k.
Proof.
  unfold level_rate. pose proof (pow35 k) as P. pose proof (Z.div_mod (478 * 5 ^ Z.of_nat k) (3 ^ Z.of_nat k)) as D.
  pose proof (Z.mod_pos_bound (478 * 5 ^ Z.of_nat k) (3 ^ Z.of_nat k)) as M. lia.
Qed.

Lemma level_rate_479 k : 479 <= level_rate k.
Proof.
  unfold level_rate. pose proof (pow35 k) as P. pose proof (Z.div_le_lower_bound (478 * 5 ^ Z.of_nat k) (3 ^ Z.of_nat k) 478). lia.
Qed.

Lemma karatsuba_66 fuel c s x y mem : (length x <= 66)%nat ->
  costs (c_karatsuba_same_len (c_same_len_fuel fuel) c s x y mem) 8028 (keeps (length c)).
Proof.
  intros L. eapply costs_weaken; [apply (karatsuba_costs _ 48 2404 (length x)); [apply same_48|lia|reflexivity]|lia|auto].
Qed.

Lemma karatsuba_192 fuel c s x y mem : (length x <= 192)%nat ->
  costs (c_karatsuba_same_len (c_same_len_fuel fuel) c s x y mem) 27495 (keeps (length c)).
Proof.
  intros L. eapply costs_weaken; [apply (karatsuba_costs _ 96 8389 (length x)); [apply same_96|lia|reflexivity]|lia|auto].
Qed.

Lemma toom_level k fuel c s x y mem : Z.of_nat (length x) <= level (S k) ->
  costs (c_toom_3_same_len (c_same_len_fuel fuel) c s x y mem) (level_cost (S k)) (keeps (length c)).
Proof.
  intros L. destruct (level_cost_S k) as [_ C]. rewrite level_S in L, C.
  eapply costs_weaken; [apply (toom_costs _ (level k) (level_cost k) (length x)); [apply same_level|lia|reflexivity]|lia|auto].
Qed.

Lemma rate_small b : (b <= 24)%nat -> rate b (Z.of_nat b + 1).
Proof. intros L. split; [lia|]. intros. lia. Qed.

Lemma rate_66 b : (b <= 66)%nat -> rate b 322.
Proof.
  intros L. split; [lia|]. intros fuel c s x y mem [X1 X2]. split; [|lia]. intros _.
  eapply costs_weaken; [apply karatsuba_66; lia| |auto]. unfold len. lia.
Qed.

Lemma rate_level k b : Z.of_nat b <= level (S k) -> rate b (level_rate (S k)).
Proof.
  intros L. pose proof (level_rate_479 (S k)) as H1. split; [lia|]. intros fuel c s x y mem [X1 X2]. split; intros X3.
  - destruct (Nat.leb_spec (length x) 66).
    + eapply costs_weaken; [apply karatsuba_66; lia| |auto]. unfold len. nia.
    + eapply costs_weaken; [apply karatsuba_192; lia| |auto]. unfold len. nia.
  - destruct (find_level (Z.of_nat (length x))) as (j & J1 & J2); [lia|].
    eapply costs_weaken; [apply (toom_level j); exact J2| |auto].
    assert (JK : (j <= k)%nat). { destruct (Nat.leb_spec j k); [auto|]. pose proof (level_mono (S k) j). lia. }
    pose proof (pow35_mono (S j) (S k) ltac:(lia)) as PM. destruct (level_rate_ge (S k)) as [H2 _].
    pose proof (pow35 (S k)) as [P1 P2]. pose proof (pow35 j) as [P3 P4].
    assert (LC : level_cost (S j) <= 10188 * 5 ^ Z.of_nat (S j)) by (unfold level_cost; pose proof (pow35 (S j)); lia).
    assert (LX : 64 * 3 ^ Z.of_nat j <= len x) by (unfold len; unfold level in J1; lia).
    assert (E3 : 3 ^ Z.of_nat (S j) = 3 * 3 ^ Z.of_nat j) by (rewrite Nat2Z.inj_succ; apply Z.pow_succ_r; lia).
    apply (Z.mul_le_mono_pos_r _ _ (3 ^ Z.of_nat (S k))); [lia|].
    apply Z.le_trans with (10188 * 5 ^ Z.of_nat (S j) * 3 ^ Z.of_nat (S k)); [apply Z.mul_le_mono_nonneg_r; lia|].
    apply Z.le_trans with (10188 * (3 * 3 ^ Z.of_nat j * 5 ^ Z.of_nat (S k))); [rewrite E3 in PM; lia|].
    apply Z.le_trans with (478 * 5 ^ Z.of_nat (S k) * len x); [|replace (level_rate (S k) * len x * 3 ^ Z.of_nat (S k)) with (level_rate (S k) * 3 ^ Z.of_nat (S k) * len x) by ring;
      apply Z.mul_le_mono_nonneg_r; lia].
    assert (0 <= 5 ^ Z.of_nat (S k)) by lia. clear - LX H P3.
    apply Z.le_trans with (478 * 5 ^ Z.of_nat (S k) * (64 * 3 ^ Z.of_nat j)); [nia|apply Z.mul_le_mono_nonneg_l; lia].
Qed.

(** *** Hundredth powers *)

Lemma pow_5_3 k : (5 ^ Z.of_nat k) ^ 100 <= (3 ^ Z.of_nat k) ^ 147.
Proof.
  rewrite <- !Z.pow_mul_r, (Z.mul_comm _ 100), (Z.mul_comm _ 147), !Z.pow_mul_r by lia. apply Z.pow_le_mono_l. split; [lia|].
  apply Z.leb_le. vm_compute. reflexivity.
Qed.

(** [x <= c * (5/3)^k * a] and [64 * 3^k <= 3 * b] give [x <= d * a * b^0.47], if [c * (3/64)^0.47 <= d]. *)
Lemma root_bound c d k x a b : 0 <= x -> 0 <= a -> 0 <= c -> 0 <= d -> 64 * 3 ^ Z.of_nat k <= 3 * b -> 3 ^ Z.of_nat k * x <= c * 5 ^ Z.of_nat k * a ->
  c ^ 100 * 3 ^ 47 <= d ^ 100 * 64 ^ 47 -> x ^ 100 <= (d * a) ^ 100 * b ^ 47.
Proof.
  intros X A0 C0 D0 B0 XA CD. pose proof (pow35 k) as P. set (p := 3 ^ Z.of_nat k) in *. set (q := 5 ^ Z.of_nat k) in *.
  assert (Q : q ^ 100 <= p ^ 147) by apply pow_5_3. clearbody p q.
  assert (PX : 0 <= p * x <= c * q * a) by (clear - XA P X; nia).
  assert (PB : 0 <= 64 * p <= 3 * b) by (clear - B0 P; lia).
  assert (P0 : 0 < p) by (clear - P; lia). assert (B1 : 0 <= b) by (clear - PB; lia). clear XA B0 P.
  assert (E1 : (p * x) ^ 100 <= (c * q * a) ^ 100) by (apply Z.pow_le_mono_l; exact PX).
  assert (E2 : (64 * p) ^ 47 <= (3 * b) ^ 47) by (apply Z.pow_le_mono_l; exact PB). clear PX PB.
  rewrite (Z.pow_mul_l p x), (Z.pow_mul_l (c * q) a), (Z.pow_mul_l c q) in E1. rewrite (Z.pow_mul_l 64 p), (Z.pow_mul_l 3 b) in E2. rewrite Z.pow_mul_l.
  replace 147 with (100 + 47) in Q by reflexivity. rewrite Z.pow_add_r in Q by discriminate.
  assert (Pp : 0 < p ^ 100) by (apply Z.pow_pos_nonneg; [exact P0|discriminate]).
  assert (K64 : 0 < 64 ^ 47) by reflexivity. assert (K3 : 0 <= 3 ^ 47) by (apply Z.leb_le; reflexivity).
  assert (NC : 0 <= c ^ 100) by (apply Z.pow_nonneg; exact C0). assert (NA : 0 <= a ^ 100) by (apply Z.pow_nonneg; exact A0).
  assert (NB : 0 <= b ^ 47) by (apply Z.pow_nonneg; exact B1). assert (NP : 0 <= p ^ 47) by (apply Z.pow_nonneg; clear - P0; lia).
  generalize dependent (c ^ 100). generalize dependent (d ^ 100). generalize dependent (x ^ 100). generalize dependent (a ^ 100).
  generalize dependent (b ^ 47). generalize dependent (p ^ 47). generalize dependent (p ^ 100). generalize dependent (q ^ 100).
  generalize dependent (64 ^ 47). generalize dependent (3 ^ 47). clear.
  intros u3 K3 u64 K64 qh ph Pp p47 Q NP b47 E2 NB ah NA xh dh ch CD E1 NC.
  (* x a-hundredth: xh <= ch * p47 * ah *)
  assert (X1 : xh <= ch * p47 * ah).
  { apply (Z.mul_le_mono_pos_l _ _ ph Pp). apply Z.le_trans with (ch * qh * ah); [exact E1|].
    replace (ph * (ch * p47 * ah)) with (ch * (ph * p47) * ah) by ring. apply Z.mul_le_mono_nonneg_r; [lia|]. apply Z.mul_le_mono_nonneg_l; lia. }
  apply (Z.mul_le_mono_pos_l _ _ u64 K64). apply Z.le_trans with (ch * ah * (u64 * p47)).
  { replace (ch * ah * (u64 * p47)) with (u64 * (ch * p47 * ah)) by ring. apply Z.mul_le_mono_nonneg_l; lia. }
  apply Z.le_trans with (ch * ah * (u3 * b47)); [apply Z.mul_le_mono_nonneg_l; [apply Z.mul_nonneg_nonneg; lia|exact E2]|].
  replace (ch * ah * (u3 * b47)) with (ch * u3 * (ah * b47)) by ring. replace (u64 * (dh * ah * b47)) with (dh * u64 * (ah * b47)) by ring.
  apply Z.mul_le_mono_nonneg_r; [apply Z.mul_nonneg_nonneg; lia|exact CD].
Qed.

(** The same for a bound [x <= e * f * a] with [f <= b^0.47]. *)
Lemma flat_bound e f d x a b m : 0 <= x -> 0 <= a -> 0 <= f -> 0 <= m <= b -> 0 <= e -> x <= e * f * a -> e <= d -> f ^ 100 <= m ^ 47 ->
  x ^ 100 <= (d * a) ^ 100 * b ^ 47.
Proof.
  intros X A0 F M E0 XA ED FM. apply Z.le_trans with ((e * f * a) ^ 100); [apply Z.pow_le_mono_l; clear FM; lia|].
  replace (e * f * a) with (e * a * f) by ring. rewrite Z.pow_mul_l. 
  apply Z.mul_le_mono_nonneg; [apply Z.pow_nonneg; clear FM; nia|apply Z.pow_le_mono_l; clear FM; nia|apply Z.pow_nonneg; exact F|].
  apply Z.le_trans with (m ^ 47); [exact FM|apply Z.pow_le_mono_l; exact M].
Qed.

Lemma le_by (x y : Z) : (x <=? y) = true -> x <= y. Proof. apply Z.leb_le. Qed.

(** src/mul/toom_3.rs:58: O(a.len() * b.len()^0.47) *)
Theorem mul_cost fuel c s a b mem x : 1 <= len b <= len a -> add_signed_mul_fuel fuel c s a b mem = Ok x ->
  0 <= fst (c_add_signed_mul_fuel fuel c s a b mem) /\
  fst (c_add_signed_mul_fuel fuel c s a b mem) ^ 100 <= (350 * len a) ^ 100 * len b ^ 47.
Proof.
  intros L E. rewrite <- add_signed_mul_erase in E. pose proof (add_signed_mul_nn fuel c s a b mem) as NN. split; [exact NN|].
  assert (C : forall H, rate (length b) H -> fst (c_add_signed_mul_fuel fuel c s a b mem) <= (3 * H + 14) * len a).
  { intros H R. assert (0 <= H) by (destruct R as [R _]; lia).
    assert (R' : rate (Nat.min (length a) (length b)) H) by (eapply rate_le; [exact R|lia]).
    destruct (mul_costs fuel c s a b mem H R' x E) as [C _]. rewrite Z.max_l, Z.min_r in C by lia. nia. }
  set (y := fst (c_add_signed_mul_fuel fuel c s a b mem)) in *. clearbody y. clear E x.
  destruct (Z.leb_spec (len b) 66) as [SM|SM].
  - destruct (Z.leb_spec (len b) 24) as [S2|S2].
    + specialize (C _ (rate_small (length b) ltac:(unfold len in *; lia))).
      apply (flat_bound 92 1 350 y (len a) (len b) 1); try lia. change (Z.of_nat (length b)) with (len b) in C. nia.
    + specialize (C _ (rate_66 (length b) ltac:(unfold len in *; lia))).
      apply (flat_bound 245 4 350 y (len a) (len b) 25); lia.
  - destruct (find_level (len b) SM) as (k & K1 & K2). specialize (C _ (rate_level k (length b) K2)).
    destruct (level_rate_ge (S k)) as [_ LR]. pose proof (pow35 (S k)) as P.
    apply (root_bound 1451 350 (S k) y (len a) (len b)); try lia.
    + unfold level in K1. rewrite Nat2Z.inj_succ, Z.pow_succ_r by lia. lia.
    + apply Z.le_trans with (3 ^ Z.of_nat (S k) * ((3 * level_rate (S k) + 14) * len a)); [apply Z.mul_le_mono_nonneg_l; lia|].
      rewrite Z.mul_assoc. apply Z.mul_le_mono_nonneg_r; lia.
Qed.

(** src/mul/simple.rs:28: O(a.len() * b.len()) *)
Theorem simple_cost fuel c s a b mem x : 1 <= len b <= len a -> len b <= 24 -> add_signed_mul_fuel fuel c s a b mem = Ok x ->
  fst (c_add_signed_mul_fuel fuel c s a b mem) <= 20 * len a * len b.
Proof.
  intros L L2 E. rewrite <- add_signed_mul_erase in E.
  assert (R : rate (Nat.min (length a) (length b)) (len b + 1)).
  { eapply rate_le; [apply rate_small; unfold len in *; lia|lia]. }
  destruct (mul_costs fuel c s a b mem _ R x E) as [C _]. rewrite Z.max_l, Z.min_r in C by lia. clear - L C. nia.
Qed.

(** src/mul/toom_3.rs:83: O(n^1.47) *)
Theorem same_len_cost fuel c s a b mem x : 1 <= len a -> same_len_fuel fuel c s a b mem = Ok x ->
  0 <= fst (c_same_len_fuel fuel c s a b mem) /\
  fst (c_same_len_fuel fuel c s a b mem) ^ 100 <= 120 ^ 100 * len a ^ 147.
Proof.
  intros L E. rewrite <- same_len_erase in E. pose proof (same_len_nn fuel c s a b mem) as NN. split; [exact NN|].
  assert (C : forall m T, bounded (c_same_len_fuel fuel) m T -> len a <= m -> fst (c_same_len_fuel fuel c s a b mem) <= T).
  { intros m T BD LM. apply (BD c s a b mem LM x E). }
  assert (C24 : len a <= 24 -> fst (c_same_len_fuel fuel c s a b mem) <= len a * (len a + 1) + 1).
  { intros S24. destruct fuel as [|fuel]; [discriminate|].
    assert (K : costs (c_same_len_fuel (S fuel) c s a b mem) (len a * (len a + 1) + 1) (fun _ => True)); [|apply (K x E)].
    cbn [c_same_len_fuel]. step. step. destruct (length a <=? MAX_LEN_SIMPLE)%nat eqn:G; bits; [|unfold MAX_LEN_SIMPLE, len in *; lia].
    eapply costs_weaken; [apply simple_same_costs| |auto]. cbn [Z.of_nat]. lia. }
  set (y := fst (c_same_len_fuel fuel c s a b mem)) in *. clearbody y. clear E x.
  replace (len a ^ 147) with (len a ^ 100 * len a ^ 47) by (rewrite <- Z.pow_add_r by discriminate; reflexivity).
  rewrite Z.mul_assoc, <- Z.pow_mul_l.
  destruct (Z.leb_spec (len a) 66) as [SM|SM].
  - destruct (Z.leb_spec (len a) 24) as [S2|S2]; [|destruct (Z.leb_spec (len a) 48) as [S3|S3]].
    + specialize (C24 S2). apply (flat_bound 72 1 120 y (len a) (len a) 1); try lia. nia.
    + specialize (C _ _ (same_48 fuel) S3). apply (flat_bound 97 1 120 y (len a) (len a) 1); lia.
    + specialize (C _ _ (same_66 fuel) SM). apply (flat_bound 60 6 120 y (len a) (len a) 49); lia.
  - destruct (find_level (len a) SM) as (k & K1 & K2). specialize (C _ _ (same_level (S k) fuel) K2).
    assert (LC : level_cost (S k) <= 10188 * 5 ^ Z.of_nat (S k)) by (unfold level_cost; pose proof (pow35 (S k)); lia).
    pose proof (pow35 k) as P. unfold level in K1.
    apply (root_bound 478 120 (S k) y (len a) (len a)); try lia.
    + rewrite Nat2Z.inj_succ, Z.pow_succ_r by lia. lia.
    + assert (E3 : 3 ^ Z.of_nat (S k) = 3 * 3 ^ Z.of_nat k) by (rewrite Nat2Z.inj_succ; apply Z.pow_succ_r; lia).
      pose proof (pow35 (S k)) as P5. rewrite E3 in *. set (q := 5 ^ Z.of_nat (S k)) in *. clearbody q.
      apply Z.le_trans with (3 * 3 ^ Z.of_nat k * (10188 * q)); [apply Z.mul_le_mono_nonneg_l; lia|].
      apply Z.le_trans with (478 * q * (64 * 3 ^ Z.of_nat k)); [clear - P P5; nia|apply Z.mul_le_mono_nonneg_l; lia].
Qed.

(** src/mul/karatsuba.rs:64: O(n^1.59) *)
Theorem karatsuba_cost fuel c s a b mem x : 1 <= len a <= 192 -> same_len_fuel fuel c s a b mem = Ok x ->
  0 <= fst (c_same_len_fuel fuel c s a b mem) /\
  fst (c_same_len_fuel fuel c s a b mem) ^ 100 <= 24 ^ 100 * len a ^ 159.
Proof.
  intros L E. rewrite <- same_len_erase in E. pose proof (same_len_nn fuel c s a b mem) as NN. split; [exact NN|].
  assert (C : forall m T, bounded (c_same_len_fuel fuel) m T -> len a <= m -> fst (c_same_len_fuel fuel c s a b mem) <= T).
  { intros m T BD LM. apply (BD c s a b mem LM x E). }
  assert (C24 : len a <= 24 -> fst (c_same_len_fuel fuel c s a b mem) <= len a * (len a + 1) + 1).
  { intros S24. destruct fuel as [|fuel]; [discriminate|].
    assert (K : costs (c_same_len_fuel (S fuel) c s a b mem) (len a * (len a + 1) + 1) (fun _ => True)); [|apply (K x E)].
    cbn [c_same_len_fuel]. step. step. destruct (length a <=? MAX_LEN_SIMPLE)%nat eqn:G; bits; [|unfold MAX_LEN_SIMPLE, len in *; lia].
    eapply costs_weaken; [apply simple_same_costs| |auto]. cbn [Z.of_nat]. lia. }
  set (y := fst (c_same_len_fuel fuel c s a b mem)) in *. clearbody y. clear E x.
  assert (F : forall T m, 0 <= m <= len a -> y <= T -> T ^ 100 <= 24 ^ 100 * m ^ 159 -> y ^ 100 <= 24 ^ 100 * len a ^ 159).
  { intros T m M Y TM. apply Z.le_trans with (T ^ 100); [apply Z.pow_le_mono_l; clear TM; lia|].
    apply Z.le_trans with (24 ^ 100 * m ^ 159); [exact TM|]. apply Z.mul_le_mono_nonneg_l; [apply le_by; reflexivity|]. apply Z.pow_le_mono_l; exact M. }
  destruct (Z.leb_spec (len a) 24) as [S1|S1]; [|destruct (Z.leb_spec (len a) 48) as [S2|S2]; [|destruct (Z.leb_spec (len a) 96) as [S3|S3]]].
  - specialize (C24 S1). destruct (Z.leb_spec (len a) 2) as [S0|S0]; [apply (F 7 1); [clear F; lia|clear F; nia|apply le_by; vm_compute; reflexivity]|].
    destruct (Z.leb_spec (len a) 10) as [S2|S2]; [apply (F 111 3); [clear F; lia|clear F; nia|apply le_by; vm_compute; reflexivity]|].
    apply (F 601 11); [clear F; lia|clear F; nia|apply le_by; vm_compute; reflexivity].
  - apply (F 2404 25); [clear F; lia|clear F; apply (C _ _ (same_48 fuel)); lia|apply le_by; vm_compute; reflexivity].
  - apply (F 8389 49); [clear F; lia|clear F; apply (C _ _ (same_96 fuel)); lia|apply le_by; vm_compute; reflexivity].
  - apply (F 27496 97); [clear F; lia|clear F; apply (C _ _ (same_192 fuel)); lia|apply le_by; vm_compute; reflexivity].
Qed.

End Theorems.
