(** The tables of the number-theoretic transform. *)
From Verif Require Import Model.Base Model.Words Model.FastDivide Model.Buffer Model.UBig Model.Modular Model.Ntt
  Spec.Val Spec.Num Spec.Modular Spec.Order
  Proofs.Basics Proofs.FastDivideProofs Proofs.BufferProofs Proofs.ModularProofs Proofs.ModularPow Proofs.OrderProofs.
From Coq Require Import Lia Znumtheory.

(** Repeated squaring. *)
Fixpoint squarings (n : nat) (x p : Z) : Z :=
  match n with O => x mod p | S n => squarings n (x * x mod p) p end.

Lemma squarings_spec n : forall x p, 0 < p -> squarings n x p = x ^ 2 ^ Z.of_nat n mod p.
Proof.
  induction n as [|n IH]; intros x p Hp; cbn [squarings].
  - cbn [Z.of_nat]. rewrite Z.pow_0_r, Z.pow_1_r. reflexivity.
  - rewrite IH by auto. rewrite pow_mod_l by auto. rewrite <- Z.pow_2_r, <- Z.pow_mul_r by (try apply Z.pow_nonneg; lia).
    f_equal. f_equal. rewrite Nat2Z.inj_succ, Z.pow_succ_r by lia. reflexivity.
Qed.

(** What is checked by computation for each prime. *)
Definition prime_check (m w : Z) (p : Prime) : bool :=
  (2 <? p_prime p) && (p_prime p mod 2 =? 1) && (p_prime p <? 2 ^ w) && ((p_prime p - 1) mod 2 ^ m =? 0) &&
  (p_prime p <? 2 ^ m * 2 ^ m) && (0 <? p_max_order_root p) && (p_max_order_root p <? p_prime p) &&
  (squarings (Z.to_nat (m - 1)) (p_max_order_root p) (p_prime p) =? p_prime p - 1).

Section Ntt.
Context {A : Arch} {AOK : ArchOk A}.

Lemma primes_checked p : In p PRIMES -> prime_check NTT_MAX_ORDER wbits p = true.
Proof.
  unfold PRIMES, NTT_MAX_ORDER. destruct wbits_cases as [E|[E|E]]; rewrite E; cbn [Z.eqb Pos.eqb];
    intros [<-|[<-|[<-|[]]]]; vm_compute; reflexivity.
Qed.

Lemma order_pos : 1 <= NTT_MAX_ORDER.
Proof. unfold NTT_MAX_ORDER. destruct (wbits =? 16); [lia|]. destruct (wbits =? 32); lia. Qed.

Lemma prime_facts p : In p PRIMES ->
  2 < p_prime p < B /\ p_prime p mod 2 = 1 /\ (2 ^ NTT_MAX_ORDER | p_prime p - 1) /\ p_prime p < 2 ^ NTT_MAX_ORDER * 2 ^ NTT_MAX_ORDER /\
  0 < p_max_order_root p < p_prime p /\ p_max_order_root p ^ 2 ^ (NTT_MAX_ORDER - 1) mod p_prime p = (-1) mod p_prime p.
Proof.
  intros H. pose proof (primes_checked p H) as C. pose proof order_pos as M. unfold prime_check in C.
  repeat (apply andb_prop in C; destruct C as [C ?]).
  repeat match goal with H : (_ <? _) = true |- _ => apply Z.ltb_lt in H | H : (_ =? _) = true |- _ => apply Z.eqb_eq in H end.
  assert (P : 0 < 2 ^ NTT_MAX_ORDER) by (apply Z.pow_pos_nonneg; lia).
  split; [split; [assumption|unfold B; assumption]|]. split; [assumption|]. split; [apply Zmod_divide; lia|]. split; [assumption|].
  split; [split; assumption|].
  match goal with H : squarings _ _ _ = _ |- _ => rewrite squarings_spec in H by lia; rewrite Z2Nat.id in H by lia; rewrite H end.
  apply Z.mod_unique with (-1); lia.
Qed.

Theorem ntt_prime p : In p PRIMES -> prime (p_prime p) /\ (2 ^ NTT_MAX_ORDER | p_prime p - 1) /\ p_prime p < B.
Proof.
  intros H. destruct (prime_facts p H) as (H1 & H2 & H3 & H4 & H5 & H6). split; [|split; [exact H3|apply H1]].
  apply (prime_by_order (p_prime p) (p_max_order_root p) NTT_MAX_ORDER); auto using order_pos. lia.
Qed.

Theorem ntt_root p : In p PRIMES -> has_order (p_max_order_root p) (2 ^ NTT_MAX_ORDER) (p_prime p).
Proof. intros H. destruct (prime_facts p H) as (H1 & H2 & H3 & H4 & H5 & H6). apply order_exact; auto using order_pos. lia. Qed.

Lemma field_spec p : In p PRIMES -> exists f, field p = Ok f /\ rs_ok f (p_prime p).
Proof.
  intros H. destruct (prime_facts p H) as (H1 & _). unfold field.
  destruct (ring_new_ring 0 (Small (p_prime p))) as (r & E & Hr & _); [cbn; lia|cbn; lia|]. cbn [ring_new] in E.
  rewrite (proj2 (Z.eqb_neq (p_prime p) 0)) in E by lia. destruct (ring_small_new 0 (p_prime p)) as [f|e]; cbn [bind] in E; [|discriminate].
  injection E as <-. exists f. split; [reflexivity|]. apply is_ring_small in Hr. exact Hr.
Qed.

Lemma roots_loop_spec p f n : field p = Ok f -> rs_ok f (p_prime p) -> forall root a table, raw_of f (p_prime p) root (a mod p_prime p) ->
  exists l, roots_loop n p root table = Ok (l ++ table) /\ length l = S n /\
    forall i, (i <= n)%nat -> raw_of f (p_prime p) (nth i l 0) (a ^ 2 ^ Z.of_nat (n - i) mod p_prime p).
Proof.
  intros Ef R. induction n as [|n IH]; intros root a table H; cbn [roots_loop].
  - exists [root]. split; [reflexivity|]. split; [reflexivity|]. intros i Hi. replace i with 0%nat by lia. cbn [nth Nat.sub Z.of_nat].
    rewrite Z.pow_0_r, Z.pow_1_r. exact H.
  - unfold component_mul. rewrite Ef. cbn [bind]. destruct (raw_mul_mod f _ R root a root a H H) as (sq & -> & Hs). cbn [bind].
    destruct (IH sq (a * a) (root :: table) Hs) as (l & -> & L & N). exists (l ++ [root]). split; [rewrite <- app_assoc; reflexivity|].
    split; [rewrite app_length, L; cbn; lia|]. intros i Hi. destruct (Nat.eq_dec i (S n)) as [->|Ni].
    + rewrite app_nth2 by lia. rewrite L, !Nat.sub_diag. cbn [nth Z.of_nat]. rewrite Z.pow_0_r, Z.pow_1_r. exact H.
    + assert (Hi' : (i <= n)%nat) by (clear - Hi Ni; lia). assert (Li : (i < length l)%nat) by (clear - L Hi'; lia).
      assert (Es : Z.of_nat (S n - i) = Z.succ (Z.of_nat (n - i))) by (clear - Hi'; lia).
      rewrite app_nth1 by exact Li. specialize (N i Hi'). rewrite <- Z.pow_2_r, <- Z.pow_mul_r in N by (try apply Z.pow_nonneg; lia).
      rewrite Es, Z.pow_succ_r by apply Nat2Z.is_nonneg. exact N.
Qed.

Lemma power_order a m k q : 2 < q -> 0 <= k <= m -> 1 <= m -> a ^ 2 ^ (m - 1) mod q = (-1) mod q ->
  has_order (a ^ 2 ^ (m - k) mod q) (2 ^ k) q.
Proof.
  intros Hq Hk Hm Ha. destruct (Z.eq_dec k 0) as [->|Nk].
  - rewrite Z.sub_0_r, (order_full a m q) by auto. split; [apply Z.mod_1_l; lia|]. intros j Hj. change (2 ^ 0) with 1 in Hj. lia.
  - apply order_exact; [lia|lia|]. rewrite pow_mod_l by lia. rewrite <- Z.pow_mul_r by (apply Z.pow_nonneg; lia).
    rewrite <- Z.pow_add_r by lia. replace (m - k + (k - 1)) with (m - 1) by lia. exact Ha.
Qed.

Lemma inverse_power g m e q : 2 < q -> 1 <= m -> g ^ 2 ^ (m - 1) mod q = (-1) mod q -> (2 ^ m | q - 1) ->
  ((g ^ 2 ^ e mod q) * ((g ^ (q - 2)) ^ 2 ^ e mod q)) mod q = 1.
Proof.
  intros Hq Hm Hg [c Hc]. rewrite mul_mod_both, <- Z.pow_mul_l.
  assert (E : g * g ^ (q - 2) = (g ^ 2 ^ m) ^ c).
  { assert (P : 0 < 2 ^ m) by (apply Z.pow_pos_nonneg; lia). assert (0 <= c) by (clear - Hc P Hq; nia).
    rewrite <- Z.pow_mul_r by lia. rewrite <- (Z.mul_comm c), <- Hc. rewrite <- Z.pow_succ_r by lia. f_equal. lia. }
  assert (Hc0 : 0 <= c). { assert (P : 0 < 2 ^ m) by (apply Z.pow_pos_nonneg; lia). clear - Hc P Hq. nia. }
  assert (E1 : (g * g ^ (q - 2)) mod q = 1).
  { rewrite E, <- pow_mod_l, (order_full g m q), Z.pow_1_l by (auto; lia). apply Z.mod_1_l. lia. }
  rewrite <- pow_mod_l, E1 by lia. destruct (Z_lt_le_dec e 0) as [L|G].
  - rewrite (Z.pow_neg_r 2) by exact L. rewrite Z.pow_0_r. apply Z.mod_1_l. lia.
  - rewrite Z.pow_1_l by (apply Z.pow_nonneg; lia). apply Z.mod_1_l. lia.
Qed.

Theorem ntt_tables p : In p PRIMES -> exists f roots inverses, field p = Ok f /\ ROOTS p = Ok roots /\ INVERSE_ROOTS p = Ok inverses /\
  Z.of_nat (length roots) = NTT_MAX_ORDER + 1 /\ Z.of_nat (length inverses) = NTT_MAX_ORDER + 1 /\
  forall k, 0 <= k <= NTT_MAX_ORDER -> exists x y,
    raw_residue (nth (Z.to_nat k) roots 0) f = Ok x /\ raw_residue (nth (Z.to_nat k) inverses 0) f = Ok y /\
    0 <= x < p_prime p /\ 0 <= y < p_prime p /\ has_order x (2 ^ k) (p_prime p) /\ (x * y) mod p_prime p = 1.
Proof.
  intros H. destruct (prime_facts p H) as (H1 & H2 & H3 & H4 & H5 & H6). destruct (field_spec p H) as (f & Ef & R).
  pose proof order_pos as M. set (q := p_prime p) in *. set (g := p_max_order_root p) in *. set (m := NTT_MAX_ORDER) in *.
  destruct (raw_from_word_spec f q R g) as (r0 & E0 & R0); [lia|].
  destruct (pow_word_spec f q R r0 g (q - 2) R0) as (r1 & E1 & R1); [lia|].
  destruct (roots_loop_spec p f (Z.to_nat m) Ef R r0 g [] R0) as (l0 & L0 & N0 & S0).
  destruct (roots_loop_spec p f (Z.to_nat m) Ef R r1 (g ^ (q - 2)) [] R1) as (l1 & L1 & N1 & S1).
  rewrite app_nil_r in L0, L1. exists f, l0, l1. split; [exact Ef|].
  assert (EM : max_order_root p = Ok r0) by (unfold max_order_root, component_from_word; rewrite Ef; cbn [bind]; exact E0).
  split; [unfold ROOTS; rewrite EM; cbn [bind]; exact L0|].
  split.
  { unfold INVERSE_ROOTS. rewrite EM. cbn [bind]. unfold component_inverse. rewrite Ef. cbn [bind]. fold q. rewrite word_chk_ok by lia.
    cbn [bind]. rewrite E1. cbn [bind]. exact L1. }
  assert (Lm : Z.of_nat (S (Z.to_nat m)) = m + 1) by (clear - M; lia).
  split; [rewrite N0; exact Lm|]. split; [rewrite N1; exact Lm|]. intros k Hk.
  assert (Lk : (Z.to_nat k <= Z.to_nat m)%nat) by (clear - Hk; lia).
  assert (Ek : Z.of_nat (Z.to_nat m - Z.to_nat k) = m - k) by (clear - Hk; lia).
  specialize (S0 (Z.to_nat k) Lk). specialize (S1 (Z.to_nat k) Lk). rewrite Ek in S0, S1.
  assert (Q0 : 0 < q) by (clear - H1; lia). assert (Q2 : 2 < q) by apply H1.
  exists (g ^ 2 ^ (m - k) mod q), ((g ^ (q - 2)) ^ 2 ^ (m - k) mod q).
  split; [apply (raw_of_residue f q R); exact S0|]. split; [apply (raw_of_residue f q R); exact S1|].
  split; [apply Z.mod_pos_bound; exact Q0|]. split; [apply Z.mod_pos_bound; exact Q0|].
  split; [apply power_order; auto|]. apply (inverse_power g m); auto.
Qed.

(** The sum of products in a convolution of [2^order] words. *)
Theorem ntt_capacity : NoDup (map p_prime PRIMES) /\ length PRIMES = 3%nat /\
  2 ^ NTT_MAX_ORDER * ((B - 1) * (B - 1)) < fold_right (fun p n => p_prime p * n) 1 PRIMES.
Proof.
  unfold PRIMES, NTT_MAX_ORDER, B. destruct wbits_cases as [E|[E|E]]; rewrite E; cbn [Z.eqb Pos.eqb];
    (split; [cbn [map p_prime]; repeat constructor; cbn [In]; intuition discriminate|split; [reflexivity|vm_compute; reflexivity]]).
Qed.

Theorem ntt_long_enough : MAX_LEN <= 2 ^ NTT_MAX_ORDER.
Proof.
  unfold MAX_LEN, USIZE_MAX. set (x := (2 ^ ubits - 1) / wbits).
  assert (0 < 2 ^ NTT_MAX_ORDER) by (apply Z.pow_pos_nonneg; pose proof order_pos; lia).
  destruct (Z.ltb_spec NTT_MAX_ORDER ubits) as [L|G]; cbv zeta.
  - match goal with |- ?m - _ <= _ => pose proof (Z.mod_pos_bound m 2 ltac:(lia)) end. lia.
  - assert (2 ^ ubits <= 2 ^ NTT_MAX_ORDER) by (apply Z.pow_le_mono_r; lia).
    match goal with |- ?m - _ <= _ => pose proof (Z.mod_pos_bound m 2 ltac:(lia)) end. lia.
Qed.

End Ntt.
