(** The scratch memory is linear in the shorter operand. *)
From Verif Require Import Model.Base Model.Words Model.Memory Model.Mul Model.Div Model.Modular Model.RawMemory Model.Buffer
  Spec.Val Spec.Chunk Proofs.Basics Proofs.BufferProofs Proofs.MulProofs Proofs.DivProofs Proofs.RawMemoryProofs Proofs.Scratch Proofs.CostModularPow.
From Coq Require Import Lia.

Section ScratchLinear.
Context {A : Arch} {AOK : ArchOk A}.

Lemma bitlen_linear x : 192 <= x -> 13 * bitlen x <= x.
Proof.
  intros H. unfold bitlen. rewrite (proj2 (Z.eqb_neq _ _)) by lia. pose proof (Z.log2_spec x ltac:(lia)) as [L _].
  destruct (Z.le_gt_cases x 255).
  - assert (Z.log2 x < 8) by (apply Z.log2_lt_pow2; lia). lia.
  - assert (8 <= Z.log2 x) by (apply Z.log2_le_pow2; lia).
    assert (G : forall n, 0 <= n -> 13 * (n + 8 + 1) <= 2 ^ (n + 8)).
    { apply (natlike_ind (fun n => 13 * (n + 8 + 1) <= 2 ^ (n + 8))); [vm_compute; discriminate|]. intros n Hn IH.
      replace (Z.succ n + 8) with (Z.succ (n + 8)) by lia. rewrite Z.pow_succ_r by lia. lia. }
    specialize (G (Z.log2 x - 8) ltac:(lia)). replace (Z.log2 x - 8 + 8) with (Z.log2 x) in G by lia. lia.
Qed.

Lemma mul_memory_linear n : mul_memory n <= 5 * Z.of_nat n.
Proof.
  unfold mul_memory, karatsuba_memory, toom_3_memory, MAX_LEN_SIMPLE, MAX_LEN_KARATSUBA. rewrite clog_bitlen.
  destruct (Nat.leb_spec n 24); [lia|]. destruct (Nat.leb_spec n 192).
  - pose proof (bitlen_mono (Z.of_nat n - 1) 191 ltac:(lia)) as M. change (bitlen 191) with 8 in M. lia.
  - pose proof (bitlen_linear (Z.of_nat n - 1) ltac:(lia)). lia.
Qed.

Lemma lays_size t r mem l : lays_out t r mem -> r = Ok l -> l_size l = mem * t_size t.
Proof.
  intros [L1 L2] E. destruct (Z.le_gt_cases (mem * t_size t) ISIZE_MAX) as [H|H]; [|rewrite L2 in E by lia; discriminate].
  destruct (L1 H) as (l' & E' & F & _). rewrite E in E'. injection E' as ->. exact F.
Qed.

Lemma mul_scratch t n l : word_type t -> Z.of_nat n <= MAX_LEN -> mul_layout t n = Ok l -> l_size l <= 5 * (Z.of_nat n * t_size t).
Proof.
  intros [T E] N H. rewrite (lays_size t _ _ l (lays_mul t n T N) H). pose proof (mul_memory_linear n). destruct T as (_ & TS & _). nia.
Qed.

Lemma div_scratch t n k l : word_type t -> (2 <= k <= n)%nat -> Z.of_nat n <= MAX_LEN -> div_layout t n k = Ok l ->
  2 * l_size l <= 5 * (Z.of_nat k * t_size t) /\ l_size l <= 5 * ((Z.of_nat n - Z.of_nat k) * t_size t).
Proof.
  intros [T E] K N H. pose proof MAX_LEN_ge. destruct (lays_div t n k T K ltac:(lia)) as (mem & _ & L & M). rewrite (lays_size t _ _ l L H).
  destruct T as (_ & TS & _). pose proof (mul_memory_linear (Nat.min (k / 2) (n - k))) as M1. pose proof (Nat.mul_div_le k 2 ltac:(lia)) as M2.
  assert (2 * mem <= 5 * Z.of_nat k /\ mem <= 5 * (Z.of_nat n - Z.of_nat k)) as [B1 B2] by (destruct M as [-> | ->]; lia).
  split; nia.
Qed.

Lemma ring_need_linear n : ring_need n <= 7 * Z.of_nat n.
Proof. unfold ring_need. pose proof (mul_memory_linear n). lia. Qed.

Lemma ring_mul_scratch t n l : word_type t -> (2 <= n)%nat -> Z.of_nat n <= MAX_LEN -> ring_mul_layout t n = Ok l ->
  l_size l <= 7 * (Z.of_nat n * t_size t).
Proof.
  intros W K N H. destruct (lays_ring_mul t n W K N) as (d & E & L & _). rewrite (lays_size t _ _ l L H).
  destruct (div_memory_half n K) as (d' & E' & D). rewrite E in E'. injection E' as <-. rewrite Z.max_l by lia. fold (ring_need n).
  pose proof (ring_need_linear n). destruct W as [(_ & TS & _) _]. nia.
Qed.

(** The best window keeps the table small: a larger table must pay for itself. *)
Lemma table_small bits w : 0 <= bits < 2 ^ ubits -> choose_pow_window_len bits = Ok w ->
  1 <= w /\ (2 ^ (w - 1) - 1) * (w * (w + 1)) <= 2 * bits + w * (w + 1).
Proof.
  intros HB H. destruct (choose_best bits HB) as (w' & E & Hw & Best). rewrite H in E. injection E as <-. split; [lia|].
  destruct (Z.eq_dec w 1) as [->|N1]; [cbn; lia|].
  specialize (Best (w - 1) ltac:(lia)). unfold estimate in Best. replace (w - 1 + 1) with w in Best by lia.
  replace (w - 1) with (w - 1 - 1 + 1) in Best at 1 by lia. rewrite Z.pow_add_r in Best by lia. change (2 ^ 1) with 2 in Best.
  replace (w - 1) with (w - 1 - 1 + 1) at 1 by lia. rewrite Z.pow_add_r by lia. change (2 ^ 1) with 2.
  set (p := 2 ^ (w - 1 - 1)) in *. clearbody p. clear - Best Hw N1 HB.
  pose proof (Z.div_mod bits w ltac:(lia)). pose proof (Z.mod_pos_bound bits w ltac:(lia)).
  pose proof (Z.div_mod bits (w + 1) ltac:(lia)). pose proof (Z.mod_pos_bound bits (w + 1) ltac:(lia)).
  set (q := bits / w) in *. set (r := bits / (w + 1)) in *. clearbody q r.
  assert (p + r <= q) by lia.
  assert (w * (w + 1) * p <= bits + w * (w + 1)) by nia. nia.
Qed.

Lemma ring_pow_scratch t n bits w l : word_type t -> (2 <= n)%nat -> Z.of_nat n <= MAX_LEN -> 0 <= bits < 2 ^ ubits ->
  choose_pow_window_len bits = Ok w -> ring_pow_layout t n w = Ok l ->
  3 * l_size l <= (bits + 24) * (Z.of_nat n * t_size t).
Proof.
  intros W K N HB HW H. destruct (table_small bits w HB HW) as [W1 TB].
  destruct (lays_ring_pow t n w W K N W1) as (d & E & L). rewrite (lays_size t _ _ l L H).
  destruct (div_memory_half n K) as (d' & E' & D). rewrite E in E'. injection E' as <-. rewrite Z.max_l by lia. fold (ring_need n).
  pose proof (ring_need_linear n). destruct W as [(_ & TS & _) _].
  assert (P : 0 < 2 ^ (w - 1)) by (apply Z.pow_pos_nonneg; lia). set (T := 2 ^ (w - 1) - 1) in *.
  assert (T0 : 0 <= T) by lia.
  assert (3 * T <= bits + 3).
  { destruct (Z.eq_dec w 1) as [->|N1]; [change T with 0; lia|]. assert (6 <= w * (w + 1)) by nia. clearbody T. nia. }
  clearbody T. assert (3 * (T * Z.of_nat n + ring_need n) <= (bits + 24) * Z.of_nat n) by nia. nia.
Qed.
End ScratchLinear.
