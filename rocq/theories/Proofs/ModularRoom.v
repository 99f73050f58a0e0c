(** When there is room for the products and powers of a ring. *)
From Verif Require Import Model.Base Model.Words Model.Memory Model.Mul Model.Div Model.RawMemory Model.Buffer Model.UBig Model.Modular
  Spec.Val Spec.Num Spec.Chunk Spec.Modular Proofs.Basics Proofs.ShiftProofs Proofs.FastDivideProofs Proofs.MulProofs Proofs.DivProofs Proofs.BufferProofs
  Proofs.Scratch Proofs.ModularProofs.
From Verif Require Proofs.RawMemoryProofs.
From Coq Require Import Lia.

Section Room.
Context {A : Arch} {AOK : ArchOk A}.

Lemma block_fits_spec k : block_fits k = (k * word_size <=? ISIZE_MAX).
Proof.
  unfold block_fits, ISIZE_MAX. fold word_size. destruct (Z.ltb_spec (k * word_size) (2 ^ (ubits - 1))) as [L|L]; symmetry; [apply Z.leb_le|apply Z.leb_gt]; lia.
Qed.

Lemma words_in_pow n k : 0 <= k -> 2 ^ (wbits * k) <= n < 2 ^ (wbits * (k + 1)) -> words_in n = k + 1.
Proof.
  intros K [L U]. pose proof wbits_ge as W. assert (0 < 2 ^ (wbits * k)) by (apply pow2_pos; nia). unfold words_in. f_equal.
  assert (wbits * k <= Z.log2 n) by (apply Z.log2_le_pow2; lia). assert (Z.log2 n < wbits * (k + 1)) by (apply Z.log2_lt_pow2; lia).
  symmetry. apply Z.div_unique with (Z.log2 n - wbits * k); lia.
Qed.

Lemma product_scratch_nat n : (2 <= n)%nat -> product_scratch (Z.of_nat n) = mul_memory n.
Proof.
  intros H. unfold product_scratch, mul_memory, karatsuba_memory, toom_3_memory, MAX_LEN_SIMPLE, MAX_LEN_KARATSUBA.
  assert (Z.log2_up (Z.of_nat n) = ceil_log_2_usize n) as ->.
  { rewrite clog_bitlen. unfold Z.log2_up, bitlen. destruct (Z.compare_spec 1 (Z.of_nat n)); try lia.
    rewrite (proj2 (Z.eqb_neq _ _)) by lia. rewrite <- Z.sub_1_r. lia. }
  destruct (Nat.leb_spec n 24), (Nat.leb_spec n 192), (Z.leb_spec (Z.of_nat n) 24), (Z.leb_spec (Z.of_nat n) 192); auto; lia.
Qed.

Lemma ring_words r n : rl_ok r n -> words_in n = Z.of_nat (length (rl_modulus r)).
Proof.
  intros (Hn & Hs & EM & N & L2 & _ & W). pose proof (norm_div_bound _ _ N) as NB. rewrite EM, Bn_pow2 in NB. set (k := length (rl_modulus r)) in *.
  replace (Z.of_nat k) with (Z.of_nat k - 1 + 1) by lia. apply words_in_pow; [lia|]. pose proof wbits_ge as HW.
  assert (2 ^ (wbits * Z.of_nat k) = 2 ^ (wbits * (Z.of_nat k - 1)) * 2 ^ (wbits - 1 - rl_shift r) * 2 * 2 ^ rl_shift r) as E.
  { change 2 with (2 ^ 1) at 4. rewrite <- !Z.pow_add_r by nia. f_equal. lia. }
  assert (0 < 2 ^ rl_shift r) by (apply pow2_pos; lia). assert (0 < 2 ^ (wbits - 1 - rl_shift r)) by (apply pow2_pos; lia).
  assert (0 < 2 ^ (wbits * (Z.of_nat k - 1))) by (apply pow2_pos; nia). replace (Z.of_nat k - 1 + 1) with (Z.of_nat k) by lia.
  clear EM. set (P := 2 ^ (wbits * Z.of_nat k)) in *. set (Q := 2 ^ (wbits * (Z.of_nat k - 1))) in *. set (T := 2 ^ (wbits - 1 - rl_shift r)) in *. set (S := 2 ^ rl_shift r) in *.
  clearbody P Q T S. split; [|nia]. assert (Q * T * S <= n * S) by lia. assert (Q * T <= n) by nia. nia.
Qed.

Lemma ring_mul_words r n : rl_ok r n -> mul_words n = ring_need (length (rl_modulus r)).
Proof.
  intros R. unfold mul_words, ring_need. rewrite (ring_words r n R). pose proof R as (_ & _ & _ & _ & L2 & _). rewrite product_scratch_nat by auto. reflexivity.
Qed.

Lemma mul_room r n : rl_ok r n ->
  if room_for_mul n then exists l, ring_mul_layout word_ty (length (rl_modulus r)) = Ok l /\ new_memory l = Ok (ring_need (length (rl_modulus r)))
  else ring_mul_layout word_ty (length (rl_modulus r)) = Panic OutOfMemory.
Proof.
  intros R. pose proof R as (Hn & _ & _ & _ & L2 & LM & _). unfold room_for_mul. rewrite (proj2 (Z.ltb_ge _ _)) by lia. cbn [orb].
  rewrite block_fits_spec, (ring_mul_words r n R). destruct (ring_mul_request (length (rl_modulus r)) L2 LM) as [H1 H2].
  destruct (Z.leb_spec (ring_need (length (rl_modulus r)) * word_size) ISIZE_MAX) as [C|C]; auto.
Qed.

Lemma mul_words_bound n : B <= n < MAXV -> ubits = 64 \/ n * n < MAXV ->
  2 <= words_in n /\ mul_words n * word_size <= 3 * 2 ^ (ubits - 3) + 104 * ubits.
Proof.
  intros Hn H. pose proof B_ge as HB. pose proof wbits_ge as HW. pose proof (Z.log2_spec n ltac:(lia)) as [L1 L2]. pose proof (Z.log2_nonneg n) as L0.
  assert (MV : MAXV = 2 ^ (wbits * MAX_LEN)) by reflexivity.
  assert (W2 : 2 <= words_in n). { unfold words_in. assert (wbits <= Z.log2 n) by (apply Z.log2_le_pow2; [lia|exact (proj1 Hn)]). assert (1 <= Z.log2 n / wbits) by (apply Z.div_le_lower_bound; lia). lia. }
  split; [exact W2|]. assert (WM : words_in n <= MAX_LEN).
  { unfold words_in. assert (Z.log2 n / wbits < MAX_LEN); [|lia]. apply Z.div_lt_upper_bound; [lia|]. apply Z.log2_lt_pow2; [lia|]. rewrite <- MV. lia. }
  assert (WH : 2 * words_in n <= MAX_LEN \/ ubits = 64).
  { destruct H as [H|H]; [right; exact H|left]. pose proof MAX_LEN_facts as (_ & _ & EV).
    assert (2 * Z.log2 n < wbits * MAX_LEN).
    { destruct (Z.lt_ge_cases (2 * Z.log2 n) (wbits * MAX_LEN)) as [|G]; [auto|exfalso]. assert (2 ^ (wbits * MAX_LEN) <= 2 ^ (Z.log2 n + Z.log2 n)) by (apply Z.pow_le_mono_r; lia).
      rewrite Z.pow_add_r in * by lia. nia. }
    assert (exists h, MAX_LEN = 2 * h) as (h & Eh). { exists (MAX_LEN / 2). pose proof (Z.div_mod MAX_LEN 2). lia. }
    unfold words_in. rewrite Eh in *. assert (Z.log2 n / wbits < h); [|lia]. apply Z.div_lt_upper_bound; nia. }
  set (k := Z.to_nat (words_in n)). assert (K : Z.of_nat k = words_in n) by (unfold k; lia). unfold mul_words. rewrite <- K in *.
  rewrite product_scratch_nat by lia. pose proof (RawMemoryProofs.mul_memory_bound k WM) as PM. destruct (RawMemoryProofs.word_bytes word_ty MAX_LEN word_ty_ok) as [B1 B2]; [lia..|].
  cbn [t_size word_ty] in *. pose proof ubits_ge as UB.
  assert ((2 * Z.of_nat k + mul_memory k) * word_size <= (6 * Z.of_nat k + 13 * ubits) * word_size) by (apply Z.mul_le_mono_nonneg_r; lia).
  assert ((13 * ubits) * word_size <= (13 * ubits) * 8) by (apply Z.mul_le_mono_nonneg_l; lia).
  assert (6 * Z.of_nat k * word_size <= 3 * 2 ^ (ubits - 3)) as L6; [|lia].
  replace (2 ^ ubits) with (8 * 2 ^ (ubits - 3)) in B1 by (change 8 with (2 ^ 3); rewrite <- Z.pow_add_r by lia; f_equal; lia).
  destruct WH as [C|C].
  - assert (6 * Z.of_nat k * word_size <= 3 * MAX_LEN * word_size) by (apply Z.mul_le_mono_nonneg_r; lia). lia.
  - etransitivity; [apply (Z.mul_le_mono_nonneg_r _ (6 * MAX_LEN)); lia|]. clear - AOK C. unfold word_size, MAX_LEN, NTT_MAX_ORDER, USIZE_MAX. rewrite C.
    destruct wbits_cases as [-> | [-> | ->]]; vm_compute; discriminate.
Qed.

Lemma usize_slack : 208 * ubits < 2 ^ (ubits - 3) /\ 2 ^ (ubits - 1) = 4 * 2 ^ (ubits - 3).
Proof. destruct ubits_cases as [-> | [-> | ->]]; split; reflexivity. Qed.

(** There is always room for products on 64-bit machines, and elsewhere if the square of
    the modulus is representable. *)
Lemma mul_room_often n : 1 <= n < MAXV -> ubits = 64 \/ n * n < MAXV -> room_for_mul n = true.
Proof.
  intros Hn H. unfold room_for_mul. destruct (Z.ltb_spec n B) as [|C]; [reflexivity|]. cbn [orb]. rewrite block_fits_spec. apply Z.leb_le.
  destruct (mul_words_bound n ltac:(lia) H) as [_ M]. pose proof usize_slack as [S1 S2]. pose proof ubits_ge. unfold ISIZE_MAX. lia.
Qed.

(** The same for powers if the exponent is not too long. *)
Lemma pow_room_often n e : 1 <= n < MAXV -> ubits = 64 \/ n * n < MAXV -> (Z.log2 e + 1) * words_in n <= MAX_LEN -> room_for_pow n e = true.
Proof.
  intros Hn H L. unfold room_for_pow. destruct (Z.ltb_spec n B) as [|C]; [reflexivity|]. destruct (e <? 2); [reflexivity|]. cbn [orb]. rewrite block_fits_spec. apply Z.leb_le.
  destruct (mul_words_bound n ltac:(lia) H) as [W2 M]. pose proof usize_slack as [S1 S2]. pose proof ubits_ge as UB. unfold ISIZE_MAX.
  destruct (RawMemoryProofs.word_bytes word_ty MAX_LEN word_ty_ok) as [B1 B2]; [pose proof MAX_LEN_ge; lia|lia|]. cbn [t_size word_ty] in *.
  replace (2 ^ ubits) with (8 * 2 ^ (ubits - 3)) in B1 by (change 8 with (2 ^ 3); rewrite <- Z.pow_add_r by lia; f_equal; lia).
  pose proof (Z.mul_div_le (Z.log2 e + 1) 2 ltac:(lia)) as D. set (q := (Z.log2 e + 1) / 2) in *. assert (2 * (q * words_in n) <= MAX_LEN) by nia.
  assert (2 * (q * words_in n) * word_size <= MAX_LEN * word_size) by (apply Z.mul_le_mono_nonneg_r; lia). lia.
Qed.

Lemma pow_room r n wl e : rl_ok r n -> 1 <= wl -> 2 ^ (wl - 1) - 1 <= (Z.log2 e + 1) / 2 -> 2 <= e ->
  let N := length (rl_modulus r) in let need := (2 ^ (wl - 1) - 1) * Z.of_nat N + ring_need N in
  (exists l, ring_pow_layout word_ty N wl = Ok l /\ new_memory l = Ok need) \/
  (ring_pow_layout word_ty N wl = Panic OutOfMemory /\ room_for_pow n e = false).
Proof.
  intros R H1 H2 He N need. pose proof R as (Hn & _ & _ & _ & L2 & LM & _). destruct (ring_pow_request N wl L2 LM H1) as [P1 P2]. fold need in P1, P2.
  destruct (Z.le_gt_cases (need * word_size) ISIZE_MAX) as [C|C]; [left; auto|right; split; [auto|]].
  unfold room_for_pow. rewrite (proj2 (Z.ltb_ge n B)), (proj2 (Z.ltb_ge e 2)) by lia. cbn [orb]. rewrite block_fits_spec. apply Z.leb_gt.
  rewrite (ring_words r n R), (ring_mul_words r n R). fold N. pose proof word_size_pos. set (q := (Z.log2 e + 1) / 2) in *. set (p := 2 ^ (wl - 1) - 1) in *. clearbody q p. unfold need in C. clear - C H2 H.
  assert (p * Z.of_nat N <= q * Z.of_nat N) by (apply Z.mul_le_mono_nonneg_r; lia). eapply Z.lt_le_trans; [exact C|]. apply Z.mul_le_mono_nonneg_r; lia.
Qed.

End Room.
