(** Correctness of src/fast_divide.rs. *)
From Verif Require Import Proofs.Basics Proofs.ShiftProofs Model.FastDivide.

Section FastDivideProofs.
Context {A : Arch} {AOK : ArchOk A}.

Lemma checked_ok n z : 0 <= z < 2 ^ n -> checked n z = Ok z.
Proof. intros H. unfold checked. replace ((0 <=? z) && (z <? 2 ^ n)) with true by lia. reflexivity. Qed.
Lemma word_chk_ok z : 0 <= z < B -> word_chk z = Ok z.
Proof. apply checked_ok. Qed.
Lemma BB_pow : B * B = 2 ^ (2 * wbits).
Proof. unfold B. rewrite <- Z.pow_add_r by (pose proof wbits_ge; lia). f_equal; lia. Qed.
Lemma dword_chk_ok z : 0 <= z < B * B -> dword_chk z = Ok z.
Proof. rewrite BB_pow. apply checked_ok. Qed.

Lemma bitlen_bounds z : 0 < z -> 2 ^ (bitlen z - 1) <= z < 2 ^ bitlen z /\ 0 < bitlen z.
Proof.
  intros H. unfold bitlen. destruct (Z.eqb_spec z 0); [lia|].
  pose proof (Z.log2_spec z H) as S. pose proof (Z.log2_nonneg z).
  replace (Z.log2 z + 1 - 1) with (Z.log2 z) by lia. rewrite <- Z.add_1_r in S. lia.
Qed.

Lemma bitlen_nonneg z : 0 <= bitlen z.
Proof. unfold bitlen. destruct (z =? 0); [lia|]. pose proof (Z.log2_nonneg z); lia. Qed.

Lemma bitlen_le z n : 0 <= n -> 0 <= z < 2 ^ n -> bitlen z <= n.
Proof.
  intros Hn H. unfold bitlen. destruct (Z.eqb_spec z 0); [lia|].
  assert (Z.log2 z < n) by (apply Z.log2_lt_pow2; lia). lia.
Qed.

Lemma bitlen_unique z n : 0 < n -> 2 ^ (n - 1) <= z < 2 ^ n -> bitlen z = n.
Proof.
  intros Hn H. pose proof (pow2_pos (n - 1) ltac:(lia)). unfold bitlen. destruct (Z.eqb_spec z 0); [lia|].
  rewrite (Z.log2_unique z (n - 1)); [lia|lia|]. split; [lia|].
  replace (Z.succ (n - 1)) with n by lia. lia.
Qed.

Lemma leading_zeros_w_range w : 0 <= w < B -> 0 <= leading_zeros_w w <= wbits.
Proof.
  intros H. unfold leading_zeros_w, leading_zeros_n. pose proof wbits_ge.
  pose proof (bitlen_le w (@wbits A) ltac:(lia) H). pose proof (bitlen_nonneg w). lia.
Qed.

Lemma leading_zeros_w_lt w : 0 < w < B -> 0 <= leading_zeros_w w < wbits.
Proof.
  intros H. pose proof (leading_zeros_w_range w ltac:(lia)).
  unfold leading_zeros_w, leading_zeros_n in *. pose proof (bitlen_bounds w). lia.
Qed.

(** Shifting by the leading zeros normalizes. *)
Lemma normalize_word w : 0 < w < B -> B <= 2 * (w * 2 ^ leading_zeros_w w) /\ w * 2 ^ leading_zeros_w w < B.
Proof.
  intros H. pose proof (leading_zeros_w_lt w H) as R.
  unfold leading_zeros_w, leading_zeros_n in *.
  pose proof (bitlen_bounds w ltac:(lia)) as [S P].
  assert (0 < 2 ^ (wbits - bitlen w)) by (apply pow2_pos; lia).
  assert (B = 2 ^ bitlen w * 2 ^ (wbits - bitlen w)) as E1 by (apply B_split; lia).
  assert (2 ^ bitlen w = 2 * 2 ^ (bitlen w - 1)) as E2
    by (rewrite <- Z.pow_succ_r by lia; f_equal; lia).
  split; tnia.
Qed.

Lemma leading_zeros_0_iff w : 0 <= w < B -> leading_zeros_w w = 0 <-> B <= 2 * w.
Proof.
  intros H. pose proof wbits_ge. pose proof B_ge. split; intros E.
  - destruct (Z.eq_dec w 0) as [->|].
    { unfold leading_zeros_w, leading_zeros_n, bitlen in E. rewrite Z.eqb_refl in E. lia. }
    pose proof (normalize_word w ltac:(lia)) as N. rewrite E, Z.pow_0_r, Z.mul_1_r in N. lia.
  - pose proof (leading_zeros_w_lt w) as R. unfold leading_zeros_w, leading_zeros_n in *.
    rewrite (bitlen_unique w wbits); [lia|lia|].
    pose proof B_even as Be. unfold B in *. lia.
Qed.

(** src/fast_divide.rs: FastDivideNormalized *)
Definition fdn_ok (f : FastDivideNormalized) (d : Z) : Prop :=
  fdn_divisor f = d /\ B <= 2 * d /\ d < B /\ 0 <= fdn_m f < B /\
  exists k, (fdn_m f + B) * d = B * B - k /\ 1 <= k <= d.

Lemma fdn_new_spec d : B <= 2 * d -> d < B -> exists f, fdn_new d = Ok f /\ fdn_ok f d.
Proof.
  intros H H2. pose proof B_ge as HB.
  unfold fdn_new. rewrite check_true by (apply Z.eqb_eq, leading_zeros_0_iff; lia).
  unfold extend_word. set (v := (B * B - 1) / d).
  assert (B * B - 1 = d * v + (B * B - 1) mod d) as E by (apply Z.div_mod; lia).
  pose proof (Z.mod_pos_bound (@B A * @B A - 1) d ltac:(lia)) as R.
  assert (B <= v) as Rv1 by (apply Z.div_le_lower_bound; tnia).
  assert (v < 2 * B) as Rv2 by (apply Z.div_lt_upper_bound; tnia).
  destruct (split_double_word v) as [m hi] eqn:Es.
  apply split_double_word_val in Es as (V & Rm & Rh); [|tnia].
  assert (hi = 1) by tnia. subst hi. rewrite check_true by reflexivity.
  eexists; split; [reflexivity|]. split; [reflexivity|]. cbn. repeat split; try lia.
  exists (1 + (B * B - 1) mod d). split; [|lia]. rewrite V in E. lia.
Qed.

Lemma fdn_div_rem_word_spec f d a : fdn_ok f d -> 0 <= a < B ->
  fdn_div_rem_word f a = Ok (a / d, a mod d).
Proof.
  intros (Ed & Rd & Rd2 & _) Ha. pose proof B_ge. unfold fdn_div_rem_word. rewrite Ed.
  destruct (Z.ltb_spec a d).
  - rewrite Z.div_small, Z.mod_small by lia. reflexivity.
  - rewrite word_chk_ok by lia. cbn.
    rewrite (div_eq (a - d) a d 1), (mod_eq (a - d) a d 1) by lia. reflexivity.
Qed.

(** Borrow mask: the high word of [(x - y) mod B^2]. *)
Lemma borrow_mask x y lo hi : 0 <= x < B -> 0 <= y < B ->
  split_double_word ((x - y) mod (B * B)) = (lo, hi) -> hi = if x <? y then B - 1 else 0.
Proof.
  intros Hx Hy E. pose proof B_ge as HB.
  pose proof (Z.mod_pos_bound (x - y) (@B A * @B A) ltac:(tnia)) as R.
  apply split_double_word_val in E as (V & Rl & Rh); [|lia].
  destruct (Z.ltb_spec x y).
  - assert (B <= B * B) by tnia.
    rewrite (mod_eq (x - y + B * B) (x - y) (B * B) (-1)) in V by lia.
    destruct (Z.lt_ge_cases hi (B - 1)) as [G|G]; [|lia]. exfalso.
    assert (B * hi <= B * (B - 2)) by (apply Z.mul_le_mono_nonneg_l; lia). lia.
  - assert (B <= B * B) by tnia. rewrite Z.mod_small in V by lia.
    destruct (Z.lt_ge_cases 0 hi) as [G|G]; [|lia]. exfalso.
    assert (B * 1 <= B * hi) by (apply Z.mul_le_mono_nonneg_l; lia). lia.
Qed.

Lemma land_ones_B x : 0 <= x < B -> Z.land (B - 1) x = x.
Proof.
  intros H. pose proof wbits_ge.
  replace (B - 1) with (Z.ones wbits) by (rewrite Z.ones_equiv; unfold B; lia).
  rewrite Z.land_comm, Z.land_ones by lia. apply Z.mod_small. exact H.
Qed.

Lemma fdn_div_rem_spec f d a : fdn_ok f d -> 0 <= a < d * B ->
  fdn_div_rem f a = Ok (a / d, a mod d).
Proof.
  intros (Ed & Rd & Rd2 & Rm & k & Ek & Rk) Ha. unfold fdn_div_rem. rewrite Ed.
  pose proof B_ge as HB. pose proof B_even as Be.
  set (m := fdn_m f) in *.
  destruct (split_double_word a) as [a_lo a_hi] eqn:Es.
  apply split_double_word_val in Es as (Va & Rlo & Rhi);
    [|mle B d B; lia].
  assert (a_hi < d) as Hhi by (apply mul_lt_cancel with B; lia).
  rewrite check_true by lia. unfold extend_word.
  rewrite dword_chk_ok by (apply mul_range; lia). cbn [bind].
  assert (0 <= m * a_hi + a < B * B) as Rs.
  { mle (m + B) a_hi (d - 1).
    pose proof (mul_range m a_hi B B Rm Rhi). lia. }
  rewrite dword_chk_ok by exact Rs. cbn [bind].
  destruct (split_double_word (m * a_hi + a)) as [q0 q1] eqn:Es.
  apply split_double_word_val in Es as (Vs & Rq0 & Rq1); [|exact Rs].
  (* True signed remainder for q1 + 1. *)
  set (R := a - (q1 + 1) * d).
  assert (B * R = a_hi * k + a_lo * (B - d) + q0 * d - B * d) as ER.
  { unfold R. assert (B * q1 = (m + B) * a_hi + a_lo - q0) as E1 by lia.
    assert (d * (B * q1) = (B * B - k) * a_hi + d * (a_lo - q0)) as E2 by (rewrite E1, <- Ek; ring).
    rewrite Va. lia. }
  assert (0 <= a_hi * k) as N1 by (apply Z.mul_nonneg_nonneg; lia).
  assert (0 <= a_lo * (B - d)) as N2 by (apply Z.mul_nonneg_nonneg; lia).
  assert (0 <= q0 * d) as N3 by (apply Z.mul_nonneg_nonneg; lia).
  clear Ek Rs.
  assert (- d <= R) as L1 by (apply mul_le_cancel with B; lia).
  assert (q0 - B < R) as L2.
  { apply mul_lt_cancel with B; [lia|]. rewrite ER.
    mlt (B - q0) d B. clear - H N1 N2. lia. }
  assert (R < B - d \/ R < q0) as U.
  { destruct (Z.lt_ge_cases R (B - d)) as [|G1]; [auto|]. right.
    destruct (Z.lt_ge_cases R q0) as [|G2]; [auto|]. exfalso.
    mle k a_hi (d - 1).
    mle (d - 1) k d.
    mle (B - d) a_lo (B - 1).
    mle (B - d) (B - d) R.
    mle d q0 R. lia. }
  clear ER N1 N2 N3 Vs.
  assert (R < B) as UB by (clear - U Rd Rq0; lia).
  unfold wrapping_mul, wrapping_add, wrapping_sub.
  set (q := (q1 + 1) mod B).
  assert (0 <= q < B) as Rq by (apply Z.mod_pos_bound; lia). set (r := (a_lo - (q * d) mod B) mod B).
  assert (exists t, q = q1 + 1 - B * t) as (t & Eq).
  { exists ((q1 + 1) / B). pose proof (Z.div_mod (q1 + 1) (@B A) ltac:(lia)). unfold q. lia. }
  assert (r = R mod B) as Er.
  { unfold r. pose proof (Z.div_mod (q * d) (@B A) ltac:(lia)) as E1.
    assert (a_lo - (q * d) mod B = R + (- a_hi + t * d + q * d / B) * B) as E2.
    { unfold R. rewrite Va. assert ((q1 + 1) * d = q * d + B * t * d) as E3 by (rewrite Eq; ring).
      clear - E1 E3. lia. }
    rewrite E2. apply Z.mod_add. lia. }
  assert (a = (q1 + 1) * d + R) as ERa by (unfold R; ring).
  clearbody R. clear Va.
  assert (0 <= r < B) as Rr by (apply Z.mod_pos_bound; lia).
  clearbody r. clearbody q. clear Hhi.
  destruct (split_double_word ((q0 - r) mod (B * B))) as [x1 decrease] eqn:Es.
  apply borrow_mask in Es; [|lia|lia]. subst decrease. clear x1.
  (* after the first correction *)
  assert (exists q' r', (q + (if q0 <? r then B - 1 else 0)) mod B = q' mod B /\
     (r + Z.land (if q0 <? r then B - 1 else 0) d) mod B = r' /\
     a = q' * d + r' /\ 0 <= r' < B) as (q' & r' & E1 & E2 & E3 & E4).
  { destruct (Z.ltb_spec q0 r).
    - exists q1, (R + d). rewrite land_ones_B by lia.
      assert (0 <= R + d < B) as RR.
      { split; [lia|]. destruct (Z.lt_ge_cases R 0); [lia|].
        rewrite Z.mod_small in Er by lia. lia. }
      split; [|split; [|split; [rewrite ERa; ring|exact RR]]].
      + rewrite Eq. replace (q1 + 1 - B * t + (B - 1)) with (q1 + (1 - t) * B) by ring. apply Z.mod_add; lia.
      + rewrite Er, Z.add_mod_idemp_l by lia. apply Z.mod_small; exact RR.
    - exists (q1 + 1), R. rewrite Z.land_0_l, !Z.add_0_r.
      assert (0 <= R) as NR.
      { destruct (Z.lt_ge_cases R 0); [|lia]. rewrite (mod_eq (R + B) R B (-1)) in Er by lia. lia. }
      split; [|split; [|split; [rewrite ERa; ring|lia]]].
      + rewrite Eq. replace (q1 + 1 - B * t) with (q1 + 1 + (- t) * B) by ring. apply Z.mod_add; lia.
      + rewrite Z.mod_small by lia. rewrite Er. apply Z.mod_small; lia. }
  rewrite E2.
  set (q2 := (q + (if q0 <? r then B - 1 else 0)) mod B) in *.
  clear E2; clearbody q2. clear L1 L2 U UB ERa Er Rr r Eq R t Rq q.
  destruct (split_double_word ((r' - d) mod (B * B))) as [x1 inc] eqn:Es.
  apply borrow_mask in Es; [|lia|lia]. subst inc. clear x1.
  assert (0 <= a / d < B) as Rquo by (clear - Rd HB Ha; split; [apply Z.div_pos; lia | apply Z.div_lt_upper_bound; lia]).
  unfold not_w. destruct (Z.ltb_spec r' d).
  - replace (B - 1 - (B - 1)) with 0 by lia. rewrite Z.land_0_l, !Z.sub_0_r.
    rewrite (Z.mod_small r') by lia.
    assert (a / d = q') as Ed1 by (apply div_eq with r'; lia).
    assert (a mod d = r') as Ed2 by (apply mod_eq with q'; lia).
    rewrite Ed1, Ed2. rewrite E1, Z.mod_mod by lia. rewrite Z.mod_small by lia. reflexivity.
  - rewrite Z.sub_0_r, land_ones_B by lia.
    rewrite (Z.mod_small (r' - d)) by lia.
    assert (a / d = q' + 1) as Ed1 by (apply div_eq with (r' - d); lia).
    assert (a mod d = r' - d) as Ed2 by (apply mod_eq with (q' + 1); lia).
    rewrite Ed1, Ed2. rewrite E1.
    replace (q' mod B - (B - 1)) with (q' mod B + 1 + (-1) * B) by ring. rewrite Z.mod_add by lia.
    rewrite Z.add_mod_idemp_l by lia. rewrite Z.mod_small by lia. reflexivity.
Qed.

(** src/fast_divide.rs: FastDivideSmall *)
Definition fds_ok (f : FastDivideSmall) (d : Z) : Prop :=
  fds_divisor f = d /\ 2 <= d < B /\ 0 <= fds_m f < B /\ 0 <= fds_shift f < wbits /\
  exists k, d * (B + fds_m f) = B * 2 ^ (fds_shift f + 1) + k /\ 1 <= k <= d /\
    d <= 2 ^ (fds_shift f + 1).

Lemma ones_n_val b n : 0 <= n <= b -> ones_n b n = 2 ^ n - 1.
Proof.
  intros H. unfold ones_n. destruct (Z.eqb_spec n 0) as [->|]; [reflexivity|].
  rewrite Z.shiftr_div_pow2 by lia.
  pose proof (pow2_pos (b - n) ltac:(lia)). pose proof (pow2_pos n ltac:(lia)).
  assert (2 ^ b = 2 ^ n * 2 ^ (b - n)) as E by (rewrite <- Z.pow_add_r by lia; f_equal; lia).
  apply div_eq with (2 ^ (b - n) - 1); [lia|]. rewrite E. ring.
Qed.

Lemma fds_new_spec d : 2 <= d < B -> exists f, fds_new d = Ok f /\ fds_ok f d.
Proof.
  intros H. pose proof B_ge as HB. pose proof wbits_ge as Hw.
  unfold fds_new. rewrite check_true by lia. unfold ceil_log_2_word.
  rewrite check_true by lia. cbn [bind].
  assert (bit_len_w (d - 1) = bitlen (d - 1)) as -> by (unfold bit_len_w, bit_len_n, leading_zeros_n; lia).
  set (n := bitlen (d - 1)).
  pose proof (bitlen_bounds (d - 1) ltac:(lia)) as [Bn1 Pn]. fold n in Bn1, Pn.
  assert (n <= wbits) as Ln by (apply bitlen_le; [lia | fold B; lia]).
  assert (2 ^ n <= B) as Lp by (unfold B; apply Z.pow_le_mono_r; lia).
  assert (2 ^ n = 2 * 2 ^ (n - 1)) as En by (rewrite <- Z.pow_succ_r by lia; f_equal; lia).
  rewrite word_chk_ok by lia. cbn [bind]. unfold ones_w. rewrite ones_n_val by lia.
  rewrite word_chk_ok by lia. cbn [bind]. rewrite double_word_val by lia.
  replace (2 ^ n - 1 - (d - 1)) with (2 ^ n - d) by lia. unfold extend_word.
  set (v := (0 + B * (2 ^ n - d)) / d).
  assert (0 + B * (2 ^ n - d) = d * v + (0 + B * (2 ^ n - d)) mod d) as E by (apply Z.div_mod; lia).
  pose proof (Z.mod_pos_bound (0 + @B A * (2 ^ n - d)) d ltac:(lia)) as R.
  assert (0 <= v) as Nv by (apply Z.div_pos; tnia).
  assert (v + 1 < B) as Uv.
  { destruct (Z.lt_ge_cases (v + 1) B) as [|G]; [auto|]. exfalso.
    assert (d * (B - 1) <= B * (2 ^ n - d)) by tnia. tnia. }
  destruct (split_double_word v) as [lo hi] eqn:Es.
  apply split_double_word_val in Es as (V & Rm & Rh); [|tnia].
  assert (hi < 1) by (apply mul_lt_cancel with B; lia). assert (hi = 0) by lia. subst hi. rewrite word_chk_ok by lia. cbn [bind].
  rewrite checked_ok by (split; [lia|]; apply Z.lt_le_trans with (2 ^ 7); [lia|]; apply Z.pow_le_mono_r; lia).
  cbn [bind]. eexists; split; [reflexivity|]. split; [reflexivity|]. cbn.
  replace (n - 1 + 1) with n by lia. repeat split; try lia.
  exists (d - (0 + B * (2 ^ n - d)) mod d). rewrite V in E. lia.
Qed.

Lemma fds_div_rem_spec f d a : fds_ok f d -> 0 <= a < B ->
  fds_div_rem f a = Ok (a / d, a mod d).
Proof.
  intros (Ed & Rd & Rm & Rs & k & Ek & Rk & Ld) Ha. unfold fds_div_rem. rewrite Ed.
  pose proof B_ge as HB. set (m := fds_m f) in *. set (s := fds_shift f) in *.
  set (P := 2 ^ (s + 1)) in *. assert (P = 2 * 2 ^ s) as EP by (unfold P; rewrite Z.add_1_r, Z.pow_succ_r by lia; ring).
  pose proof (pow2_pos s ltac:(lia)) as Ps.
  assert (0 <= m * a < B * B) as Rma by (apply mul_range; lia).
  unfold extend_word. rewrite dword_chk_ok by exact Rma. cbn [bind].
  destruct (split_double_word (m * a)) as [x t] eqn:Es.
  apply split_double_word_val in Es as (V & Rx & Rt); [|exact Rma].
  assert (t <= a) as Lt.
  { assert (m * a <= B * a) as Hma by (apply Z.mul_le_mono_nonneg_r; lia).
    clear - V Rx Hma HB. apply mul_le_cancel with B; lia. }
  rewrite word_chk_ok by lia. cbn [bind]. unfold shr_w.
  rewrite Z.shiftr_div_pow2 by lia. rewrite Z.pow_1_r.
  rewrite word_chk_ok by lia. cbn [bind].
  rewrite Z.shiftr_div_pow2 by lia.
  assert ((t + (a - t) / 2) / 2 ^ s = (t + a) / P) as ->.
  { replace (t + (a - t) / 2) with ((t + a) / 2) by lia.
    rewrite EP. rewrite Z.div_div by lia. f_equal. }
  assert ((t + a) / P = a / d) as ->.
  { set (q := a / d). pose proof (Z.div_mod a d ltac:(lia)) as E1. fold q in E1.
    pose proof (Z.mod_pos_bound a d ltac:(lia)) as R1.
    assert (0 <= q) by (apply Z.div_pos; lia).
    (* d * (B*(t+a) + x) = a * (B*P + k) *)
    assert (d * (B * (t + a) + x) = a * (B * P + k)) as E2 by (rewrite <- Ek; lia).
    assert (P * q <= t + a < P * (q + 1)) as [G1 G2].
    { split.
      - destruct (Z.lt_ge_cases (t + a) (P * q)) as [G|]; [|auto]. exfalso.
        mle B (t + a + 1) (P * q). mlt d (B * (t + a) + x) (B * (P * q)).
        mnn B P. assert (d * q <= a) by lia. mle (B * P) (d * q) a. mnn a k. lia.
      - destruct (Z.lt_ge_cases (t + a) (P * (q + 1))) as [|G]; [auto|]. exfalso.
        mnn B P. mle B (P * (q + 1)) (t + a). mle d (B * (P * (q + 1))) (B * (t + a) + x).
        mle a k P. mle P a (B - 1). assert (a + 1 <= d * (q + 1)) by lia.
        mle (B * P) (a + 1) (d * (q + 1)). lia. }
    apply div_eq with (t + a - P * q); lia. }
  pose proof (Z.div_mod a d ltac:(lia)) as E1.
  pose proof (Z.mod_pos_bound a d ltac:(lia)) as R1.
  assert (0 <= a / d) by (apply Z.div_pos; lia).
  mnn (a / d) d.
  rewrite word_chk_ok by lia. cbn [bind]. rewrite word_chk_ok by lia. cbn [bind].
  do 2 f_equal. lia.
Qed.

End FastDivideProofs.
