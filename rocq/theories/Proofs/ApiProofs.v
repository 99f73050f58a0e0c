(** Consequences of the operation lemmas in the shape of the stated properties. *)
From Verif Require Import Model.Base Model.Words Model.Buffer Model.UBig Model.IBig Model.Convert Model.Bits Model.DivOps Model.ShiftOps Model.FastDivide Model.Memory Model.Mul Model.Div
  Spec.Val Spec.Num Spec.Prim Spec.Digits Proofs.Basics Proofs.BufferProofs Proofs.DigitsProofs Proofs.ConvertProofs
  Proofs.BitsProofs Proofs.BitCountProofs Proofs.DivOpsProofs Proofs.PrimOpsProofs Proofs.Bounds Proofs.ShiftOpsProofs
  Proofs.FastDivideProofs Proofs.MulWordProofs Proofs.MulProofs Proofs.MulFull Proofs.DivProofs Proofs.Samples.
From Coq Require Import Lia.

Section Api.
Context {A : Arch} {AOK : ArchOk A}.

Lemma clone_from_spec u source : ubig_ok u -> ubig_ok source -> returns (ubig_clone_from u source) (uval source).
Proof.
  intros Hu Hs. assert (returns (ubig_clone source) (uval source)) as C by (apply ubig_clone_spec; auto).
  destruct u as [w|b], source as [v|s]; try exact C. clear C. cbn [ubig_clone_from].
  destruct (resizing_clone_from_spec b s) as (b' & -> & H & E).
  - exact Hs.
  - cbn [bind]. exists (Large b'). split; [reflexivity|]. split; [exact H|]. cbn [uval]. rewrite E. reflexivity.
Qed.

Lemma iclone_from_spec x source : ibig_ok x -> ibig_ok source -> ireturns (ibig_clone_from x source) (ival source).
Proof. intros _ H. apply ibig_clone_spec; auto. Qed.

Lemma try_from_signed_spec tb x : prim_bits tb -> prim_range true tb x ->
  (0 <= x -> exists u, ubig_try_from_signed tb x = Ok (Some u) /\ ubig_ok u /\ uval u = x) /\
  (x < 0 -> ubig_try_from_signed tb x = Ok None).
Proof.
  intros Ht Hx. unfold prim_range in Hx. unfold ubig_try_from_signed. split; intros H.
  - assert (0 <=? x = true) as -> by lia.
    destruct (ubig_from_unsigned_spec tb x Ht) as (u & -> & Hu & Vu).
    + assert (8 <= tb) by (destruct Ht as [->|[->|[->|[->|[->| ->]]]]]; try lia; pose proof ubits_ge; lia).
      assert (2 ^ (tb - 1) < 2 ^ tb) by (apply Z.pow_lt_mono_r; lia). lia.
    + exists u. auto.
  - assert (0 <=? x = false) as -> by lia. reflexivity.
Qed.

Lemma from_bool_spec b : returns (ubig_from_bool b) (Z.b2z b).
Proof. unfold ubig_from_bool. apply ubig_from_unsigned_spec; [left; reflexivity|]. destruct b; cbn; lia. Qed.

Lemma try_from_ibig_spec x : ibig_ok x ->
  (0 <= ival x -> exists u, ubig_try_from_ibig x = Some u /\ ubig_ok u /\ uval u = ival x) /\
  (ival x < 0 -> ubig_try_from_ibig x = None).
Proof.
  intros H. pose proof H as [Hm _]. pose proof (isign_val x H) as [P N]. unfold ubig_try_from_ibig.
  destruct (isign x) eqn:E; split; intros S.
  - exists (imag x). split; [auto|]. split; [auto|]. unfold ival. rewrite E. cbn [sign_val]. lia.
  - specialize (P eq_refl). lia.
  - specialize (N eq_refl). lia.
  - reflexivity.
Qed.

Lemma try_from_ibig_ref_spec x : ibig_ok x ->
  (0 <= ival x -> exists u, ubig_try_from_ibig_ref x = Ok (Some u) /\ ubig_ok u /\ uval u = ival x) /\
  (ival x < 0 -> ubig_try_from_ibig_ref x = Ok None).
Proof.
  intros H. pose proof H as [Hm _]. pose proof (isign_val x H) as [P N]. unfold ubig_try_from_ibig_ref.
  destruct (isign x) eqn:E; split; intros S.
  - destruct (ubig_clone_spec _ Hm) as (u & -> & Hu & Vu). exists u. split; [auto|]. split; [auto|].
    unfold ival. rewrite E, Vu. cbn [sign_val]. lia.
  - specialize (P eq_refl). lia.
  - specialize (N eq_refl). lia.
  - reflexivity.
Qed.

(** * Bytes *)

Lemma WORD_BYTES_bits : 8 * Z.of_nat WORD_BYTES = wbits.
Proof. unfold WORD_BYTES. destruct AOK as [[E|[E|E]] _]; rewrite E; reflexivity. Qed.

Lemma canon_bytes_len bs : digits_ok 256 bs -> (bs = [] \/ last bs 0 <> 0) -> num 256 bs < MAXV ->
  Z.of_nat (length bs) <= MAX_LEN * Z.of_nat WORD_BYTES.
Proof.
  intros D [->|T] H; [pose proof MAX_LEN_ge; cbn [length]; nia|].
  pose proof (num_top 256 bs ltac:(lia) D T) as N. unfold MAXV in H. rewrite <- WORD_BYTES_bits in H.
  replace (8 * Z.of_nat WORD_BYTES * MAX_LEN) with (8 * (MAX_LEN * Z.of_nat WORD_BYTES)) in H by lia.
  rewrite Z.pow_mul_r in H by (pose proof MAX_LEN_ge; nia). change (2 ^ 8) with 256 in H.
  assert (256 ^ Z.of_nat (length bs - 1) < 256 ^ (MAX_LEN * Z.of_nat WORD_BYTES)) as L by lia.
  apply Z.pow_lt_mono_r_iff in L; [|lia|pose proof MAX_LEN_ge; nia]. destruct bs; cbn [length] in *; lia.
Qed.

Lemma to_le_bytes_len u bs : ubig_ok u -> to_le_bytes u = Ok bs ->
  Z.of_nat (length bs) <= MAX_CAPACITY * Z.of_nat WORD_BYTES.
Proof.
  intros H E. destruct (to_le_bytes_spec u H) as (bs' & E' & D & V & T). rewrite E in E'. injection E' as <-.
  pose proof (canon_bytes_len bs D T). apply ubig_ok_val in H. rewrite MAX_CAPACITY_eq. nia.
Qed.

Lemma le_bytes_roundtrip u : ubig_ok u -> exists bs, to_le_bytes u = Ok bs /\ returns (from_le_bytes bs) (uval u).
Proof.
  intros H. destruct (to_le_bytes_spec u H) as (bs & E & D & V & T). exists bs. split; [auto|].
  pose proof (to_le_bytes_len u bs H E). rewrite <- V. apply yields_returns.
  - apply from_le_bytes_yields; auto.
  - apply ubig_ok_val in H. lia.
Qed.

Lemma be_bytes_roundtrip u : ubig_ok u -> exists bs, to_be_bytes u = Ok bs /\ returns (from_be_bytes bs) (uval u).
Proof.
  intros H. destruct (to_le_bytes_spec u H) as (bs & E & D & V & T). exists (rev bs).
  pose proof (to_le_bytes_len u bs H E).
  split; [apply to_be_bytes_rev; auto|].
  rewrite <- V. replace (num 256 bs) with (num 256 (rev (rev bs))) by (rewrite rev_involutive; reflexivity). apply yields_returns.
  - apply from_be_bytes_yields; [apply Forall_rev; auto|]. rewrite rev_length. auto.
  - rewrite rev_involutive. apply ubig_ok_val in H. lia.
Qed.

(** * Bits *)

Lemma yields_bits r f g u v : bitwise f g -> ubig_ok u -> ubig_ok v -> yields r (f (uval u) (uval v)) ->
  exists w, r = Ok w /\ ubig_ok w /\ forall i, 0 <= i -> Z.testbit (uval w) i = g (Z.testbit (uval u) i) (Z.testbit (uval v) i).
Proof.
  intros Hf Hu Hv Y. destruct Y as [Y _]. destruct (Y ltac:(apply (bitwise_MAXV f g); auto)) as (w & E & Hw & V).
  exists w. split; [auto|]. split; [auto|]. intros i Hi. rewrite V. apply Hf; auto.
Qed.

(** * Agreement of two ways to compute a number *)

Lemma yields_agree r1 r2 z : yields r1 z -> yields r2 z -> agree r1 r2.
Proof.
  intros [Y1 N1] [Y2 N2]. destruct (Z.lt_ge_cases z MAXV) as [H|H].
  - destruct (Y1 H) as (u & -> & Hu & Vu), (Y2 H) as (v & -> & Hv & Vv). cbn [agree]; congruence.
  - rewrite (N1 H), (N2 H). reflexivity.
Qed.
Lemma iyields_agree r1 r2 z : iyields r1 z -> iyields r2 z -> iagree r1 r2.
Proof.
  intros [Y1 N1] [Y2 N2]. destruct (Z.lt_ge_cases (Z.abs z) MAXV) as [H|H].
  - destruct (Y1 H) as (u & -> & Hu & Vu), (Y2 H) as (v & -> & Hv & Vv). cbn [iagree]; congruence.
  - rewrite (N1 H), (N2 H). reflexivity.
Qed.
Lemma yields_nat_agree r1 r2 z : yields_nat r1 z -> yields_nat r2 z -> agree r1 r2.
Proof.
  intros [Y1 N1] [Y2 N2]. destruct (Z.lt_ge_cases z 0) as [H|H].
  - rewrite (N1 H), (N2 H). reflexivity.
  - apply (yields_agree _ _ z); auto.
Qed.
Lemma div_yields_agree d r1 r2 z : div_yields d r1 z -> div_yields d r2 z -> agree r1 r2.
Proof.
  intros [Y1 N1] [Y2 N2]. destruct (Z.eq_dec d 0) as [H|H].
  - rewrite (Y1 H), (Y2 H). reflexivity.
  - destruct (N1 H) as (u & -> & Hu & Vu), (N2 H) as (v & -> & Hv & Vv). cbn [agree]; congruence.
Qed.
Lemma idiv_yields_agree d r1 r2 z : idiv_yields d r1 z -> idiv_yields d r2 z -> iagree r1 r2.
Proof.
  intros [Y1 N1] [Y2 N2]. destruct (Z.eq_dec d 0) as [H|H].
  - rewrite (Y1 H), (Y2 H). reflexivity.
  - destruct (N1 H) as (u & -> & Hu & Vu), (N2 H) as (v & -> & Hv & Vv). cbn [iagree]; congruence.
Qed.

(** * Lemmas in the exact shape of the property theorems *)

Lemma yields_nat_returns r z a b : ubig_ok a -> ubig_ok b -> uval b <= uval a -> z = uval a - uval b -> yields_nat r z -> returns r z.
Proof. intros Ha Hb L -> [Y _]. apply ubig_ok_val in Ha, Hb. apply yields_returns; [apply Y|]; lia. Qed.

Lemma mul_memory_sufficient c a b s mem :
  wf c -> wf a -> wf b -> length c = (length a + length b)%nat ->
  mul_memory (Nat.min (length a) (length b)) <= mem ->
  exists c' k, add_signed_mul c s a b mem = Ok (c', k) /\ wf c' /\ length c' = length c /\
    val c + sign_val s * (val a * val b) = val c' + B ^ Z.of_nat (length c) * k.
Proof.
  intros Hc Ha Hb L M. destruct (add_signed_mul_spec c s a b mem Hc Ha Hb L M) as (c' & k & E & L2 & W2 & V).
  exists c', k. split; [auto|]. split; [auto|]. split; [auto|]. unfold Bn in V. lia.
Qed.

Lemma div_rem_unique a b q r : 0 <= r < b -> a = q * b + r -> q = a / b /\ r = a mod b.
Proof. intros H E. split; [apply (Z.div_unique a b q r)|apply (Z.mod_unique a b q r)]; lia. Qed.

Lemma div_memory_sufficient lhs rhs :
  wf lhs -> wf rhs -> (2 <= length rhs <= length lhs)%nat -> B <= 2 * last rhs 0 ->
  exists f need, fdn_new (last rhs 0) = Ok f /\ div_memory (length lhs) (length rhs) = Ok need /\
  forall mem, need <= mem ->
  exists rem q o, div_rem_in_place lhs rhs f mem = Ok (rem ++ q, o) /\
    wf rem /\ wf q /\ length rem = length rhs /\ length q = (length lhs - length rhs)%nat /\
    val lhs = val rem + val rhs * (val q + B ^ Z.of_nat (length q) * Z.b2z o) /\ val rem < val rhs.
Proof.
  intros Wl Wr [L1 L2] T. assert (rhs <> []) as NE by (destruct rhs; cbn in L1; [lia|discriminate]).
  pose proof (app_removelast_last 0 NE) as S.
  assert (0 <= last rhs 0 < B) as R.
  { assert (wf (removelast rhs ++ [last rhs 0])) as W by (rewrite <- S; auto). apply wf_app in W as [_ W]. inversion W; auto. }
  destruct (fdn_new_spec (last rhs 0) T ltac:(lia)) as (f & Ef & Of).
  destruct (div_memory_Ok (length lhs) (length rhs) L2 L1) as (need & En & Hn).
  exists f, need. split; [auto|]. split; [auto|]. intros mem Hm.
  destruct (div_rem_in_place_spec lhs rhs f need mem) as (lhs' & o & E & rem & q & -> & P); auto.
  - split; [auto|]. exists (removelast rhs), (last rhs 0). auto.
  - exists rem, q, o. split; [auto|]. exact P.
Qed.

Lemma div_yields_not_internal d r z : div_yields d r z -> r <> Panic Internal.
Proof.
  intros [Y1 Y2]. destruct (Z.eq_dec d 0) as [H|H]; [rewrite (Y1 H)|destruct (Y2 H) as (u & -> & _)]; discriminate.
Qed.
Lemma div_rem_yields_not_internal d r z1 z2 : div_rem_yields d r z1 z2 -> r <> Panic Internal.
Proof.
  intros [Y1 Y2]. destruct (Z.eq_dec d 0) as [H|H]; [rewrite (Y1 H)|destruct (Y2 H) as (u & v & -> & _)]; discriminate.
Qed.

Lemma normalized_division d : B <= 2 * d -> d < B ->
  exists f, fdn_new d = Ok f /\
    (forall a, 0 <= a < d * B -> fdn_div_rem f a = Ok (a / d, a mod d)) /\
    (forall a, 0 <= a < B -> fdn_div_rem_word f a = Ok (a / d, a mod d)).
Proof.
  intros H1 H2. destruct (fdn_new_spec d H1 H2) as (f & E & O). exists f. split; [auto|]. split; intros a Ha.
  - apply fdn_div_rem_spec; auto.
  - apply fdn_div_rem_word_spec; auto.
Qed.

Lemma small_division d : 2 <= d < B ->
  exists f, fds_new d = Ok f /\ forall a, 0 <= a < B -> fds_div_rem f a = Ok (a / d, a mod d).
Proof. intros H. destruct (fds_new_spec d H) as (f & E & O). exists f. split; [auto|]. intros a Ha. apply fds_div_rem_spec; auto. Qed.

Lemma truncation a b : b <> 0 ->
  a = b * Z.quot a b + Z.rem a b /\ Z.abs (Z.rem a b) < Z.abs b /\ 0 <= Z.rem a b * a.
Proof.
  intros H. split; [apply Z.quot_rem'|]. split; [apply rem_abs_bound; auto|]. apply Z.rem_sign_mul; auto.
Qed.

Lemma euclid_iff a b q r : b <> 0 ->
  (a = b * q + r /\ 0 <= r < Z.abs b) <-> (q = ediv a b /\ r = emod a b).
Proof.
  intros H. split.
  - intros [E R]. apply ediv_unique; auto.
  - intros [-> ->]. apply ediv_spec; auto.
Qed.

Lemma buffer_ok_intro b : wf (words b) -> len (words b) <= cap b -> buffer_ok b.
Proof. intros W C. split; auto. Qed.

Lemma shl_zero u n : ubig_ok u -> uval u = 0 -> 0 <= n < 2 ^ ubits -> returns (ubig_shl_v u n) 0 /\ returns (ubig_shl_r u n) 0.
Proof.
  intros Hu E Hn. pose proof MAXV_pos. pose proof (ubig_shl_v_yields u n Hu Hn) as Y1. pose proof (ubig_shl_r_yields u n Hu Hn) as Y2.
  rewrite E, Z.mul_0_l in Y1, Y2. split; apply yields_returns; auto.
Qed.

Lemma shr_returns r u n : ubig_ok u -> 0 <= n -> yields r (uval u / 2 ^ n) -> returns r (uval u / 2 ^ n).
Proof. intros Hu Hn Y. apply yields_returns; auto. apply ubig_ok_val in Hu. pose proof (shr_bound (uval u) n Hn). lia. Qed.
Lemma ishr_returns r x n : ibig_ok x -> 0 <= n -> iyields r (ival x / 2 ^ n) -> ireturns r (ival x / 2 ^ n).
Proof. intros Hx Hn Y. apply iyields_ireturns; auto. apply ibig_ok_val in Hx. pose proof (shr_bound (ival x) n Hn). lia. Qed.

Lemma iyields_bits r f g x y : bitwise f g -> iyields r (f x y) ->
  exists z, iyields r z /\ forall i, 0 <= i -> Z.testbit z i = g (Z.testbit x i) (Z.testbit y i).
Proof. intros [_ H] Y. exists (f x y). auto. Qed.
Lemma iyields_not r x : iyields r (Z.lnot x) -> exists z, iyields r z /\ forall i, 0 <= i -> Z.testbit z i = negb (Z.testbit x i).
Proof. intros Y. exists (Z.lnot x). split; [auto|]. intros. apply Z.lnot_spec; auto. Qed.
Lemma twos_complement z k i : 0 <= i < k -> Z.testbit z i = Z.testbit (z mod 2 ^ k) i.
Proof. intros H. symmetry. apply Z.mod_pow2_bits_low. lia. Qed.

Lemma set_bit_bits u n : ubig_ok u -> 0 <= n < 2 ^ ubits ->
  exists z, yields (set_bit u n) z /\ forall i, 0 <= i -> Z.testbit z i = (i =? n) || Z.testbit (uval u) i.
Proof.
  intros Hu Hn. exists (Z.setbit (uval u) n). split; [apply set_bit_yields; auto|].
  intros i Hi. rewrite Z.setbit_eqb by lia. rewrite Z.eqb_sym. reflexivity.
Qed.

Lemma clearbit_bits v n i : 0 <= i -> 0 <= n -> Z.testbit (Z.clearbit v n) i = negb (i =? n) && Z.testbit v i.
Proof. intros Hi Hn. rewrite Z.clearbit_eqb by lia. rewrite Z.eqb_sym. apply andb_comm. Qed.

Lemma clear_bit_bits u n : ubig_ok u -> 0 <= n -> n < wbits \/ B <= uval u \/ uval u = 0 ->
  exists v, clear_bit u n = Ok v /\ ubig_ok v /\
    forall i, 0 <= i -> Z.testbit (uval v) i = negb (i =? n) && Z.testbit (uval u) i.
Proof.
  intros Hu Hn C. destruct (Z.eq_dec (uval u) 0) as [E0|NE].
  - destruct u as [w|b]; [|pose proof (Large_ge b Hu) as G; pose proof B_ge; cbn [uval] in E0; lia].
    cbn [uval] in E0. subst w. unfold clear_bit. exists (Small 0). split.
    + destruct (_ <? _); reflexivity.
    + split; [auto|]. intros i Hi. cbn [uval]. rewrite Z.bits_0, andb_false_r. reflexivity.
  - destruct (clear_bit_yields u n Hu Hn ltac:(lia)) as [Y _].
    assert (Z.clearbit (uval u) n = Z.ldiff (uval u) (2 ^ n)) as EQ by (rewrite Z.clearbit_spec'; reflexivity).
    pose proof (ubig_ok_val u Hu) as R.
    assert (Z.ldiff (uval u) (2 ^ n) <= uval u) as LE.
    { pose proof (Z.sub_nocarry_ldiff (uval u) (Z.land (uval u) (2 ^ n))) as S.
      assert (Z.ldiff (Z.land (uval u) (2 ^ n)) (uval u) = 0) as D.
      { apply Z.bits_inj'. intros k Hk. rewrite Z.ldiff_spec, Z.land_spec, Z.bits_0. destruct (Z.testbit (uval u) k); cbn; rewrite ?andb_false_r; reflexivity. }
      specialize (S D). assert (0 <= Z.land (uval u) (2 ^ n)) by (apply Z.land_nonneg; lia).
      replace (Z.ldiff (uval u) (2 ^ n)) with (Z.ldiff (uval u) (Z.land (uval u) (2 ^ n))); [lia|].
      apply Z.bits_inj'. intros k Hk. rewrite !Z.ldiff_spec, Z.land_spec. destruct (Z.testbit (uval u) k); reflexivity. }
    destruct (Y ltac:(lia)) as (v & E & Hv & V). exists v. split; [auto|]. split; [auto|].
    intros i Hi. rewrite V. apply clearbit_bits; auto.
Qed.

Lemma clear_bit_wrong u n : ubig_ok u -> wbits <= n -> 0 < uval u < B -> clear_bit u n = Ok (Small 0).
Proof.
  intros Hu Hn Hv. destruct u as [w|b]; [|pose proof (Large_ge b Hu) as G; cbn [uval] in Hv; lia].
  unfold clear_bit. destruct (Z.ltb_spec n wbits) as [C|C]; [lia|]. reflexivity.
Qed.

Lemma ubig_trailing_zeros_divide u : ubig_ok u ->
  (uval u = 0 -> ubig_trailing_zeros u = Ok None) /\
  (uval u <> 0 -> exists k, ubig_trailing_zeros u = Ok (Some k) /\ 0 <= k /\ (2 ^ k | uval u) /\ ~ (2 ^ (k + 1) | uval u)).
Proof.
  intros H. destruct (ubig_trailing_zeros_spec u H) as [Z0 P]. split; [auto|]. intros N. destruct (P N) as (k & E & O).
  exists k. split; [auto|]. apply odd_part_divide; auto.
Qed.
Lemma ibig_trailing_zeros_divide x : ibig_ok x ->
  (ival x = 0 -> ibig_trailing_zeros x = Ok None) /\
  (ival x <> 0 -> exists k, ibig_trailing_zeros x = Ok (Some k) /\ 0 <= k /\ (2 ^ k | ival x) /\ ~ (2 ^ (k + 1) | ival x)).
Proof.
  intros H. destruct (ibig_trailing_zeros_spec x H) as [Z0 P]. split; [auto|]. intros N. destruct (P N) as (k & E & O).
  exists k. split; [auto|]. apply odd_part_divide in O as (O1 & O2 & O3). rewrite Z.divide_abs_r in O2, O3. auto.
Qed.

Lemma bit_len_least u : ubig_ok u ->
  exists k, ubig_bit_len u = Ok k /\ 0 <= k /\ uval u < 2 ^ k /\ forall j, 0 <= j -> uval u < 2 ^ j -> k <= j.
Proof.
  intros H. exists (bitlen (uval u)). split; [apply ubig_bit_len_spec; auto|]. apply ubig_ok_val in H.
  split; [apply bitlen_nonneg|]. destruct (Z.eq_dec (uval u) 0) as [->|N].
  - split; [reflexivity|]. intros; auto.
  - assert (0 < uval u) as P by lia. pose proof (bitlen_bounds (uval u) P). split; [lia|]. intros j Hj L. apply bitlen_le; lia.
Qed.

Lemma next_power_of_two_least u : ubig_ok u ->
  exists k, 0 <= k /\ uval u <= 2 ^ k /\ (forall j, 0 <= j -> uval u <= 2 ^ j -> 2 ^ k <= 2 ^ j) /\
    yields (next_power_of_two_v u) (2 ^ k) /\ yields (next_power_of_two_r u) (2 ^ k).
Proof.
  intros H. exists (Z.log2_up (uval u)). pose proof (ubig_ok_val u H) as R. pose proof (log2_up_least (uval u) (proj1 R)) as [L1 L2].
  split; [apply Z.log2_up_nonneg|]. split; [auto|]. split; [auto|].
  split; [apply next_power_of_two_v_yields|apply next_power_of_two_r_yields]; auto.
Qed.

Lemma bytes_len_bits (bs : list Z) : 8 * Z.of_nat (length bs) <= wbits * (MAX_LEN + 4) <-> Z.of_nat (length bs) <= MAX_CAPACITY * Z.of_nat WORD_BYTES.
Proof. rewrite MAX_CAPACITY_eq, <- WORD_BYTES_bits. split; nia. Qed.

Lemma from_le_bytes_full bs : digits_ok 256 bs ->
  (8 * Z.of_nat (length bs) <= wbits * (MAX_LEN + 4) -> yields (from_le_bytes bs) (num 256 bs)) /\
  (wbits * (MAX_LEN + 4) < 8 * Z.of_nat (length bs) -> from_le_bytes bs = Panic NumberTooLarge).
Proof.
  intros D. pose proof (bytes_len_bits bs). split; intros L.
  - apply from_le_bytes_yields; tauto.
  - apply from_le_bytes_too_long. lia.
Qed.
Lemma from_be_bytes_full bs : digits_ok 256 bs ->
  (8 * Z.of_nat (length bs) <= wbits * (MAX_LEN + 4) -> yields (from_be_bytes bs) (num 256 (rev bs))) /\
  (wbits * (MAX_LEN + 4) < 8 * Z.of_nat (length bs) -> from_be_bytes bs = Panic NumberTooLarge).
Proof.
  intros D. pose proof (bytes_len_bits bs). split; intros L.
  - apply from_be_bytes_yields; tauto.
  - apply from_be_bytes_too_long. lia.
Qed.
Lemma to_bytes_full u : ubig_ok u ->
  exists bs, to_le_bytes u = Ok bs /\ to_be_bytes u = Ok (rev bs) /\
    digits_ok 256 bs /\ num 256 bs = uval u /\ (bs = [] \/ last bs 0 <> 0).
Proof.
  intros H. destruct (to_le_bytes_spec u H) as (bs & E & D & V & T). exists bs. split; [auto|].
  split; [apply to_be_bytes_rev; auto|]. auto.
Qed.
Lemma bytes_unique x y : digits_ok 256 x -> digits_ok 256 y -> (x = [] \/ last x 0 <> 0) -> (y = [] \/ last y 0 <> 0) ->
  num 256 x = num 256 y -> x = y.
Proof. intros. apply (num_canon 256); auto. lia. Qed.

Lemma from_primitive_full tb x : prim_bits tb ->
  (prim_range false tb x -> returns (ubig_from_unsigned tb x) x /\ ireturns (ibig_from_unsigned tb x) x) /\
  (prim_range true tb x -> ireturns (ibig_from_signed tb x) x /\
     (0 <= x -> exists u, ubig_try_from_signed tb x = Ok (Some u) /\ ubig_ok u /\ uval u = x) /\
     (x < 0 -> ubig_try_from_signed tb x = Ok None)).
Proof.
  intros Ht. split; intros Hx.
  - split; [apply ubig_from_unsigned_spec|apply ibig_from_unsigned_spec]; auto.
  - split; [apply ibig_from_signed_spec; auto|]. apply try_from_signed_spec; auto.
Qed.
Lemma from_bool_full b : returns (ubig_from_bool b) (Z.b2z b) /\ ireturns (ibig_from_bool b) (Z.b2z b).
Proof. split; [apply from_bool_spec|apply ibig_from_bool_spec]. Qed.

Lemma ubig_to_primitive tb u : prim_bits tb -> ubig_ok u ->
  (prim_range false tb (uval u) -> ubig_try_to_unsigned tb u = Ok (Some (uval u))) /\
  (~ prim_range false tb (uval u) -> ubig_try_to_unsigned tb u = Ok None) /\
  (prim_range true tb (uval u) -> ubig_try_to_signed tb u = Ok (Some (uval u))) /\
  (~ prim_range true tb (uval u) -> ubig_try_to_signed tb u = Ok None).
Proof.
  intros Ht Hu. rewrite (ubig_try_to_unsigned_spec tb u Ht Hu), (ubig_try_to_signed_spec tb u Ht Hu).
  apply ubig_ok_val in Hu. unfold prim_range. assert (0 < 2 ^ (tb - 1)).
  { apply Z.pow_pos_nonneg; [lia|]. destruct Ht as [->|[->|[->|[->|[->| ->]]]]]; try lia; pose proof ubits_ge; lia. }
  destruct (Z.ltb_spec (uval u) (2 ^ tb)), (Z.ltb_spec (uval u) (2 ^ (tb - 1))).
  all: split; [intros|split; [intros|split; intros]]; try reflexivity; exfalso; lia.
Qed.
Lemma ibig_to_primitive tb x : prim_bits tb -> ibig_ok x ->
  (prim_range false tb (ival x) -> ibig_try_to_unsigned tb x = Ok (Some (ival x))) /\
  (~ prim_range false tb (ival x) -> ibig_try_to_unsigned tb x = Ok None) /\
  (prim_range true tb (ival x) -> ibig_try_to_signed tb x = Ok (Some (ival x))) /\
  (~ prim_range true tb (ival x) -> ibig_try_to_signed tb x = Ok None).
Proof.
  intros Ht Hu. rewrite (ibig_try_to_unsigned_spec tb x Ht Hu), (ibig_try_to_signed_spec tb x Ht Hu).
  unfold prim_range.
  destruct (Z.ltb_spec (ival x) (2 ^ tb)), (Z.ltb_spec (ival x) (2 ^ (tb - 1))), (Z.leb_spec 0 (ival x)), (Z.leb_spec (- 2 ^ (tb - 1)) (ival x)).
  all: cbn [andb]; split; [intros|split; [intros|split; intros]]; try reflexivity; exfalso; lia.
Qed.
Lemma ibig_from_ubig_full u : ubig_ok u -> ireturns (Ok (ibig_from_ubig u)) (uval u) /\ ireturns (ibig_from_ubig_ref u) (uval u).
Proof.
  intros H. split.
  - exists (ibig_from_ubig u). split; [auto|]. apply ibig_from_ubig_spec; auto.
  - apply ibig_from_ubig_ref_spec; auto.
Qed.
Lemma ubig_from_ibig_full x : ibig_ok x ->
  (0 <= ival x -> (exists u, ubig_try_from_ibig x = Some u /\ ubig_ok u /\ uval u = ival x) /\
                  (exists u, ubig_try_from_ibig_ref x = Ok (Some u) /\ ubig_ok u /\ uval u = ival x)) /\
  (ival x < 0 -> ubig_try_from_ibig x = None /\ ubig_try_from_ibig_ref x = Ok None).
Proof.
  intros H. pose proof (try_from_ibig_spec x H) as [A1 A2]. pose proof (try_from_ibig_ref_spec x H) as [B1 B2].
  split; intros S; split; auto.
Qed.

Lemma sign_mul_val s t : sign_val (sign_mul s t) = sign_val s * sign_val t /\ sign_val (sign_neg s) = - sign_val s.
Proof. destruct s, t; split; reflexivity. Qed.

Lemma sign_ops x s : ibig_ok x ->
  ireturns (Ok (ibig_neg x)) (- ival x) /\ ireturns (ibig_neg_ref x) (- ival x) /\
  ireturns (Ok (ibig_abs x)) (Z.abs (ival x)) /\ ireturns (ibig_abs_ref x) (Z.abs (ival x)) /\
  returns (Ok (unsigned_abs x)) (Z.abs (ival x)) /\ returns (unsigned_abs_ref x) (Z.abs (ival x)) /\
  ireturns (signum x) (Z.sgn (ival x)) /\
  ireturns (Ok (sign_mul_ibig s x)) (sign_val s * ival x).
Proof.
  intros H. pose proof (ibig_neg_spec x H). pose proof (abs_spec x H). pose proof H as [Hm _].
  pose proof (ubig_ok_val _ Hm) as R.
  assert (uval (imag x) = Z.abs (ival x)) as M by (unfold ival; destruct (isign x); cbn [sign_val]; lia).
  split; [exists (ibig_neg x); auto|]. split.
  { unfold ibig_neg_ref. destruct (ibig_clone_spec x H) as (y & -> & Hy & Vy). cbn [bind]. exists (ibig_neg y). split; [auto|].
    rewrite <- Vy. apply ibig_neg_spec; auto. }
  split; [exists (ibig_abs x); auto|]. split; [apply abs_ref_spec; auto|].
  split; [exists (imag x); auto|]. split.
  { unfold unsigned_abs_ref. rewrite <- M. apply ubig_clone_spec; auto. }
  split; [apply signum_spec; auto|].
  exists (sign_mul_ibig s x). split; [auto|]. unfold sign_mul_ibig.
  destruct (from_sign_magnitude_spec (sign_mul s (isign x)) _ Hm) as [O V]. split; [auto|].
  rewrite V. unfold ival. destruct (sign_mul_val s (isign x)) as [-> _]. ring.
Qed.

Lemma shifts_agree u x n : ubig_ok u -> ibig_ok x -> 0 <= n < 2 ^ ubits ->
  agree (ubig_shl_v u n) (ubig_shl_r u n) /\ agree (ubig_shl_v u n) (ubig_shl_assign u n) /\
  agree (ubig_shr_v u n) (ubig_shr_r u n) /\ agree (ubig_shr_v u n) (ubig_shr_assign u n) /\
  iagree (ibig_shl_v x n) (ibig_shl_r x n) /\ iagree (ibig_shl_v x n) (ibig_shl_assign x n) /\
  iagree (ibig_shr_v x n) (ibig_shr_r x n) /\ iagree (ibig_shr_v x n) (ibig_shr_assign x n).
Proof.
  intros Hu Hx Hn. assert (0 <= n) as Hn0 by lia.
  pose proof (ubig_shl_v_yields u n Hu Hn) as A1. pose proof (ubig_shl_r_yields u n Hu Hn) as A2.
  pose proof (ubig_shr_v_yields u n Hu Hn0) as A3. pose proof (ubig_shr_r_yields u n Hu Hn0) as A4.
  pose proof (ibig_shl_v_yields x n Hx Hn) as A5. pose proof (ibig_shl_r_yields x n Hx Hn) as A6.
  pose proof (ibig_shr_v_yields x n Hx Hn0) as A7. pose proof (ibig_shr_r_yields x n Hx Hn0) as A8.
  split; [exact (yields_agree _ _ _ A1 A2)|]. split; [exact (yields_agree _ _ _ A1 A1)|].
  split; [exact (yields_agree _ _ _ A3 A4)|]. split; [exact (yields_agree _ _ _ A3 A3)|].
  split; [exact (iyields_agree _ _ _ A5 A6)|]. split; [exact (iyields_agree _ _ _ A5 A5)|].
  split; [exact (iyields_agree _ _ _ A7 A8)|]. exact (iyields_agree _ _ _ A7 A7).
Qed.

End Api.

Lemma clear_bit_refuted :
  exists (A : Arch) (_ : ArchOk A) (u : ubig) (n : Z),
    ubig_ok u /\ 0 <= n < 2 ^ ubits /\ uval u = 5 /\ n = 64 /\
    uresult (clear_bit u n) = Ok 0 /\
    ~ (exists v, clear_bit u n = Ok v /\ ubig_ok v /\
    forall i, 0 <= i -> Z.testbit (uval v) i = negb (i =? n) && Z.testbit (uval u) i).
Proof.
  exists arch64, arch64_ok, (Small 5), 64. split; [sample|]. split; [cbn; lia|]. split; [reflexivity|]. split; [reflexivity|].
  split; [reflexivity|]. intros (v & E & _ & H). vm_compute in E. injection E as <-.
  specialize (H 0 ltac:(lia)). vm_compute in H. discriminate.
Qed.

(** All pairs of forms agree when each computes the same integer. *)
Lemma Forall_pairs {T} (P : T -> Prop) (Q : T -> T -> Prop) l :
  Forall P l -> (forall x y, P x -> P y -> Q x y) -> ForallOrdPairs Q l.
Proof.
  intros H I. induction H as [|x l Hx Hl IH]; constructor; auto.
  apply Forall_forall. intros y Hy. apply I; auto. apply (proj1 (Forall_forall _ _) Hl); auto.
Qed.
