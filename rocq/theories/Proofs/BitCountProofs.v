(** Single bits, bit counts and powers of two. *)
From Verif Require Import Model.Base Model.Words Model.Shift Model.Memory Model.Buffer Model.UBig Model.IBig
  Model.Convert Model.AddOps Model.MulOps Model.ShiftOps Model.Bits Spec.Val Spec.Num Proofs.Basics Proofs.ShiftProofs
  Proofs.FastDivideProofs Proofs.DivWordProofs Proofs.DivProofs Proofs.BufferProofs Proofs.AddOpsProofs Proofs.ConvertProofs
  Proofs.MulOpsProofs Proofs.ShiftOpsProofs Proofs.BitsProofs.
From Coq Require Import Lia.

Section BitCountProofs.
Context {A : Arch} {AOK : ArchOk A}.

Lemma shl_w_1 n : 0 <= n < wbits -> shl_w 1 n = 2 ^ n /\ 0 <= 2 ^ n < B.
Proof.
  intros H. unfold shl_w. rewrite Z.shiftl_mul_pow2, Z.mul_1_l by lia.
  assert (0 <= 2 ^ n < B) by (split; [pose proof (pow2_pos n); lia|unfold B; apply Z.pow_lt_mono_r; lia]).
  rewrite Z.mod_small by auto. auto.
Qed.

Lemma land_pow2 w n : 0 <= n -> negb (Z.land w (2 ^ n) =? 0) = Z.testbit w n.
Proof.
  intros H. destruct (Z.testbit w n) eqn:E.
  - apply negb_true_iff, Z.eqb_neq. intros F. apply (f_equal (fun z => Z.testbit z n)) in F.
    rewrite Z.land_spec, E, Z.pow2_bits_true, Z.bits_0 in F by lia. discriminate.
  - apply negb_false_iff, Z.eqb_eq. apply Z.bits_inj'. intros k Hk. rewrite Z.land_spec, Z.bits_0, Z.pow2_bits_eqb by lia.
    destruct (Z.eqb_spec n k) as [<-|]; [rewrite E; reflexivity|apply andb_false_r].
Qed.

Lemma setbit_pow v n : 0 <= n -> Z.setbit v n = Z.lor v (2 ^ n).
Proof. intros. unfold Z.setbit. rewrite Z.shiftl_mul_pow2, Z.mul_1_l by auto. reflexivity. Qed.
Lemma clearbit_pow v n : 0 <= n -> Z.clearbit v n = Z.ldiff v (2 ^ n).
Proof. intros. unfold Z.clearbit. rewrite Z.shiftl_mul_pow2, Z.mul_1_l by auto. reflexivity. Qed.

Lemma get_at (lo : list Z) w hi i : length lo = i -> get i (lo ++ w :: hi) = Ok w.
Proof. intros <-. unfold get. rewrite nth_error_app2, Nat.sub_diag by lia. reflexivity. Qed.
Lemma set_at (lo : list Z) w hi i v : length lo = i -> set i v (lo ++ w :: hi) = Ok (lo ++ v :: hi).
Proof.
  intros <-. unfold set. rewrite (proj2 (Nat.ltb_lt _ _)) by (rewrite app_length; simpl; lia).
  f_equal. induction lo as [|x lo IH]; simpl; congruence.
Qed.
Lemma get_set_split (ws : list Z) i : (i < length ws)%nat -> exists lo w hi, ws = lo ++ w :: hi /\ length lo = i /\
  get i ws = Ok w /\ (forall v, set i v ws = Ok (lo ++ v :: hi)).
Proof.
  intros H. destruct (list_split i ws ltac:(lia)) as (lo & hi & E & L & Lh & _).
  destruct hi as [|w hi]; [simpl in Lh; lia|]. exists lo, w, hi. split; [auto|]. split; [auto|].
  rewrite E. split; [apply get_at; auto|intros; apply set_at; auto].
Qed.

(** A bitwise operation with a power of two touches one word. *)
Lemma op_at f g lo w hi sb : bitwise f g -> (forall a, f a 0 = a) -> wf lo -> 0 <= w < B -> 0 <= sb < wbits ->
  f (val (lo ++ w :: hi)) (Bn (length lo) * 2 ^ sb) = val (lo ++ f w (2 ^ sb) :: hi).
Proof.
  intros Hf Fa Wl Hw Hs. rewrite !val_app. pose proof (val_bound _ Wl). pose proof (Bn_pos (length lo)).
  destruct (shl_w_1 sb Hs) as [_ H2].
  replace (Bn (length lo) * 2 ^ sb) with (0 + Bn (length lo) * 2 ^ sb) by lia.
  rewrite (Bn_split_op f g), Fa by (auto; lia). f_equal. f_equal. cbn [val].
  rewrite (word_split (2 ^ sb)) at 1. rewrite (B_split_op f g), Fa by auto. reflexivity.
Qed.

(** * Single bits *)
Lemma bit_spec u n : ubig_ok u -> 0 <= n -> bit u n = Ok (Z.testbit (uval u) n).
Proof.
  intros Hu Hn. destruct u as [w|b]; cbn [bit uval].
  - cbn in Hu. destruct (Z.ltb_spec n wbits) as [C|C]; cbn [andb].
    + rewrite (proj1 (shl_w_1 n ltac:(lia))), land_pow2 by lia. reflexivity.
    + rewrite (testbit_high w wbits n) by auto. reflexivity.
  - destruct Hu as (W & _). destruct (shift_split n Hn) as (sw & sb & E1 & E2 & E3 & Hsb & E4 & E5).
    rewrite E2, E3, E1. unfold blen, len. destruct (Z.ltb_spec (Z.of_nat sw) (Z.of_nat (length (words b)))) as [C|C].
    + destruct (get_set_split (words b) sw ltac:(lia)) as (lo & w & hi & E & L & -> & _). cbn [bind].
      rewrite (proj1 (shl_w_1 sb Hsb)), land_pow2 by lia. f_equal. rewrite E in *.
      apply wf_app in W as [Wl W]. apply wf_cons in W as [Hw Wh]. rewrite val_app. pose proof (val_bound _ Wl) as V. rewrite Bn_pow2 in *.
      pose proof wbits_ge. assert (0 <= wbits * Z.of_nat (length lo)) by nia.
      rewrite testbit_split by lia. rewrite L, E5. destruct (Z.ltb_spec (wbits * Z.of_nat sw + sb) (wbits * Z.of_nat sw)); [lia|].
      replace (wbits * Z.of_nat sw + sb - wbits * Z.of_nat sw) with sb by lia. cbn [val]. unfold B. rewrite testbit_split by (try apply Hw; lia).
      destruct (Z.ltb_spec sb wbits); [reflexivity|lia].
    + symmetry. f_equal. apply (testbit_high _ (wbits * Z.of_nat (length (words b)))).
      * rewrite <- Bn_pow2. apply val_bound; auto.
      * pose proof wbits_ge. nia.
Qed.

Lemma wf_cons_iff lo w hi : wf (lo ++ w :: hi) <-> wf lo /\ 0 <= w < B /\ wf hi.
Proof. rewrite wf_app, wf_cons. tauto. Qed.

Lemma lor_high lo n sb : wf lo -> (length lo <= n)%nat -> 0 <= sb -> Z.lor (val lo) (Bn n * 2 ^ sb) = val lo + Bn n * 2 ^ sb.
Proof.
  intros W L Hs. pose proof (val_bound _ W). pose proof (Bn_le _ _ L).
  rewrite (Z.mul_comm (Bn n)). pose proof wbits_ge. assert (0 <= val lo < Bn n) as HL by lia. rewrite (Bn_pow2 n) in *. apply lor_disjoint; [nia|auto].
Qed.

Lemma with_bit_word_slow_yields w n : 0 <= w < B -> wbits <= n < 2 ^ ubits ->
  yields (with_bit_word_slow w n) (Z.setbit w n).
Proof.
  intros Hw Hn. unfold with_bit_word_slow. rewrite check_true by lia. pose proof wbits_ge.
  assert (0 <= n < 2 ^ ubits) as Hn' by lia.
  pose proof (usize_words_chk n 0 1 Hn' ltac:(pose proof MAX_LEN_ge; lia) ltac:(lia)) as EC. rewrite Z.add_0_r in EC.
  rewrite EC. cbn [bind]. rewrite setbit_pow by lia.
  destruct (shift_split n ltac:(lia)) as (sw & sb & E1 & E2 & E3 & Hsb & E4 & E5). rewrite E2, E4, E1.
  destruct (shl_w_1 sb Hsb) as [-> H2]. assert (1 <= sw)%nat by (destruct sw; lia).
  assert (Z.lor w (Bn sw * 2 ^ sb) = w + Bn sw * 2 ^ sb) as EL.
  { rewrite <- (val_single w). apply lor_high; [apply wf_cons; split; [auto|apply wf_nil]|simpl; lia|lia]. }
  rewrite EL. destruct (Z.le_gt_cases (Z.of_nat sw + 1) MAX_CAPACITY) as [M|M].
  - destruct (allocate_spec (Z.of_nat sw + 1)) as (c & -> & Hc & _); [lia|]. cbn [bind].
    rewrite push_spec by (unfold len; simpl length; lia). cbn [bind app].
    rewrite extend_spec by (unfold len; rewrite repeat_length; simpl length; lia). cbn [bind].
    assert (len ([w] ++ repeat 0 (Z.to_nat (Z.of_nat sw - 1))) = Z.of_nat sw) as EN
      by (rewrite len_app; unfold len; rewrite repeat_length; simpl length; lia).
    rewrite push_spec by lia. cbn [bind]. eapply yields_eq; [apply from_buffer_yields|].
    + split; cbn [words cap].
      * rewrite !wf_app. repeat split; [|apply wf_repeat0|]; (apply wf_cons; split; [lia|apply wf_nil]).
      * unfold blen. cbn [words]. rewrite len_app, EN. unfold len. simpl length. lia.
    + cbn [words]. rewrite val_app, val_app, val_repeat0, val_single, val_single.
      replace (length ([w] ++ repeat 0 (Z.to_nat (Z.of_nat sw - 1)))) with sw by (unfold len in EN; lia). lia.
  - rewrite allocate_too_large by lia. cbn [bind]. split; [|reflexivity]. intros HM. exfalso.
    assert (MAXV <= w + Bn sw * 2 ^ sb); [|lia]. apply (MAXV_Bn sw); [rewrite MAX_CAPACITY_eq in M; lia|].
    pose proof (mul_ge1 (Bn sw) (2 ^ sb) (Bn_pos sw) (pow2_pos sb ltac:(lia))). lia.
Qed.

Lemma with_bit_large_yields b n : ubig_ok (Large b) -> 0 <= n < 2 ^ ubits ->
  yields (with_bit_large b n) (Z.setbit (val (words b)) n).
Proof.
  intros Hb Hn. destruct b as [bw bc]. pose proof (Large_buffer_ok _ Hb) as HB. pose proof Hb as (W & L2 & T & LM & C1 & C2).
  unfold with_bit_large. pose proof wbits_ge.
  assert (0 <= n < 2 ^ ubits) as Hn' by lia.
  pose proof (usize_words_chk n 0 1 Hn' ltac:(pose proof MAX_LEN_ge; lia) ltac:(lia)) as EC. rewrite Z.add_0_r in EC.
  rewrite EC. cbn [bind]. rewrite setbit_pow by lia.
  destruct (shift_split n ltac:(lia)) as (sw & sb & E1 & E2 & E3 & Hsb & E4 & E5). rewrite E2, E4, E3, E1.
  destruct (shl_w_1 sb Hsb) as [-> H2]. unfold blen, len in *. cbn [words cap] in *.
  destruct (Z.ltb_spec (Z.of_nat sw) (Z.of_nat (length bw))) as [C|C].
  - destruct (get_set_split bw sw ltac:(lia)) as (lo & w & hi & E & L & -> & Hset). cbn [bind].
    rewrite Hset. cbn [bind]. rewrite E in W. apply wf_cons_iff in W as (Wl & Hw & Wh).
    eapply yields_eq; [apply from_buffer_yields|].
    + eapply buffer_ok_same; [exact HB| |]; cbn [words]; rewrite ?E, ?app_length; [|reflexivity].
      apply wf_cons_iff. repeat split; auto; apply (B_bitwise _ _ _ _ lor_bitwise); auto.
    + cbn [words]. rewrite E, <- L. symmetry. apply (op_at _ _ _ _ _ _ lor_bitwise); auto using Z.lor_0_r.
  - rewrite lor_high by (auto; lia). 
    destruct (Z.le_gt_cases (Z.of_nat sw + 1) (Z.max MAX_CAPACITY bc)) as [M|M].
    + destruct (ensure_capacity_spec (mkBuffer bw bc) (Z.of_nat sw + 1)) as (c & -> & H3 & H4 & H5); [auto|cbn [cap]; lia|]. cbn [bind words].
      rewrite push_zeros_spec by (unfold len; lia). cbn [bind].
      assert (len (bw ++ repeat 0 (Z.to_nat (Z.of_nat sw - Z.of_nat (length bw)))) = Z.of_nat sw) as EN
        by (rewrite len_app; unfold len; rewrite repeat_length; lia).
      rewrite push_spec by lia. cbn [bind]. eapply yields_eq; [apply from_buffer_yields|].
      * split; cbn [words cap].
        -- rewrite !wf_app. repeat split; [auto|apply wf_repeat0|]. apply wf_cons; split; [lia|apply wf_nil].
        -- unfold blen. cbn [words]. rewrite len_app, EN. unfold len. simpl length. lia.
      * cbn [words]. rewrite val_app, val_app_zeros, val_single.
        replace (length (bw ++ repeat 0 (Z.to_nat (Z.of_nat sw - Z.of_nat (length bw))))) with sw by (unfold len in EN; lia). lia.
    + assert (ensure_capacity (mkBuffer bw bc) (Z.of_nat sw + 1) = Panic NumberTooLarge) as ->.
      { unfold ensure_capacity, reallocate, blen, len. destruct HB as [_ HB]. unfold blen, len in HB. cbn [cap words] in *.
        rewrite (proj2 (Z.ltb_lt _ _)), check_true, allocate_too_large by lia. reflexivity. }
      cbn [bind]. split; [|reflexivity]. intros HM. exfalso.
      assert (MAXV <= val bw + Bn sw * 2 ^ sb); [|lia]. apply (MAXV_Bn sw); [rewrite MAX_CAPACITY_eq in M; lia|].
      pose proof (mul_ge1 (Bn sw) (2 ^ sb) (Bn_pos sw) (pow2_pos sb ltac:(lia))). pose proof (val_nonneg _ W). lia.
Qed.

Lemma set_bit_yields u n : ubig_ok u -> 0 <= n < 2 ^ ubits -> yields (set_bit u n) (Z.setbit (uval u) n).
Proof.
  intros Hu Hn. destruct u as [w|b]; cbn [set_bit uval].
  - cbn in Hu. destruct (Z.ltb_spec n wbits) as [C|C]; [|apply with_bit_word_slow_yields; auto; lia].
    destruct (shl_w_1 n ltac:(lia)) as [-> H2]. rewrite setbit_pow by lia.
    apply yields_word. apply (B_bitwise _ _ _ _ lor_bitwise); auto.
  - apply with_bit_large_yields; auto.
Qed.

(** Clearing a bit, except in the case src/bits.rs:100-109 gets wrong. *)
Lemma clear_bit_yields u n : ubig_ok u -> 0 <= n -> (n < wbits \/ B <= uval u) -> yields (clear_bit u n) (Z.clearbit (uval u) n).
Proof.
  intros Hu Hn HC. rewrite clearbit_pow by lia. destruct u as [w|b]; cbn [clear_bit uval] in *.
  - cbn in Hu. destruct (Z.ltb_spec n wbits) as [C|C]; [|lia].
    destruct (shl_w_1 n ltac:(lia)) as [-> H2]. apply and_not_word_yields; auto.
  - clear HC. destruct b as [bw bc]. pose proof (Large_buffer_ok _ Hu) as HB. pose proof Hu as (W & L2 & T & LM & C1 & C2). unfold without_bit_large.
    destruct (shift_split n ltac:(lia)) as (sw & sb & E1 & E2 & E3 & Hsb & E4 & E5). rewrite E2, E4, E3, E1.
    destruct (shl_w_1 sb Hsb) as [-> H2]. unfold blen, len in *. cbn [words cap] in *.
    destruct (Z.ltb_spec (Z.of_nat sw) (Z.of_nat (length bw))) as [C|C].
    + destruct (get_set_split bw sw ltac:(lia)) as (lo & w & hi & E & L & -> & Hset). cbn [bind].
      rewrite Hset. cbn [bind]. rewrite E in W. apply wf_cons_iff in W as (Wl & Hw & Wh). rewrite not_w_land by auto.
      eapply yields_eq; [apply from_buffer_yields|].
      * eapply buffer_ok_same; [exact HB| |]; cbn [words]; rewrite ?E, ?app_length; [|reflexivity].
        apply wf_cons_iff. repeat split; auto; apply (B_bitwise _ _ _ _ ldiff_bitwise); auto.
      * cbn [words]. rewrite E, <- L. symmetry. apply (op_at _ _ _ _ _ _ ldiff_bitwise); auto using Z.ldiff_0_r.
    + cbn [bind]. eapply yields_eq; [apply from_buffer_yields; auto|].
      pose proof (val_bound _ W). assert (length bw <= sw)%nat as L by lia. pose proof (Bn_le _ _ L).
      replace (Bn sw * 2 ^ sb) with (0 + Bn sw * 2 ^ sb) by lia. cbn [words]. symmetry.
      replace (Z.ldiff (val bw)) with (Z.ldiff (val bw + Bn sw * 0)) by (f_equal; lia).
      rewrite (Bn_split_op _ _ _ _ _ _ _ ldiff_bitwise), Z.ldiff_0_r, Z.ldiff_0_l by (try lia; pose proof (Bn_pos sw); lia). lia.
Qed.

(** What the code does in the remaining case. *)
Lemma clear_bit_small u n : ubig_ok u -> wbits <= n -> uval u < B -> clear_bit u n = Ok (Small 0).
Proof.
  intros Hu Hn Hv. destruct u as [w|b]; cbn [clear_bit uval] in *.
  - destruct (Z.ltb_spec n wbits); [lia|reflexivity].
  - pose proof (Large_ge _ Hu). lia.
Qed.

(** * Counting bits *)
(** [2^k] is the largest power of two dividing [v]. *)
Definition odd_part (v k : Z) : Prop := 0 <= k /\ exists q, 0 <= q /\ v = (2 * q + 1) * 2 ^ k.

Lemma odd_part_divide v k : odd_part v k -> 0 <= k /\ (2 ^ k | v) /\ ~ (2 ^ (k + 1) | v).
Proof.
  intros (Hk & q & Hq & ->). split; [auto|]. split; [exists (2 * q + 1); reflexivity|].
  intros (c & E). rewrite Z.pow_add_r in E by lia. pose proof (pow2_pos k Hk). change (2 ^ 1) with 2 in E.
  replace (c * (2 ^ k * 2)) with ((2 * c) * 2 ^ k) in E by lia. apply Z.mul_cancel_r in E; lia.
Qed.

Lemma trailing_zeros_w_spec w : 0 < w < B -> odd_part w (trailing_zeros_w w) /\ trailing_zeros_w w < wbits.
Proof.
  intros H. unfold trailing_zeros_w. destruct (Z.eqb_spec w 0); [lia|].
  destruct (z_tz_spec w ltac:(lia)) as (k & E & Hk & Ht). split; [split; [auto|exists k; auto]|].
  apply (Z.pow_lt_mono_r_iff 2); [lia|pose proof wbits_ge; lia|]. change (2 ^ wbits) with B.
  pose proof (pow2_pos _ Ht). nia.
Qed.

Lemma trailing_zeros_loop_spec ws : wf ws -> last ws 0 <> 0 -> len ws <= MAX_LEN -> forall idx, 0 <= idx -> idx + len ws <= MAX_LEN ->
  exists k, trailing_zeros_loop idx ws = Ok (wbits * idx + k) /\ odd_part (val ws) k.
Proof.
  pose proof wbits_ge. pose proof MAX_BIT_LEN_usize.
  induction ws as [|w t IH]; intros W T LM idx Hi HL; [cbn in T; congruence|].
  apply wf_cons in W as [Hw Wt]. cbn [trailing_zeros_loop]. unfold len in *. cbn [length] in *.
  destruct (Z.eqb_spec w 0) as [->|N].
  - destruct t as [|w2 t2]; [cbn in T; congruence|]. destruct (IH Wt T ltac:(lia) (idx + 1) ltac:(lia) ltac:(lia)) as (k & -> & Hk & q & Hq & E).
    exists (wbits + k). split; [f_equal; lia|]. split; [lia|]. exists q. split; [auto|].
    rewrite val_cons, E, Z.pow_add_r by lia. fold B. lia.
  - destruct (trailing_zeros_w_spec w ltac:(lia)) as [(Hk & q & Hq & E) Hlt]. set (k := trailing_zeros_w w) in *.
    exists k. split.
    + rewrite usize_chk_lt; [f_equal; lia|]. split; [nia|]. apply Z.lt_trans with (wbits * MAX_LEN); [nia|auto].
    + split; [auto|]. exists (q + 2 ^ (wbits - k - 1) * val t). pose proof (val_nonneg _ Wt).
      assert (0 <= wbits - k - 1) as HK by lia. pose proof (pow2_pos _ HK). split; [nia|].
      assert (B = 2 * 2 ^ (wbits - k - 1) * 2 ^ k) as EB.
      { rewrite <- Z.pow_succ_r, <- Z.pow_add_r by lia. unfold B. f_equal. lia. }
      rewrite val_cons, E, EB. ring.
Qed.

Lemma ubig_trailing_zeros_spec u : ubig_ok u ->
  (uval u = 0 -> ubig_trailing_zeros u = Ok None) /\
  (uval u <> 0 -> exists k, ubig_trailing_zeros u = Ok (Some k) /\ odd_part (uval u) k).
Proof.
  intros Hu. destruct u as [w|b]; cbn [ubig_trailing_zeros uval].
  - cbn in Hu. destruct (Z.eqb_spec w 0); split; intros; try lia; auto.
    eexists; split; [reflexivity|]. apply trailing_zeros_w_spec. lia.
  - pose proof (Large_ge _ Hu) as HG. pose proof B_ge. destruct Hu as (W & L2 & T & LM & _). split; intros H1; [lia|].
    unfold trailing_zeros_large. rewrite check_true by (apply negb_true_iff, Z.eqb_neq; auto).
    destruct (trailing_zeros_loop_spec _ W T LM 0 ltac:(lia) ltac:(lia)) as (k & -> & Hk). cbn [bind].
    eexists; split; [reflexivity|]. rewrite Z.mul_0_r. auto.
Qed.

Lemma ibig_trailing_zeros_spec x : ibig_ok x ->
  (ival x = 0 -> ibig_trailing_zeros x = Ok None) /\
  (ival x <> 0 -> exists k, ibig_trailing_zeros x = Ok (Some k) /\ odd_part (Z.abs (ival x)) k).
Proof.
  intros Hx. unfold ibig_trailing_zeros. destruct (ubig_trailing_zeros_spec (imag x) (proj1 Hx)) as [H1 H2].
  pose proof (ibig_abs_val _ Hx) as E. rewrite E. split; intros H; [apply H1|apply H2]; lia.
Qed.

Lemma ubig_bit_len_spec u : ubig_ok u -> ubig_bit_len u = Ok (bitlen (uval u)).
Proof.
  intros Hu. destruct u as [w|b]; cbn [ubig_bit_len uval].
  - unfold bit_len_w, bit_len_n, leading_zeros_n. f_equal. lia.
  - pose proof Hu as (W & L2 & T & LM & _). pose proof wbits_ge. pose proof MAX_BIT_LEN_usize. pose proof (Large_ge _ Hu) as HG. pose proof B_ge.
    unfold blen, len in *. rewrite usize_chk_lt by nia. cbn [bind].
    destruct (get_set_split (words b) (length (words b) - 1) ltac:(lia)) as (lo & w & hi & E & L & -> & _). cbn [bind].
    assert (hi = []) as -> by (apply (f_equal (@length Z)) in E; rewrite app_length in E; cbn [length] in E; destruct hi; [reflexivity|simpl in *; lia]).
    rewrite E in T, W. rewrite last_last in T. apply wf_cons_iff in W as (Wl & Hw & _).
    destruct (bitlen_bounds w ltac:(lia)) as [Hb Hp]. pose proof (bitlen_le w _ wbits_nonneg Hw).
    unfold leading_zeros_w, leading_zeros_n. rewrite usize_chk_lt by nia. f_equal. symmetry. apply bitlen_unique; [nia|].
    rewrite E. rewrite val_app, val_single, Bn_pow2. pose proof (val_bound _ Wl) as V. rewrite Bn_pow2 in V.
    set (m := wbits * Z.of_nat (length lo)) in *. assert (0 <= m) by (unfold m; nia).
    replace (Z.of_nat (length (lo ++ [w])) * wbits - (wbits - bitlen w)) with (m + bitlen w)
      by (unfold m; rewrite app_length; cbn [length]; lia).
    replace (m + bitlen w - 1) with (m + (bitlen w - 1)) by lia. rewrite !Z.pow_add_r by lia. split; [|].
    + mle (2 ^ m) (2 ^ (bitlen w - 1)) w. lia.
    + mle (2 ^ m) (w + 1) (2 ^ bitlen w). lia.
Qed.

Lemma is_power_of_two_w_spec w : 0 <= w < B -> is_power_of_two_w w = true <-> exists k, 0 <= k /\ w = 2 ^ k.
Proof.
  intros H. change (is_power_of_two_w w) with (Model.DivWord.is_power_of_two w). split.
  - intros E. destruct (is_power_of_two_true w H E) as [E1 E2]. exists (trailing_zeros_w w). split; [lia|auto].
  - intros (k & Hk & ->). apply is_power_of_two_pow; auto.
Qed.

Lemma pow2_split_B n k x lo : 0 <= k -> 0 <= lo < Bn n -> 0 < x -> lo + Bn n * x = 2 ^ k -> lo = 0 /\ exists j, 0 <= j /\ x = 2 ^ j.
Proof.
  intros Hk Hlo Hx E. rewrite Bn_pow2 in *. set (m := wbits * Z.of_nat n) in *. assert (0 <= m) by (unfold m; pose proof wbits_ge; nia).
  assert (m <= k) as Hmk. { apply (Z.pow_le_mono_r_iff 2); [lia|lia|]. pose proof (pow2_pos m ltac:(lia)). nia. }
  replace k with (m + (k - m)) in E by lia. rewrite Z.pow_add_r in E by lia.
  assert (lo + 2 ^ m * x = 0 + 2 ^ m * 2 ^ (k - m)) as E' by lia.
  apply decomp in E' as [-> ->]; [|lia|pose proof (pow2_pos m ltac:(lia)); lia]. split; [reflexivity|]. exists (k - m). split; [lia|reflexivity].
Qed.

Lemma is_power_of_two_spec u : ubig_ok u -> exists r, is_power_of_two u = Ok r /\ (r = true <-> exists k, 0 <= k /\ uval u = 2 ^ k).
Proof.
  intros Hu. destruct u as [w|b]; cbn [is_power_of_two uval].
  - eexists; split; [reflexivity|]. apply is_power_of_two_w_spec; auto.
  - destruct Hu as (W & L2 & T & LM & _). unfold is_power_of_two_large.
    rewrite check_true by (apply negb_true_iff, Z.eqb_neq; auto). rewrite slice_to_Ok by lia. cbn [bind].
    destruct (get_set_split (words b) (length (words b) - 1) ltac:(lia)) as (lo & w & hi & E & L & -> & _). cbn [bind].
    assert (hi = []) as -> by (apply (f_equal (@length Z)) in E; rewrite app_length in E; cbn [length] in E; destruct hi; [reflexivity|simpl in *; lia]).
    eexists; split; [reflexivity|]. rewrite E in *. rewrite last_last in T. apply wf_cons_iff in W as (Wl & Hw & _).
    rewrite <- L. rewrite firstn_app, Nat.sub_diag, firstn_all. cbn [firstn]. rewrite app_nil_r.
    rewrite andb_true_iff, is_power_of_two_w_spec by auto. rewrite val_app, val_single. pose proof (val_bound _ Wl) as V.
    assert (forallb (fun x => x =? 0) lo = true <-> val lo = 0) as ->.
    { rewrite val_zero_iff by auto. rewrite forallb_forall, Forall_forall. split; intros F x Hx; specialize (F x Hx); lia. }
    split.
    + intros (E0 & k & Hk & ->). rewrite E0. exists (wbits * Z.of_nat (length lo) + k).
      pose proof wbits_ge. split; [nia|]. rewrite Bn_pow2, Z.pow_add_r by nia. lia.
    + intros (k & Hk & EV). apply (pow2_split_B (length lo) k w (val lo)); auto. lia.
Qed.

(** * Next power of two *)
Lemma log2_up_le1 x : x <= 1 -> Z.log2_up x = 0.
Proof. intros. destruct (Z.eq_dec x 1) as [->|]; [reflexivity|]. apply Z.log2_up_nonpos. lia. Qed.

Lemma next_w_spec x : 0 <= x <= B ->
  (match (if x <? B then checked_next_power_of_two_w x else None) with
   | Some p => p = 2 ^ Z.log2_up x /\ p < B
   | None => 2 ^ Z.log2_up x = B
   end).
Proof.
  intros Hx. pose proof wbits_ge. destruct (Z.ltb_spec x B) as [C|C].
  - unfold checked_next_power_of_two_w. assert ((if x <=? 1 then 1 else 2 ^ bitlen (x - 1)) = 2 ^ Z.log2_up x) as ->.
    { destruct (Z.leb_spec x 1) as [D|D].
      - rewrite log2_up_le1 by lia. reflexivity.
      - rewrite Z.log2_up_eqn by lia. unfold bitlen. destruct (Z.eqb_spec (x - 1) 0); [lia|]. f_equal. }
    destruct (Z.ltb_spec (2 ^ Z.log2_up x) B) as [D|D]; [auto|].
    assert (Z.log2_up x <= wbits).
    { destruct (Z.le_gt_cases x 1); [rewrite log2_up_le1 by lia; lia|].
      rewrite <- (Z.log2_up_pow2 wbits) by lia. apply Z.log2_up_le_mono. fold B. lia. }
    apply Z.le_antisymm; [|auto]. unfold B. apply Z.pow_le_mono_r; lia.
  - assert (x = B) as -> by lia. unfold B. rewrite Z.log2_up_pow2 by lia. reflexivity.
Qed.

Lemma log2_up_shift n lo l c : 0 <= lo < Bn n -> 0 < l -> c = (if lo =? 0 then 0 else 1) ->
  2 ^ Z.log2_up (lo + Bn n * l) = Bn n * 2 ^ Z.log2_up (l + c).
Proof.
  intros Hlo Hl ->. rewrite Bn_pow2 in *. set (m := wbits * Z.of_nat n) in *. assert (0 <= m) by (unfold m; pose proof wbits_ge; nia).
  pose proof (pow2_pos m ltac:(lia)) as PM.
  pose proof (Z.log2_up_nonneg (l + (if lo =? 0 then 0 else 1))) as NN. rewrite <- Z.pow_add_r by lia. f_equal.
  destruct (Z.eqb_spec lo 0) as [->|N].
  - rewrite Z.add_0_l, Z.add_0_r in *. destruct (Z.eq_dec l 1) as [->|N1].
    + rewrite Z.mul_1_r, Z.log2_up_pow2 by lia. change (Z.log2_up 1) with 0. lia.
    + pose proof (Z.log2_up_spec l ltac:(lia)) as S. pose proof (Z.log2_up_pos l ltac:(lia)).
      apply Z.log2_up_unique; [lia|]. unfold Z.pred in *.
      replace (m + Z.log2_up l + -1) with (m + (Z.log2_up l + -1)) by lia. rewrite !(Z.pow_add_r 2 m) by lia.
      split; [apply mul_lt_l|apply mul_le_l]; lia.
  - pose proof (Z.log2_up_spec (l + 1) ltac:(lia)) as S. pose proof (Z.log2_up_pos (l + 1) ltac:(lia)).
    apply Z.log2_up_unique; [lia|]. unfold Z.pred in *.
    replace (m + Z.log2_up (l + 1) + -1) with (m + (Z.log2_up (l + 1) + -1)) by lia. rewrite !(Z.pow_add_r 2 m) by lia. split.
    + mle (2 ^ m) (2 ^ (Z.log2_up (l + 1) + -1)) l. lia.
    + mle (2 ^ m) (l + 1) (2 ^ Z.log2_up (l + 1)). lia.
Qed.

Lemma clear_from_nonzero_spec ws : wf ws -> exists c, clear_from_nonzero ws = (repeat 0 (length ws), c) /\
  c = (if val ws =? 0 then 0 else 1).
Proof.
  induction ws as [|w t IH]; intros W; [exists 0; split; reflexivity|].
  apply wf_cons in W as [Hw Wt]. cbn [clear_from_nonzero length repeat]. rewrite val_cons. pose proof (val_nonneg _ Wt). pose proof B_pos.
  destruct (Z.eqb_spec w 0) as [->|N].
  - destruct (IH Wt) as (c & -> & ->). eexists; split; [reflexivity|].
    destruct (Z.eqb_spec (val t) 0) as [->|N]; [rewrite Z.mul_0_r; reflexivity|]. destruct (Z.eqb_spec (0 + B * val t) 0); [nia|reflexivity].
  - eexists; split; [reflexivity|]. destruct (Z.eqb_spec (w + B * val t) 0); [nia|reflexivity].
Qed.

Lemma next_power_of_two_large_yields b : ubig_ok (Large b) -> yields (next_power_of_two_large b) (2 ^ Z.log2_up (val (words b))).
Proof.
  intros Hb. pose proof (Large_buffer_ok _ Hb) as HB. destruct Hb as (W & L2 & T & LM & C1 & C2). unfold next_power_of_two_large.
  rewrite check_true by (apply negb_true_iff, Z.eqb_neq; auto). destruct b as [bw bc]. cbn [words cap] in *.
  destruct (get_set_split bw (length bw - 1) ltac:(lia)) as (lo & w & hi & E & L & _ & _).
  assert (hi = []) as -> by (apply (f_equal (@length Z)) in E; rewrite app_length in E; cbn [length] in E; destruct hi; [reflexivity|simpl in *; lia]).
  subst bw. rewrite last_last in T. apply wf_cons_iff in W as (Wl & Hw & _). rewrite <- L. unfold on_buffer.
  destruct (clear_from_nonzero_spec lo Wl) as (c & EC & Ec).
  rewrite (on_words_ok _ _ (repeat 0 (length lo) ++ [w]) c).
  2:{ cbn [words]. change (lo ++ [w]) with ([] ++ lo ++ [w]). rewrite on_window_app by (simpl; lia). cbn [bind]. rewrite EC. reflexivity. }
  cbn [bind words cap]. rewrite val_app, val_single, (log2_up_shift _ _ _ c) by (auto using val_bound; lia).
  rewrite get_at by apply repeat_length. cbn [bind].
  assert (0 <= c <= 1) as Hc by (rewrite Ec; destruct (val lo =? 0); lia).
  pose proof (next_w_spec (w + c) ltac:(lia)) as N. unfold checked_add_w.
  replace (match (if w + c <? B then Some (w + c) else None) with Some x => checked_next_power_of_two_w x | None => None end)
    with (if w + c <? B then checked_next_power_of_two_w (w + c) else None) by (destruct (w + c <? B); reflexivity).
  assert (length (repeat 0 (length lo) ++ [w]) = length (lo ++ [w])) as EL by (rewrite !app_length, repeat_length; reflexivity).
  pose proof (pow2_pos _ (Z.log2_up_nonneg (w + c))) as PP.
  destruct (if w + c <? B then checked_next_power_of_two_w (w + c) else None) as [p|].
  - destruct N as [-> N]. rewrite set_at by apply repeat_length. cbn [bind]. eapply yields_eq; [apply from_buffer_yields|].
    + eapply buffer_ok_same; [exact HB| |].
      * apply wf_cons_iff. split; [apply wf_repeat0|]. split; [lia|apply wf_nil].
      * cbn [words]. rewrite !app_length, repeat_length. reflexivity.
    + cbn [words]. rewrite val_app, val_repeat0, repeat_length, val_single. lia.
  - rewrite N, set_at by apply repeat_length. cbn [bind]. rewrite !app_length in *. cbn [length] in *. unfold len in *. rewrite !app_length in *. cbn [length] in *.
    pose proof MAX_LEN_usize. pose proof MAX_LEN_ge. rewrite usize_chk_ok by lia. cbn [bind].
    destruct (ensure_capacity_spec (mkBuffer (repeat 0 (length lo) ++ [0]) bc) (Z.of_nat (length lo + 1) + 1)) as (cp & -> & H3 & H4 & H5).
    { eapply buffer_ok_same; [exact HB| |].
      * apply wf_cons_iff. split; [apply wf_repeat0|]. pose proof B_pos. split; [lia|apply wf_nil].
      * cbn [words]. rewrite !app_length, repeat_length. reflexivity. }
    { rewrite MAX_CAPACITY_eq. lia. }
    cbn [bind words]. assert (len (repeat 0 (length lo) ++ [0]) = Z.of_nat (length lo + 1)) as EN by (rewrite len_app; unfold len; rewrite repeat_length; simpl; lia).
    rewrite push_spec by lia. cbn [bind]. eapply yields_eq; [apply from_buffer_yields|].
    + pose proof B_ge. split; cbn [words cap].
      * rewrite !wf_app. repeat split; [apply wf_repeat0|..]; (apply wf_cons; split; [lia|apply wf_nil]).
      * unfold blen. cbn [words]. rewrite len_app, EN. unfold len. simpl length. lia.
    + cbn [words]. rewrite !val_app, val_repeat0, app_length, repeat_length, !val_single. cbn [length]. rewrite Bn_add, Bn_1. lia.
Qed.

Lemma next_power_of_two_v_yields u : ubig_ok u -> yields (next_power_of_two_v u) (2 ^ Z.log2_up (uval u)).
Proof.
  intros Hu. destruct u as [w|b]; cbn [next_power_of_two_v uval]; [|apply next_power_of_two_large_yields; auto].
  cbn in Hu. pose proof (next_w_spec w ltac:(lia)) as N. rewrite (proj2 (Z.ltb_lt _ _)) in N by lia.
  pose proof (pow2_pos _ (Z.log2_up_nonneg w)) as PP.
  destruct (checked_next_power_of_two_w w) as [p|].
  - destruct N as [-> N]. apply yields_word. lia.
  - rewrite N. pose proof B_ge. rewrite double_word_val by lia. eapply yields_eq; [apply ubig_from_dword_yields; nia|lia].
Qed.
Lemma next_power_of_two_r_yields u : ubig_ok u -> yields (next_power_of_two_r u) (2 ^ Z.log2_up (uval u)).
Proof.
  intros Hu. unfold next_power_of_two_r. destruct (ubig_clone_spec u Hu) as (u' & -> & Hu' & <-). cbn [bind].
  apply next_power_of_two_v_yields; auto.
Qed.

(** [2^(log2_up v)] is the least power of two that is at least [v]. *)
Lemma log2_up_least v : 0 <= v -> v <= 2 ^ Z.log2_up v /\ forall k, 0 <= k -> v <= 2 ^ k -> 2 ^ Z.log2_up v <= 2 ^ k.
Proof.
  intros Hv. split.
  - destruct (Z.le_gt_cases v 1); [rewrite log2_up_le1 by lia; cbn; lia|]. apply Z.log2_up_spec; lia.
  - intros k Hk H. apply Z.pow_le_mono_r; [lia|]. destruct (Z.le_gt_cases v 0); [rewrite log2_up_le1 by lia; lia|].
    apply Z.log2_up_le_pow2; auto.
Qed.

End BitCountProofs.
