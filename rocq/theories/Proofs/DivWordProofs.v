(** Correctness of division by a single word (src/div/mod.rs:29-109). *)
From Verif Require Import Proofs.Basics Proofs.ShiftProofs Proofs.FastDivideProofs.
From Verif Require Import Model.Shift Model.FastDivide Model.DivWord.

Section DivWordProofs.
Context {A : Arch} {AOK : ArchOk A}.

Lemma pos_tz_spec p : exists k, Zpos p = (2 * k + 1) * 2 ^ pos_tz p /\ 0 <= k /\ 0 <= pos_tz p.
Proof.
  induction p as [p IH|p IH|]; cbn [pos_tz].
  - exists (Zpos p). rewrite Z.pow_0_r. lia.
  - destruct IH as (k & E & H1 & H2). exists k. rewrite Z.pow_add_r by lia.
    rewrite Pos2Z.inj_xO, E. change (2 ^ 1) with 2. lia.
  - exists 0. rewrite Z.pow_0_r. lia.
Qed.

Lemma z_tz_spec z : 0 < z -> exists k, z = (2 * k + 1) * 2 ^ z_tz z /\ 0 <= k /\ 0 <= z_tz z.
Proof. destruct z; try lia. intros _. apply pos_tz_spec. Qed.

(** [w & (w-1) = 0] exactly for powers of two. *)
Lemma is_power_of_two_true w : 0 <= w < B -> is_power_of_two w = true ->
  w = 2 ^ trailing_zeros_w w /\ 0 <= trailing_zeros_w w < wbits.
Proof.
  intros H E. unfold is_power_of_two in E. apply andb_prop in E as [N L].
  apply negb_true_iff, Z.eqb_neq in N. apply Z.eqb_eq in L.
  unfold trailing_zeros_w. destruct (Z.eqb_spec w 0); [lia|].
  destruct (z_tz_spec w ltac:(lia)) as (k & Ew & Hk & Ht).
  set (t := z_tz w) in *. pose proof (pow2_pos t Ht) as Pt.
  assert (k = 0) as ->.
  { destruct (Z.eq_dec k 0); auto. exfalso.
    (* bit at position log2 w is set in both w and w - 1 *)
    assert (0 < k) as Pk by lia.
    assert (2 ^ Z.log2 w <= w - 1) as G.
    { pose proof (Z.log2_spec w ltac:(lia)) as [S _].
      destruct (Z.eq_dec (2 ^ Z.log2 w) w) as [E2|]; [|lia]. exfalso.
      pose proof (Z.log2_nonneg w) as NL.
      destruct (Z.lt_ge_cases t (Z.log2 w)) as [Lt|Ge].
      - replace (2 ^ Z.log2 w) with (2 * 2 ^ (Z.log2 w - t - 1) * 2 ^ t) in E2.
        2:{ rewrite <- Z.pow_succ_r, <- Z.pow_add_r by lia. f_equal. lia. }
        rewrite Ew in E2. apply Z.mul_reg_r in E2; lia.
      - assert (w <= 2 ^ t) by (rewrite <- E2; apply Z.pow_le_mono_r; lia).
        mle (2 ^ t) 3 (2 * k + 1). lia. }
    pose proof (Z.log2_spec w ltac:(lia)) as [_ S].
    assert (Z.log2 (w - 1) = Z.log2 w) as EL.
    { apply Z.log2_unique; [apply Z.log2_nonneg|]. lia. }
    pose proof (Z.bit_log2 w ltac:(lia)) as T1.
    pose proof (Z.log2_pos w). pose proof (pow2_pos (Z.log2 w) (Z.log2_nonneg w)).
    pose proof (Z.bit_log2 (w - 1) ltac:(lia)) as T2. rewrite EL in T2.
    apply (f_equal (fun z => Z.testbit z (Z.log2 w))) in L.
    rewrite Z.land_spec, T1, T2, Z.bits_0 in L. discriminate. }
  split; [lia|]. split; [lia|].
  assert (2 ^ t < 2 ^ wbits) as Lt by (fold B; lia).
  apply Z.pow_lt_mono_r_iff in Lt; pose proof wbits_ge; lia.
Qed.

Lemma is_power_of_two_pow k : 0 <= k -> is_power_of_two (2 ^ k) = true.
Proof.
  intros H. unfold is_power_of_two. pose proof (pow2_pos k H).
  replace (2 ^ k - 1) with (Z.ones k) by (rewrite Z.ones_equiv; lia).
  rewrite Z.land_ones, Z.mod_same by lia. lia.
Qed.

Lemma fast_div_loop_spec f d : fdn_ok f d -> forall ws rem0, wf ws -> 0 <= rem0 < d ->
  exists ws' r, fast_div_loop ws f rem0 = Ok (ws', r) /\ length ws' = length ws /\ wf ws' /\
    0 <= r < d /\ val ws + Bn (length ws) * rem0 = val ws' * d + r.
Proof.
  intros Hf. pose proof Hf as (_ & D1 & D2 & _). pose proof B_ge as HB.
  induction ws as [|w t IH]; intros rem0 Hw Hr; cbn [fast_div_loop].
  - do 2 eexists; split; [reflexivity|]. simpl. rewrite Bn_0. repeat split; auto; lia.
  - apply wf_cons in Hw as [Hw Ht]. destruct (IH rem0 Ht Hr) as (t' & r & -> & L & W & R & V).
    cbn [bind]. rewrite double_word_val by lia.
    assert (0 <= w + B * r < d * B) as Ra by (mle B r (d - 1); mnn B r; lia).
    rewrite (fdn_div_rem_spec f d) by auto. cbn [bind].
    do 2 eexists; split; [reflexivity|]. simpl length. rewrite wf_cons, L, Bn_S, !val_cons.
    pose proof (Z.div_mod (w + B * r) d ltac:(lia)) as E.
    pose proof (Z.mod_pos_bound (w + @B A * r) d ltac:(lia)).
    mulB V. repeat split; auto; try lia.
    + apply Z.div_pos; lia.
    + apply Z.div_lt_upper_bound; lia.
Qed.

Lemma fast_div_by_word_spec ws rhs f : wf ws -> 0 < rhs < B ->
  fdn_ok f (rhs * 2 ^ leading_zeros_w rhs) ->
  exists ws', fast_div_by_word_in_place ws rhs f = Ok (ws', val ws mod rhs) /\
    length ws' = length ws /\ wf ws' /\ val ws' = val ws / rhs.
Proof.
  intros Hw Hr Hf. unfold fast_div_by_word_in_place.
  pose proof (leading_zeros_w_lt rhs Hr) as Rs. set (s := leading_zeros_w rhs) in *.
  pose proof (pow2_pos s ltac:(lia)) as Ps.
  destruct (shl_in_place_spec ws s Hw Rs) as (ws1 & c & -> & L1 & W1 & Rc & V1). cbn [bind].
  pose proof Hf as (_ & D1 & D2 & _). pose proof B_ge as HB.
  destruct (fast_div_loop_spec f _ Hf ws1 c W1) as (ws2 & r & -> & L2 & W2 & R2 & V2).
  { mle (2 ^ s) 1 rhs. lia. }
  cbn [bind]. rewrite L1, V1 in V2.
  assert (exists r', r = r' * 2 ^ s /\ 0 <= r' < rhs /\ val ws = val ws2 * rhs + r') as (r' & -> & R3 & V3).
  { exists (val ws - val ws2 * rhs).
    assert (r = (val ws - val ws2 * rhs) * 2 ^ s) as E by lia.
    split; [exact E|]. split; [|lia]. split.
    - apply mul_le_cancel with (2 ^ s); lia.
    - apply mul_lt_cancel with (2 ^ s); lia. }
  exists ws2. split; [|split; [lia|split; [auto|]]].
  - unfold shr_w. rewrite Z.shiftr_div_pow2, Z.div_mul by lia. do 2 f_equal.
    symmetry. apply mod_eq with (val ws2); lia.
  - symmetry. apply div_eq with r'; lia.
Qed.

Lemma shl_w_norm rhs : 0 < rhs < B -> shl_w rhs (leading_zeros_w rhs) = rhs * 2 ^ leading_zeros_w rhs.
Proof.
  intros H. pose proof (leading_zeros_w_lt rhs H). pose proof (normalize_word rhs H) as [N1 N2].
  unfold shl_w. rewrite Z.shiftl_mul_pow2 by lia. apply Z.mod_small. split; [|lia].
  apply Z.mul_nonneg_nonneg; [lia|]. pose proof (pow2_pos (leading_zeros_w rhs)); lia.
Qed.

Lemma fdn_new_norm rhs : 0 < rhs < B ->
  exists f, fdn_new (shl_w rhs (leading_zeros_w rhs)) = Ok f /\ fdn_ok f (rhs * 2 ^ leading_zeros_w rhs).
Proof.
  intros H. rewrite shl_w_norm by auto. pose proof (normalize_word rhs H) as [N1 N2].
  apply fdn_new_spec; auto.
Qed.

Lemma div_by_word_spec ws rhs : wf ws -> 0 < rhs < B ->
  exists ws', div_by_word_in_place ws rhs = Ok (ws', val ws mod rhs) /\
    length ws' = length ws /\ wf ws' /\ val ws' = val ws / rhs.
Proof.
  intros Hw Hr. unfold div_by_word_in_place. rewrite check_true by lia.
  destruct ws as [|w t].
  { exists []. cbn [val]. rewrite Zmod_0_l, Zdiv_0_l. auto using wf_nil. }
  remember (w :: t) as ws eqn:Ew. clear Ew w t.
  destruct (is_power_of_two rhs) eqn:Ep.
  - apply is_power_of_two_true in Ep as [E R]; [|lia].
    set (s := trailing_zeros_w rhs) in *.
    destruct (shr_in_place_spec ws s Hw R) as (ws' & rem & -> & L & W & Rr & V).
    rewrite E. exists ws'. split; [|split; [auto|split; [auto|]]].
    + do 2 f_equal. symmetry. apply mod_eq with (val ws'); lia.
    + symmetry. apply div_eq with rem; lia.
  - destruct (fdn_new_norm rhs Hr) as (f & -> & Hf). cbn [bind].
    apply fast_div_by_word_spec; auto.
Qed.

Lemma fast_rem_loop_spec f d : fdn_ok f d -> forall rws rem, wf rws -> 0 <= rem < d ->
  exists r, fast_rem_loop rws f rem = Ok r /\
    r = (val (rev rws) + Bn (length rws) * rem) mod d.
Proof.
  intros Hf. pose proof Hf as (_ & D1 & D2 & _). pose proof B_ge as HB.
  induction rws as [|w t IH]; intros rem Hw Hr; cbn [fast_rem_loop].
  - eexists; split; [reflexivity|]. simpl. rewrite Bn_0, Z.mod_small; lia.
  - apply wf_cons in Hw as [Hw Ht]. rewrite double_word_val by lia.
    assert (0 <= w + B * rem < d * B) as Ra by (mle B rem (d - 1); mnn B rem; lia).
    rewrite (fdn_div_rem_spec f d) by auto. cbn [bind].
    pose proof (Z.mod_pos_bound (w + @B A * rem) d ltac:(lia)) as Rm.
    destruct (IH ((w + B * rem) mod d) Ht Rm) as (r & -> & ->). eexists; split; [reflexivity|].
    simpl rev. simpl length. rewrite val_app, val_single, rev_length, Bn_S.
    rewrite <- Z.add_mod_idemp_r, Z.mul_mod_idemp_r, Z.add_mod_idemp_r by lia.
    f_equal. ring.
Qed.

Lemma fast_rem_by_normalized_word_spec ws f d : wf ws -> fdn_ok f d ->
  fast_rem_by_normalized_word ws f = Ok (val ws mod d).
Proof.
  intros Hw Hf. pose proof Hf as (_ & D1 & D2 & _). pose proof B_ge as HB.
  unfold fast_rem_by_normalized_word. pose proof (wf_rev _ Hw) as Hw'.
  rewrite <- (rev_involutive ws) at 2. destruct (rev ws) as [|w t].
  { simpl. rewrite Z.mod_0_l by lia. reflexivity. }
  apply wf_cons in Hw' as [Hw' Ht].
  rewrite (fdn_div_rem_word_spec f d) by auto. cbn [bind].
  pose proof (Z.mod_pos_bound w d ltac:(lia)) as Rm.
  destruct (fast_rem_loop_spec f d Hf t (w mod d) Ht Rm) as (r & -> & ->).
  f_equal. simpl rev. rewrite val_app, val_single, rev_length.
  rewrite <- Z.add_mod_idemp_r, Z.mul_mod_idemp_r, Z.add_mod_idemp_r by lia. reflexivity.
Qed.

Lemma rem_by_word_spec ws rhs : wf ws -> 0 < rhs < B ->
  rem_by_word ws rhs = Ok (val ws mod rhs).
Proof.
  intros Hw Hr. unfold rem_by_word. rewrite check_true by lia. pose proof B_ge as HB.
  destruct ws as [|w t]; [cbn [val]; rewrite Zmod_0_l; reflexivity|].
  destruct (is_power_of_two rhs) eqn:Ep.
  - apply is_power_of_two_true in Ep as [E R]; [|lia]. rewrite word_chk_ok by lia. cbn [bind].
    set (s := trailing_zeros_w rhs) in *. rewrite E.
    replace (2 ^ s - 1) with (Z.ones s) by (rewrite Z.ones_equiv; lia).
    rewrite Z.land_ones by lia. f_equal. rewrite val_cons.
    rewrite (B_split s) by lia. rewrite <- Z.mul_assoc, (Z.mul_comm (2 ^ s)).
    rewrite Z.mod_add by (pose proof (pow2_pos s); lia). reflexivity.
  - destruct (fdn_new_norm rhs Hr) as (f & -> & Hf). cbn [bind].
    rewrite (fast_rem_by_normalized_word_spec _ f _ Hw Hf). cbn [bind].
    pose proof Hf as (_ & D1 & D2 & _).
    pose proof (leading_zeros_w_lt rhs Hr) as Rs. set (s := leading_zeros_w rhs) in *.
    pose proof (pow2_pos s ltac:(lia)) as Ps.
    set (x := val (w :: t)). set (d := rhs * 2 ^ s) in *.
    assert (2 ^ s <= B) as Lp by (unfold B; apply Z.pow_le_mono_r; lia).
    pose proof (Z.mod_pos_bound x d ltac:(lia)) as Rm.
    unfold shl_dw, extend_word. rewrite Z.shiftl_mul_pow2 by lia.
    assert (0 <= x mod d * 2 ^ s < d * B) as Ra.
    { mnn (x mod d) (2 ^ s). mle (x mod d) (2 ^ s) B. mlt B (x mod d) d. lia. }
    rewrite Z.mod_small by (mle B d B; lia).
    rewrite (fdn_div_rem_spec f d) by auto. cbn [bind].
    f_equal. unfold d. rewrite Z.mul_mod_distr_r by lia.
    unfold shr_w. rewrite Z.shiftr_div_pow2, Z.div_mul by lia.
    symmetry. apply Znumtheory.Zmod_div_mod; try lia. exists (2 ^ s). ring.
Qed.

End DivWordProofs.
