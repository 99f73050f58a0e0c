(** Shifts of UBig and IBig. *)
From Verif Require Import Model.Base Model.Words Model.Shift Model.Memory Model.Buffer Model.UBig Model.IBig
  Model.Convert Model.AddOps Model.MulOps Model.ShiftOps Spec.Val Spec.Num Proofs.Basics Proofs.ShiftProofs
  Proofs.DivProofs Proofs.BufferProofs Proofs.AddOpsProofs Proofs.ConvertProofs Proofs.MulOpsProofs.
From Coq Require Import Lia.

Section ShiftOpsProofs.
Context {A : Arch} {AOK : ArchOk A}.

Lemma div_self_bound x p : 0 <= x -> 0 < p -> 0 <= x / p <= x.
Proof. intros. split; [apply Z.div_pos; lia|]. apply Z.div_le_upper_bound; nia. Qed.
Lemma mul_ge1 x y : 0 < x -> 0 < y -> x <= x * y.
Proof. intros. nia. Qed.
(** The value of a shifted number from its parts. *)
Lemma shl_combine b p v w c l : w + l * c = v * p -> b * w + b * (l * c) = v * (b * p).
Proof. intros H. rewrite <- Z.mul_add_distr_l, H. ring. Qed.

Lemma usize_chk_lt z : 0 <= z < 2 ^ ubits -> usize_chk z = Ok z.
Proof.
  intros H. unfold usize_chk, checked. rewrite (proj2 (Z.leb_le _ _)), (proj2 (Z.ltb_lt _ _)) by lia. reflexivity.
Qed.

(** A shift amount as a number of words and a number of bits. *)
Lemma shift_split rhs : 0 <= rhs -> exists sw sb, rhs / wbits = Z.of_nat sw /\ rhs mod wbits = sb /\
  Z.to_nat (rhs / wbits) = sw /\ 0 <= sb < wbits /\ 2 ^ rhs = Bn sw * 2 ^ sb /\ rhs = wbits * Z.of_nat sw + sb.
Proof.
  intros H. pose proof wbits_ge. exists (Z.to_nat (rhs / wbits)), (rhs mod wbits).
  assert (0 <= rhs / wbits) by (apply Z.div_pos; lia). pose proof (Z.mod_pos_bound rhs (@wbits A) ltac:(lia)).
  pose proof (Z.div_mod rhs (@wbits A) ltac:(lia)) as D. rewrite Z2Nat.id by auto. repeat split; try lia.
  rewrite Bn_pow2, Z2Nat.id, <- Z.pow_add_r by lia. f_equal. lia.
Qed.

Lemma usize_words rhs : 0 <= rhs < 2 ^ ubits -> 16 * (rhs / wbits) <= 2 ^ ubits /\ 65536 <= 2 ^ ubits.
Proof.
  intros H. pose proof wbits_ge. split.
  - pose proof (Z.mul_div_le rhs (@wbits A) ltac:(lia)). assert (0 <= rhs / wbits) by (apply Z.div_pos; lia). nia.
  - change 65536 with (2 ^ 16). apply Z.pow_le_mono_r; [lia|]. apply ubits_ge.
Qed.

Lemma usize_words_chk rhs k n : 0 <= rhs < 2 ^ ubits -> 0 <= k <= MAX_LEN -> 0 <= n <= 2 ->
  usize_chk (rhs / wbits + k + n) = Ok (rhs / wbits + k + n).
Proof.
  intros H Hk Hn. destruct (usize_words rhs) as [H1 H2]; [lia|]. pose proof MAX_LEN_usize. pose proof wbits_ge.
  assert (0 <= rhs / wbits) by (apply Z.div_pos; lia).
  apply usize_chk_lt. lia.
Qed.

Lemma MAXV_Bn n z : MAX_LEN <= Z.of_nat n -> Bn n <= z -> MAXV <= z.
Proof. intros H1 H2. apply MAXV_lt_Bn in H1. lia. Qed.

Lemma shl_word_yields w rhs : 0 < w < B -> 0 <= rhs < 2 ^ ubits -> yields (shl_word w rhs) (w * 2 ^ rhs).
Proof.
  intros Hw Hr. unfold shl_word, extend_word. rewrite check_true by lia. pose proof wbits_ge.
  assert (forall s, 0 <= s <= wbits -> shl_dw w s = w * 2 ^ s /\ 0 <= w * 2 ^ s < B * B) as HS.
  { intros s Hs. unfold shl_dw. rewrite Z.shiftl_mul_pow2 by lia.
    assert (0 < 2 ^ s <= B) by (split; [apply pow2_pos; lia|unfold B; apply Z.pow_le_mono_r; lia]).
    assert (0 <= w * 2 ^ s < B * B) by nia. rewrite Z.mod_small by lia. auto. }
  destruct (Z.leb_spec rhs wbits) as [C|C].
  - destruct (HS rhs ltac:(lia)) as [-> H1]. apply ubig_from_dword_yields; auto.
  - unfold shl_word_slow. pose proof (usize_words_chk rhs 0 2 Hr ltac:(pose proof MAX_LEN_ge; lia) ltac:(lia)) as EC.
    rewrite Z.add_0_r in EC.
    destruct (shift_split rhs ltac:(lia)) as (sw & sb & E1 & E2 & E3 & Hsb & E4 & E5).
    rewrite E2, E3, E4. rewrite E1 in *. destruct (HS sb ltac:(lia)) as [E6 H6]. unfold extend_word. rewrite E6.
    set (P := w * 2 ^ sb) in *. pose proof B_pos. unfold split_double_word. rewrite Z.shiftr_div_pow2 by lia. fold B.
    assert (0 <= P / B < B) as Hhi by (split; [apply Z.div_pos; lia|apply Z.div_lt_upper_bound; lia]).
    rewrite (Z.mod_small (P / B)) by lia. pose proof (Z.mod_pos_bound P (@B A) ltac:(lia)).
    rewrite EC. cbn [bind].
    replace (w * (Bn sw * 2 ^ sb)) with (Bn sw * P) by (unfold P; lia).
    destruct (Z.le_gt_cases (Z.of_nat sw + 2) MAX_CAPACITY) as [M|M].
    + destruct (allocate_spec (Z.of_nat sw + 2)) as (c & -> & Hc & _); [lia|]. cbn [bind].
      rewrite push_zeros_spec by (unfold len; simpl length; lia). cbn [bind app].
      rewrite push_spec by (unfold len; rewrite repeat_length; lia). cbn [bind].
      rewrite push_spec by (rewrite len_app; unfold len; rewrite repeat_length; simpl length; lia). cbn [bind].
      eapply yields_eq; [apply from_buffer_yields|].
      * split; cbn [words cap].
        -- rewrite !wf_app. repeat split; [apply wf_repeat0|..]; (apply wf_cons; split; [|apply wf_nil]); auto.
        -- unfold blen. cbn [words]. rewrite !len_app. unfold len. rewrite repeat_length. simpl length. lia.
      * cbn [words]. rewrite <- app_assoc, val_app, val_repeat0, repeat_length. cbn [app val].
        rewrite (Z.div_mod P B) at 3 by lia. lia.
    + rewrite allocate_too_large by lia. cbn [bind]. split; [|reflexivity]. intros HM. exfalso.
      assert (MAXV <= Bn sw * P); [|lia]. apply (MAXV_Bn sw); [rewrite MAX_CAPACITY_eq in M; lia|].
      apply mul_ge1; [apply Bn_pos|]. apply Z.mul_pos_pos; [lia|apply pow2_pos; lia].
Qed.

Lemma shl_ref_large_yields ws rhs : wf ws -> (2 <= length ws)%nat -> len ws <= MAX_LEN -> last ws 0 <> 0 ->
  0 <= rhs < 2 ^ ubits -> yields (shl_ref_large ws rhs) (val ws * 2 ^ rhs).
Proof.
  intros W L2 LM T Hr. unfold shl_ref_large. pose proof (len_nonneg ws).
  rewrite usize_words_chk by lia. destruct (shift_split rhs ltac:(lia)) as (sw & sb & E1 & E2 & E3 & Hsb & E4 & E5).
  rewrite E2, E3, E4. rewrite E1 in *. cbn [bind].
  destruct (shl_in_place_spec ws sb W Hsb) as (ws' & c & ES & L' & W' & Hc & V').
  assert (c < B) as HcB by (apply Z.lt_le_trans with (2 ^ sb); [lia|unfold B; apply Z.pow_le_mono_r; lia]).
  destruct (Z.le_gt_cases (Z.of_nat sw + len ws + 1) MAX_CAPACITY) as [M|M].
  - destruct (allocate_spec (Z.of_nat sw + len ws + 1)) as (cp & -> & Hcp & _); [lia|]. cbn [bind].
    rewrite push_zeros_spec by (unfold len; simpl length; lia). cbn [bind app].
    rewrite extend_spec by (unfold len in *; rewrite repeat_length; lia). cbn [bind]. unfold on_buffer.
    rewrite (on_words_ok _ _ (repeat 0 sw ++ ws') c).
    2:{ cbn [words]. rewrite on_window_end by (rewrite ?app_length, repeat_length; lia). rewrite ES. reflexivity. }
    cbn [bind cap]. rewrite push_spec by (rewrite len_app; unfold len in *; rewrite repeat_length; lia). cbn [bind].
    eapply yields_eq; [apply from_buffer_yields|].
    + split; cbn [words cap].
      * rewrite !wf_app. repeat split; [apply wf_repeat0|auto|apply wf_cons; split; [lia|apply wf_nil]].
      * unfold blen. cbn [words]. rewrite !len_app. unfold len in *. rewrite repeat_length. simpl length. lia.
    + cbn [words]. rewrite <- app_assoc, val_app, val_repeat0, repeat_length, val_app, val_single, L', Z.mul_add_distr_l.
      apply shl_combine; auto.
  - rewrite allocate_too_large by lia. cbn [bind]. split; [|reflexivity]. intros HM. exfalso.
    assert (MAXV <= val ws * (Bn sw * 2 ^ sb)); [|lia].
    apply (MAXV_Bn (length ws - 1 + sw)); [rewrite MAX_CAPACITY_eq in M; unfold len in *; lia|].
    rewrite Bn_add. pose proof (val_top ws W T). pose proof (Bn_pos sw). pose proof (Bn_pos (length ws - 1)).
    assert (0 < 2 ^ sb) by (apply pow2_pos; lia). pose proof (mul_ge1 (Bn sw) (2 ^ sb)).
    apply Z.mul_le_mono_nonneg; lia.
Qed.

Lemma shl_large_yields b rhs : ubig_ok (Large b) -> 
  0 <= rhs < 2 ^ ubits -> yields (shl_large b rhs) (val (words b) * 2 ^ rhs).
Proof.
  intros Hb Hr. pose proof Hb as (W & L2 & T & LM & C1 & C2). unfold shl_large. pose proof (len_nonneg (words b)).
  replace (blen b + rhs / wbits + 1) with (rhs / wbits + blen b + 1) by lia.
  rewrite usize_words_chk by (unfold blen; lia). cbn [bind].
  destruct (Z.ltb_spec (cap b) (rhs / wbits + blen b + 1)) as [C|C].
  - apply shl_ref_large_yields; auto.
  - destruct (shift_split rhs ltac:(lia)) as (sw & sb & E1 & E2 & E3 & Hsb & E4 & E5).
    rewrite E2, E3, E4. rewrite E1 in *.
    destruct (shl_in_place_spec (words b) sb W Hsb) as (ws' & c & ES & L' & W' & Hc & V').
    assert (c < B) as HcB by (apply Z.lt_le_trans with (2 ^ sb); [lia|unfold B; apply Z.pow_le_mono_r; lia]).
    rewrite (on_words_ok _ _ _ _ ES). cbn [bind]. unfold blen in *.
    rewrite push_spec by (unfold len in *; lia). cbn [bind]. unfold push_zeros_front, blen. cbn [words cap].
    rewrite check_true by (rewrite len_app; unfold len in *; simpl length; lia).
    cbn [bind]. eapply yields_eq; [apply from_buffer_yields|].
    + split; cbn [words cap].
      * rewrite !wf_app. repeat split; [apply wf_repeat0|auto|apply wf_cons; split; [lia|apply wf_nil]].
      * unfold blen. cbn [words]. rewrite !len_app. unfold len in *. rewrite repeat_length. simpl length. lia.
    + cbn [words]. rewrite val_app, val_repeat0, repeat_length, val_app, val_single, L', Z.mul_add_distr_l.
      apply shl_combine; auto.
Qed.

Lemma Large_shl_ref b rhs : ubig_ok (Large b) -> 0 <= rhs < 2 ^ ubits ->
  yields (shl_ref_large (words b) rhs) (val (words b) * 2 ^ rhs).
Proof. intros (W & L2 & T & LM & _) Hr. apply shl_ref_large_yields; auto. Qed.

Lemma ubig_shl_v_yields u rhs : ubig_ok u -> 0 <= rhs < 2 ^ ubits -> yields (ubig_shl_v u rhs) (uval u * 2 ^ rhs).
Proof.
  intros Hu Hr. destruct u as [w|b]; cbn [ubig_shl_v uval].
  - destruct (Z.eqb_spec w 0) as [->|N]; [apply yields_word; pose proof B_pos; lia|].
    cbn in Hu. apply shl_word_yields; auto; lia.
  - apply shl_large_yields; auto.
Qed.
Lemma ubig_shl_r_yields u rhs : ubig_ok u -> 0 <= rhs < 2 ^ ubits -> yields (ubig_shl_r u rhs) (uval u * 2 ^ rhs).
Proof.
  intros Hu Hr. destruct u as [w|b]; cbn [ubig_shl_r uval].
  - destruct (Z.eqb_spec w 0) as [->|N]; [apply yields_word; pose proof B_pos; lia|].
    cbn in Hu. apply shl_word_yields; auto; lia.
  - apply Large_shl_ref; auto.
Qed.

(** * Right shift *)
Lemma shr_word_yields w rhs : 0 <= w < B -> 0 <= rhs -> yields (Ok (shr_word w rhs)) (w / 2 ^ rhs).
Proof.
  intros Hw Hr. unfold shr_word, shr_w, from_word. destruct (Z.ltb_spec rhs wbits).
  - rewrite Z.shiftr_div_pow2 by lia. pose proof (pow2_pos rhs Hr). apply yields_word. pose proof (div_self_bound w (2 ^ rhs)). lia.
  - rewrite Z.div_small; [apply yields_word; pose proof B_pos; lia|]. split; [lia|].
    apply Z.lt_le_trans with B; [lia|]. unfold B. apply Z.pow_le_mono_r; lia.
Qed.

Lemma shr_val lo hi ws rem sw sb : wf lo -> length lo = sw -> 0 <= sb -> 0 <= rem < 2 ^ sb ->
  val hi = ws * 2 ^ sb + rem -> val (lo ++ hi) / (Bn sw * 2 ^ sb) = ws.
Proof.
  intros W L Hs Hr E. rewrite val_app, L, E. pose proof (val_bound lo W) as V. rewrite L in V.
  pose proof (Bn_pos sw). apply div_eq with (val lo + Bn sw * rem); nia.
Qed.

Lemma shr_window ws sw sb : wf ws -> (sw <= length ws)%nat -> 0 <= sb < wbits ->
  exists ws' rem, shr_in_place (skipn sw ws) sb = Ok (ws', rem) /\ wf ws' /\ length ws' = (length ws - sw)%nat /\
    val ws / (Bn sw * 2 ^ sb) = val ws'.
Proof.
  intros W L Hsb. destruct (list_split sw ws L) as (lo & hi & -> & Llo & Lhi & _ & ->).
  apply wf_app in W as [Wlo Whi]. destruct (shr_in_place_spec hi sb Whi Hsb) as (ws' & rem & ES & L' & W' & Hr & V').
  exists ws', rem. split; [auto|]. split; [auto|]. split; [congruence|].
  apply shr_val with rem; auto; lia.
Qed.

Lemma shr_all ws sw sb : wf ws -> (length ws <= sw)%nat -> 0 <= sb -> val ws / (Bn sw * 2 ^ sb) = 0.
Proof.
  intros W L Hs. pose proof (val_bound ws W). pose proof (Bn_le _ _ L). pose proof (pow2_pos sb Hs).
  apply Z.div_small. nia.
Qed.

Lemma shr_large_yields b rhs : ubig_ok (Large b) -> 0 <= rhs -> yields (shr_large b rhs) (val (words b) / 2 ^ rhs).
Proof.
  intros Hb Hr. pose proof (Large_buffer_ok b Hb) as [W Hc]. unfold shr_large.
  destruct (shift_split rhs ltac:(lia)) as (sw & sb & E1 & E2 & E3 & Hsb & E4 & E5). rewrite E2, E3, E4, E1.
  unfold blen, len in *. destruct (Z.leb_spec (Z.of_nat (length (words b))) (Z.of_nat sw)) as [C|C].
  - rewrite shr_all by (auto; lia). apply yields_word. pose proof B_pos; lia.
  - unfold erase_front. rewrite check_true by (apply Nat.leb_le; lia). cbn [bind].
    destruct (shr_window (words b) sw sb) as (ws' & rem & ES & W' & L' & ->); auto; [lia|].
    rewrite (on_words_ok _ _ _ _ ES). cbn [bind cap]. apply from_buffer_yields. split; cbn [words cap]; auto.
    unfold blen, len. cbn [words]. lia.
Qed.

Lemma shr_large_ref_yields ws rhs : wf ws -> len ws <= MAX_LEN -> 0 <= rhs -> yields (shr_large_ref ws rhs) (val ws / 2 ^ rhs).
Proof.
  intros W LM Hr. unfold shr_large_ref. pose proof B_pos. pose proof wbits_ge.
  destruct (shift_split rhs ltac:(lia)) as (sw & sb & E1 & E2 & E3 & Hsb & E4 & E5). rewrite E2, E4, E1.
  assert (exists k, Z.to_nat (Z.min (Z.of_nat sw) (len ws)) = k /\ (k = Nat.min sw (length ws))) as (k & -> & Ek).
  { eexists; split; [reflexivity|]. unfold len. lia. }
  destruct (Nat.le_gt_cases (length ws) sw) as [C|C].
  - rewrite shr_all by (auto; lia). rewrite skipn_all2 by lia. apply yields_word. lia.
  - assert (k = sw) as -> by lia.
    destruct (shr_window ws sw sb) as (ws' & rem & ES & W' & L' & EV); auto; [lia|].
    pose proof (wf_skipn sw ws W) as W2. pose proof (skipn_length sw ws) as L2.
    assert (val ws / (Bn sw * 2 ^ sb) = val (skipn sw ws) / 2 ^ sb) as EV2.
    { rewrite <- Z.div_div by (pose proof (Bn_pos sw); pose proof (pow2_pos sb); lia). f_equal.
      rewrite (val_firstn_skipn sw ws) by lia. pose proof (val_bound _ (wf_firstn sw ws W)) as Vf.
      rewrite firstn_length_le in Vf by lia. apply div_eq with (val (firstn sw ws)); lia. }
    destruct (skipn sw ws) as [|x [|y [|z t]]] eqn:Es.
    + simpl in L2. lia.
    + rewrite EV2. apply wf_cons in W2 as [Hx _]. rewrite val_single. unfold shr_w. rewrite Z.shiftr_div_pow2 by lia.
      pose proof (pow2_pos sb ltac:(lia)). apply yields_word. pose proof (div_self_bound x (2 ^ sb)). lia.
    + rewrite EV2. apply wf_cons in W2 as [Hx W2]. apply wf_cons in W2 as [Hy _].
      rewrite double_word_val by auto. unfold shr_w. rewrite Z.shiftr_div_pow2 by lia. cbn [val].
      replace (x + B * (y + B * 0)) with (x + B * y) by lia.
      pose proof (pow2_pos sb ltac:(lia)). apply ubig_from_dword_yields.
      assert (0 <= B * y <= B * (B - 1)) by (split; [apply Z.mul_nonneg_nonneg; lia|apply Z.mul_le_mono_nonneg_l; lia]).
      pose proof (div_self_bound (x + B * y) (2 ^ sb)). lia.
    + rewrite EV. rewrite <- Es in *. clear Es. assert (len (skipn sw ws) <= MAX_LEN) by (unfold len in *; lia).
      pose proof (len_nonneg (skipn sw ws)).
      destruct (allocate_spec (len (skipn sw ws))) as (c & -> & Hc & _); [rewrite MAX_CAPACITY_eq; lia|]. cbn [bind].
      rewrite extend_spec by (unfold len in *; simpl length; lia). cbn [bind app].
      rewrite (on_words_ok _ _ _ _ ES). cbn [bind cap]. apply from_buffer_yields. split; cbn [words cap]; auto.
      unfold blen, len in *. cbn [words]. lia.
Qed.

Lemma ubig_shr_v_yields u rhs : ubig_ok u -> 0 <= rhs -> yields (ubig_shr_v u rhs) (uval u / 2 ^ rhs).
Proof.
  intros Hu Hr. destruct u as [w|b]; cbn [ubig_shr_v uval]; [apply shr_word_yields|apply shr_large_yields]; auto.
Qed.
Lemma ubig_shr_r_yields u rhs : ubig_ok u -> 0 <= rhs -> yields (ubig_shr_r u rhs) (uval u / 2 ^ rhs).
Proof.
  intros Hu Hr. destruct u as [w|b]; cbn [ubig_shr_r uval]; [apply shr_word_yields|apply shr_large_ref_yields]; auto with large.
Qed.

Lemma ones_w_eq n : 0 <= n <= wbits -> ones_w n = Z.ones n.
Proof.
  intros H. unfold ones_w, ones_n. destruct (Z.eqb_spec n 0) as [->|N]; [reflexivity|].
  pose proof wbits_ge. rewrite Z.shiftr_div_pow2 by lia. rewrite Z.ones_equiv.
  assert (0 < 2 ^ (wbits - n)) by (apply pow2_pos; lia). 
  apply div_eq with (2 ^ (wbits - n) - 1); [lia|].
  replace (2 ^ wbits) with (2 ^ n * 2 ^ (wbits - n)) by (rewrite <- Z.pow_add_r by lia; f_equal; lia). lia.
Qed.

Lemma existsb_nz ws : wf ws -> existsb (fun x => negb (x =? 0)) ws = negb (val ws =? 0).
Proof.
  induction ws as [|w t IH]; intros W; cbn [existsb val]; [reflexivity|].
  apply wf_cons in W as [Hw Wt]. rewrite IH by auto. pose proof (val_nonneg t Wt). pose proof B_pos.
  destruct (Z.eqb_spec w 0), (Z.eqb_spec (val t) 0), (Z.eqb_spec (w + B * val t) 0); cbn; nia.
Qed.

Lemma are_low_bits_spec u n : ubig_ok u -> 0 <= n -> are_low_bits_nonzero u n = Ok (negb (uval u mod 2 ^ n =? 0)).
Proof.
  intros Hu Hn. pose proof wbits_ge. destruct u as [w|b]; cbn [are_low_bits_nonzero uval].
  - cbn in Hu. rewrite ones_w_eq, Z.land_ones by lia. destruct (Z.le_gt_cases n wbits) as [C|C].
    + rewrite Z.min_l by lia. reflexivity.
    + rewrite Z.min_r by lia. rewrite !Z.mod_small; [reflexivity| |auto].
      split; [lia|]. apply Z.lt_le_trans with B; [lia|]. apply Z.pow_le_mono_r; lia.
  - destruct (shift_split n Hn) as (sw & sb & E1 & E2 & E3 & Hsb & E4 & E5). rewrite E2, E3, E4, E1.
    pose proof (Large_wf b Hu) as W. pose proof (Large_ge b Hu) as G. pose proof B_pos. unfold blen, len.
    pose proof (pow2_pos sb ltac:(lia)).
    destruct (Z.leb_spec (Z.of_nat (length (words b))) (Z.of_nat sw)) as [C|C].
    + pose proof (val_bound _ W). pose proof (Bn_le (length (words b)) sw ltac:(lia)). rewrite Z.mod_small by nia.
      rewrite (proj2 (Z.eqb_neq _ _)) by lia. reflexivity.
    + rewrite slice_to_Ok by lia. cbn [bind].
      destruct (list_split sw (words b) ltac:(lia)) as (lo & hi & E & Llo & Lhi & EF & _). rewrite EF, E.
      rewrite E in W. apply wf_app in W as [Wlo Whi]. rewrite existsb_nz by auto.
      destruct hi as [|x t]; [simpl in Lhi; lia|].
      apply wf_cons in Whi as [Hx Wt]. unfold get. rewrite nth_error_app2, Llo, Nat.sub_diag by lia. cbn [nth_error bind].
      rewrite ones_w_eq, Z.land_ones by lia.
      assert (val (lo ++ x :: t) mod (Bn sw * 2 ^ sb) = val lo + Bn sw * (x mod 2 ^ sb)) as ->.
      { rewrite val_app, Llo. cbn [val]. pose proof (val_bound lo Wlo) as V. rewrite Llo in V.
        pose proof (Z.mod_pos_bound x (2 ^ sb) ltac:(lia)).
        apply mod_eq with (x / 2 ^ sb + 2 ^ (wbits - sb) * val t); [nia|].
        rewrite (Z.div_mod x (2 ^ sb)) at 1 by lia. rewrite (B_split sb) by lia. ring. }
      pose proof (val_bound lo Wlo) as V. rewrite Llo in V. pose proof (Bn_pos sw).
      pose proof (Z.mod_pos_bound x (2 ^ sb) ltac:(lia)).
      destruct (Z.eqb_spec (val lo) 0), (Z.eqb_spec (x mod 2 ^ sb) 0), (Z.eqb_spec (val lo + Bn sw * (x mod 2 ^ sb)) 0); cbn; try reflexivity; nia.
Qed.

(** * Signed shifts *)
Lemma ibig_shl_yields (f : ubig -> Z -> res ubig) :
  (forall u rhs, ubig_ok u -> 0 <= rhs < 2 ^ ubits -> yields (f u rhs) (uval u * 2 ^ rhs)) ->
  forall x rhs, ibig_ok x -> 0 <= rhs < 2 ^ ubits ->
  iyields (m <- f (imag x) rhs ;; Ok (from_sign_magnitude (isign x) m)) (ival x * 2 ^ rhs).
Proof.
  intros Hf x rhs [Hx _] Hr. pose proof (uval_nonneg _ Hx). pose proof (pow2_pos rhs ltac:(lia)).
  eapply iyields_eq; [apply iyields_sign; [|apply Hf; auto]|unfold ival; lia]. nia.
Qed.
Lemma ibig_shl_v_yields x rhs : ibig_ok x -> 0 <= rhs < 2 ^ ubits -> iyields (ibig_shl_v x rhs) (ival x * 2 ^ rhs).
Proof. apply ibig_shl_yields, ubig_shl_v_yields. Qed.
Lemma ibig_shl_r_yields x rhs : ibig_ok x -> 0 <= rhs < 2 ^ ubits -> iyields (ibig_shl_r x rhs) (ival x * 2 ^ rhs).
Proof. apply ibig_shl_yields, ubig_shl_r_yields. Qed.

Lemma ibig_from_bool_spec b : exists x, ibig_from_bool b = Ok x /\ ibig_ok x /\ ival x = Z.b2z b.
Proof. unfold ibig_from_bool. apply ibig_from_unsigned_spec; [left; reflexivity|]. destruct b; cbn; lia. Qed.

Lemma ibig_shr_yields (f : ubig -> Z -> res ubig) :
  (forall u rhs, ubig_ok u -> 0 <= rhs -> yields (f u rhs) (uval u / 2 ^ rhs)) ->
  forall x rhs, ibig_ok x -> 0 <= rhs ->
  iyields (match isign x with
  | Positive => ibig_of (f (imag x) rhs)
  | Negative =>
      b <- are_low_bits_nonzero (imag x) rhs ;;
      q <- neg_res (ibig_of (f (imag x) rhs)) ;;
      b <- ibig_from_bool b ;;
      ibig_sub_vv q b
  end) (ival x / 2 ^ rhs).
Proof.
  intros Hf x rhs [Hx _] Hr. pose proof (uval_nonneg _ Hx). pose proof (pow2_pos rhs ltac:(lia)) as HP.
  assert (0 <= uval (imag x) / 2 ^ rhs) by (apply Z.div_pos; lia).
  unfold ival. destruct (isign x); cbn [sign_val].
  - rewrite Z.mul_1_l. apply iyields_of; auto.
  - rewrite are_low_bits_spec by auto. cbn [bind].
    pose proof (iyields_neg _ _ (iyields_of _ _ H0 (Hf _ rhs Hx Hr))) as [Y _].
    destruct Y as (q & -> & Hq & Vq).
    { pose proof (ubig_ok_val _ Hx). rewrite Z.abs_opp, Z.abs_eq by auto.
      pose proof (div_self_bound (uval (imag x)) (2 ^ rhs)). lia. }
    cbn [bind]. destruct (ibig_from_bool_spec (negb (uval (imag x) mod 2 ^ rhs =? 0))) as (bb & -> & Hbb & Vb).
    cbn [bind]. eapply iyields_eq; [apply ibig_sub_vv_yields; auto|]. rewrite Vq, Vb.
    set (v := uval (imag x)) in *. set (P := 2 ^ rhs) in *. clearbody v P.
    pose proof (Z.div_mod v P ltac:(lia)). pose proof (Z.mod_pos_bound v P ltac:(lia)).
    destruct (Z.eqb_spec (v mod P) 0); cbn [negb Z.b2z].
    + symmetry. apply div_eq with 0; lia.
    + symmetry. apply div_eq with (P - v mod P); lia.
Qed.
Lemma ibig_shr_v_yields x rhs : ibig_ok x -> 0 <= rhs -> iyields (ibig_shr_v x rhs) (ival x / 2 ^ rhs).
Proof. apply ibig_shr_yields, ubig_shr_v_yields. Qed.
Lemma ibig_shr_r_yields x rhs : ibig_ok x -> 0 <= rhs -> iyields (ibig_shr_r x rhs) (ival x / 2 ^ rhs).
Proof. apply ibig_shr_yields, ubig_shr_r_yields. Qed.

End ShiftOpsProofs.
