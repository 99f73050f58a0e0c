(** Correctness of src/shift.rs. *)
From Verif Require Import Proofs.Basics Model.Shift.

Section ShiftProofs.
Context {A : Arch} {AOK : ArchOk A}.

Lemma B_split s : 0 <= s <= wbits -> B = 2 ^ s * 2 ^ (wbits - s).
Proof. intros. unfold B. rewrite <- Z.pow_add_r by lia. f_equal; lia. Qed.

Lemma pow2_pos s : 0 <= s -> 0 < 2 ^ s.
Proof. intros. apply Z.pow_pos_nonneg; lia. Qed.

Lemma lor_high_low a c s : 0 <= s -> 0 <= c < 2 ^ s -> Z.lor (a * 2 ^ s) c = a * 2 ^ s + c.
Proof. intros. rewrite Z.lor_comm, lor_disjoint by lia. lia. Qed.

Lemma shl_loop_spec s : 0 < s < wbits -> forall ws carry, wf ws -> 0 <= carry < 2 ^ s ->
  let '(ws', c) := shl_loop ws s carry in
  length ws' = length ws /\ wf ws' /\ 0 <= c < 2 ^ s /\
  val ws' + Bn (length ws) * c = val ws * 2 ^ s + carry.
Proof.
  intros Hs. pose proof (B_split s ltac:(lia)) as HB. pose proof (pow2_pos s ltac:(lia)) as P1.
  assert (0 < 2 ^ (wbits - s)) as P2 by (apply pow2_pos; lia). pose proof B_pos as P3.
  induction ws as [|w t IH]; intros carry Hw Hc; cbn [shl_loop].
  - simpl. rewrite Bn_0. repeat split; auto using wf_nil; lia.
  - apply wf_cons in Hw as [Hw Ht]. unfold shl_dw, extend_word.
    rewrite Z.shiftl_mul_pow2 by lia.
    assert (0 <= w * 2 ^ s < B * B) as R by nia.
    rewrite Z.mod_small by exact R.
    destruct (split_double_word (w * 2 ^ s)) as [lo hi] eqn:E.
    pose proof (split_double_word_val _ _ _ R E) as (V & Rl & Rh).
    assert (exists k, lo = k * 2 ^ s /\ 0 <= k < 2 ^ (wbits - s)) as (k & -> & Rk).
    { exists (w - 2 ^ (wbits - s) * hi). split; nia. }
    assert (0 <= hi < 2 ^ s) as Rh' by nia.
    specialize (IH hi Ht Rh'). destruct (shl_loop t s hi) as [t' c].
    destruct IH as (L & W & Rc & V2). simpl length. rewrite Bn_S, !val_cons, wf_cons, L.
    rewrite lor_high_low by lia. mulB V2. repeat split; auto; try lia; nia.
Qed.

Lemma shl_in_place_spec ws s : wf ws -> 0 <= s < wbits ->
  exists ws' c, shl_in_place ws s = Ok (ws', c) /\
  length ws' = length ws /\ wf ws' /\ 0 <= c < 2 ^ s /\
  val ws' + Bn (length ws) * c = val ws * 2 ^ s.
Proof.
  intros H Hs. unfold shl_in_place. rewrite check_true by lia.
  destruct (Z.eqb_spec s 0) as [->|N].
  - do 2 eexists; split; [reflexivity|]. rewrite Z.pow_0_r. repeat split; auto; lia.
  - pose proof (shl_loop_spec s ltac:(lia) ws 0 H) as S. destruct (shl_loop ws s 0) as [ws' c].
    do 2 eexists; split; [reflexivity|]. rewrite Z.add_0_r in S. apply S.
    pose proof (pow2_pos s); lia.
Qed.

Lemma shr_loop_spec s : 0 < s < wbits -> forall ws, wf ws ->
  let '(ws', c) := shr_loop ws s in
  length ws' = length ws /\ wf ws' /\
  exists rem, c = rem * 2 ^ (wbits - s) /\ 0 <= rem < 2 ^ s /\ val ws = val ws' * 2 ^ s + rem.
Proof.
  intros Hs. pose proof (B_split s ltac:(lia)) as HB. pose proof (pow2_pos s ltac:(lia)) as P1.
  assert (0 < 2 ^ (wbits - s)) as P2 by (apply pow2_pos; lia). pose proof B_pos as P3.
  induction ws as [|w t IH]; intros Hw; cbn [shr_loop].
  - simpl. repeat split; auto using wf_nil. exists 0. lia.
  - apply wf_cons in Hw as [Hw Ht]. specialize (IH Ht).
    destruct (shr_loop t s) as [t' c]. destruct IH as (L & W & rem & -> & Rr & V).
    rewrite double_word_val by lia. unfold shr_w. rewrite Z.shiftr_div_pow2 by lia.
    replace (0 + B * w) with (w * 2 ^ (wbits - s) * 2 ^ s) by (rewrite HB; ring).
    rewrite Z.div_mul by lia.
    assert (0 <= w * 2 ^ (wbits - s) < B * B) as R by nia.
    destruct (split_double_word (w * 2 ^ (wbits - s))) as [lo hi] eqn:E.
    pose proof (split_double_word_val _ _ _ R E) as (V2 & Rl & Rh).
    assert (lo = (w - 2 ^ s * hi) * 2 ^ (wbits - s)) as -> by (rewrite HB in V2 at 1; lia).
    assert (0 <= w - 2 ^ s * hi < 2 ^ s) as Rw by nia.
    assert (0 <= hi < 2 ^ (wbits - s)) as Rh' by nia.
    rewrite lor_disjoint by lia. simpl length. rewrite wf_cons, L, !val_cons.
    split; [auto|]. split; [split; [nia|auto]|].
    exists (w - 2 ^ s * hi). repeat split; auto; try lia.
Qed.

Lemma shr_in_place_spec ws s : wf ws -> 0 <= s < wbits ->
  exists ws' rem, shr_in_place ws s = Ok (ws', rem) /\
  length ws' = length ws /\ wf ws' /\ 0 <= rem < 2 ^ s /\ val ws = val ws' * 2 ^ s + rem.
Proof.
  intros H Hs. unfold shr_in_place. rewrite check_true by lia.
  destruct (Z.eqb_spec s 0) as [->|N].
  - do 2 eexists; split; [reflexivity|]. rewrite Z.pow_0_r. repeat split; auto; lia.
  - pose proof (shr_loop_spec s ltac:(lia) ws H) as S. destruct (shr_loop ws s) as [ws' c].
    destruct S as (L & W & rem & -> & Rr & V).
    do 2 eexists; split; [reflexivity|]. unfold shr_w.
    rewrite Z.shiftr_div_pow2, Z.div_mul by (try lia; pose proof (pow2_pos (wbits - s)); lia). auto.
Qed.

End ShiftProofs.
