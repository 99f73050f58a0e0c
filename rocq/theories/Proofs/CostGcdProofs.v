(** Additions, subtractions and shifts take linear time (Model/CostGcd.v). *)
From Coq Require Import Lia.
From Verif Require Import Model.Base Model.Words Model.Add Model.Shift Model.Memory Model.Buffer Model.UBig Model.IBig
  Model.Convert Model.AddOps Model.MulOps Model.ShiftOps Model.Bits Model.DivOps Model.PrimOps Model.Gcd Model.Cost
  Model.CostDiv Model.CostOps Model.CostFmt Model.CostGcd Spec.Val.
From Verif Require Import Proofs.Basics Proofs.CostProofs Proofs.CostBounds Proofs.CostTheorems Proofs.CostRates Proofs.CostDivProofs
  Proofs.CostOpsProofs Proofs.CostOpsBounds Proofs.CostDivOps.

Section Erase.
Context {A : Arch}.

Lemma sub_large_word_erase b w : snd (c_sub_large_word b w) = sub_large_word b w.
Proof. unfold c_sub_large_word, sub_large_word, c_from_buffer. oer. Qed.
Lemma sub_large_erase b w : snd (c_sub_large b w) = sub_large b w.
Proof. unfold c_sub_large, sub_large, c_from_buffer. oer. Qed.
Lemma sub_large_ref_val_erase b w : snd (c_sub_large_ref_val b w) = sub_large_ref_val b w.
Proof. unfold c_sub_large_ref_val, sub_large_ref_val, c_from_buffer. cbv zeta. oer. Qed.

Lemma add_vr_erase a b : snd (c_ubig_add_vr a b) = ubig_add_vr a b.
Proof.
  unfold c_ubig_add_vr, ubig_add_vr, c_add_word, c_buffer_clone. pose proof add_large_word_erase. pose proof add_large_erase. oer.
Qed.
Lemma add_rr_erase a b : snd (c_ubig_add_rr a b) = ubig_add_rr a b.
Proof.
  unfold c_ubig_add_rr, ubig_add_rr, c_add_word, c_buffer_clone. pose proof add_large_word_erase. pose proof add_large_erase. oer.
Qed.
Lemma sub_vr_erase a b : snd (c_ubig_sub_vr a b) = ubig_sub_vr a b.
Proof. unfold c_ubig_sub_vr, ubig_sub_vr, c_sub_word. pose proof sub_large_word_erase. pose proof sub_large_erase. oer. Qed.
Lemma sub_rv_erase a b : snd (c_ubig_sub_rv a b) = ubig_sub_rv a b.
Proof.
  unfold c_ubig_sub_rv, ubig_sub_rv, c_sub_word, c_buffer_clone. pose proof sub_large_word_erase. pose proof sub_large_ref_val_erase. oer.
Qed.
Lemma sub_rr_erase a b : snd (c_ubig_sub_rr a b) = ubig_sub_rr a b.
Proof. unfold c_ubig_sub_rr, ubig_sub_rr, c_sub_word, c_buffer_clone. pose proof sub_large_word_erase. pose proof sub_large_erase. oer. Qed.

Lemma shl_word_erase w n : snd (c_shl_word w n) = shl_word w n.
Proof. unfold c_shl_word, shl_word, c_shl_word_slow, shl_word_slow, c_from_buffer. cbv zeta. oer. Qed.
Lemma shl_ref_large_erase ws n : snd (c_shl_ref_large ws n) = shl_ref_large ws n.
Proof. unfold c_shl_ref_large, shl_ref_large, c_from_buffer. cbv zeta. oer. Qed.
Lemma shl_large_erase b n : snd (c_shl_large b n) = shl_large b n.
Proof. unfold c_shl_large, shl_large, c_from_buffer. cbv zeta. pose proof shl_ref_large_erase. oer. Qed.
Lemma shr_large_erase b n : snd (c_shr_large b n) = shr_large b n.
Proof. unfold c_shr_large, shr_large, c_from_buffer. cbv zeta. oer. Qed.
Lemma shr_large_ref_erase ws n : snd (c_shr_large_ref ws n) = shr_large_ref ws n.
Proof. unfold c_shr_large_ref, shr_large_ref, c_from_buffer. cbv zeta. destruct (skipn _ ws) as [|x [|y [|z l]]]; oer. Qed.

Lemma shl_v_erase u n : snd (c_ubig_shl_v u n) = ubig_shl_v u n.
Proof. unfold c_ubig_shl_v, ubig_shl_v. pose proof shl_word_erase. pose proof shl_large_erase. oer. Qed.
Lemma shl_r_erase u n : snd (c_ubig_shl_r u n) = ubig_shl_r u n.
Proof. unfold c_ubig_shl_r, ubig_shl_r. pose proof shl_word_erase. pose proof shl_ref_large_erase. oer. Qed.
Lemma shr_v_erase u n : snd (c_ubig_shr_v u n) = ubig_shr_v u n.
Proof. unfold c_ubig_shr_v, ubig_shr_v. pose proof shr_large_erase. oer. Qed.
Lemma shr_r_erase u n : snd (c_ubig_shr_r u n) = ubig_shr_r u n.
Proof. unfold c_ubig_shr_r, ubig_shr_r. pose proof shr_large_ref_erase. oer. Qed.

Lemma rem_vr_erase a b : snd (c_ubig_rem_vr a b) = ubig_rem_vr a b.
Proof. unfold c_ubig_rem_vr, ubig_rem_vr, c_from_buffer, c_buffer_clone. pose proof rem_large_erase. oer. Qed.

Lemma gcd_loop_erase fuel : forall a b, snd (c_gcd_loop fuel a b) = gcd_loop fuel a b.
Proof.
  pose proof shr_v_erase. pose proof sub_vr_erase.
  induction fuel as [|fuel IH]; intros a b; cbn [c_gcd_loop gcd_loop]; [reflexivity|].
  unfold c_ubig_trailing_zeros, c_ubig_lt, ubig_shr_assign, ubig_sub_assign_r. oer.
Qed.

Lemma gcd_erase a b : snd (c_ubig_gcd a b) = ubig_gcd a b.
Proof.
  pose proof shr_v_erase. pose proof shl_v_erase. pose proof rem_vr_erase. pose proof gcd_loop_erase.
  unfold c_ubig_gcd, ubig_gcd, c_ubig_clone, c_ubig_trailing_zeros, c_ubig_lt, ubig_shr_assign, ubig_rem_assign_r. cbv zeta. oer.
Qed.

Lemma halve_erase fuel : forall u v t, snd (c_halve_loop fuel u v t) = halve_loop fuel u v t.
Proof.
  pose proof shr_v_erase. pose proof add_vr_erase.
  induction fuel as [|fuel IH]; intros u v t; cbn [c_halve_loop halve_loop]; [reflexivity|].
  unfold c_is_odd, ubig_shr_assign, ubig_add_assign_r. oer.
Qed.

Lemma egcd_loop_erase fuel : forall u v s t, snd (c_egcd_loop fuel u v s t) = egcd_loop fuel u v s t.
Proof.
  pose proof sub_vr_erase. pose proof add_vr_erase. pose proof halve_erase.
  induction fuel as [|fuel IH]; intros u v s t; cbn [c_egcd_loop egcd_loop]; [reflexivity|].
  destruct s as [[a ax] ay], t as [[b bx] by_]. destruct (ubig_eqb a (from_word 0)); [reflexivity|].
  unfold ubig_sub_assign_r, ubig_add_assign_r, c_ubig_lt.
  rewrite snd_cbind. apply bind_ext; [apply halve_erase|]. intros [[a' ax'] ay'].
  rewrite snd_cbind. apply bind_ext; [reflexivity|]. intros [|]; oer.
Qed.

Lemma extended_gcd_erase a b : snd (c_ubig_extended_gcd a b) = ubig_extended_gcd a b.
Proof.
  pose proof shr_r_erase. pose proof shl_v_erase. pose proof div_rem_rr_erase. pose proof sub_rv_erase. pose proof egcd_loop_erase.
  unfold c_ubig_extended_gcd, ubig_extended_gcd, c_ubig_clone, c_ubig_trailing_zeros, c_ubig_le, c_is_odd. cbv zeta.
  rewrite snd_cbind. apply bind_ext; [reflexivity|]. intros az. rewrite snd_cbind. apply bind_ext; [reflexivity|]. intros bz.
  destruct az as [az|], bz as [bz|]; oer.
Qed.

End Erase.

Section Linear.
Context {A : Arch}.

Lemma sub_large_word_costs b w : costs (c_sub_large_word b w) (3 * blen b + 2) (fun u => 1 <= ulen u <= Z.max 1 (blen b)).
Proof.
  unfold c_sub_large_word. eapply costs_bind_words; [apply (call_keeps (words b)); intros w' r E; now apply sub_word_len in E|].
  intros b' o L. cbv beta iota. step. assert (LB : blen b' = blen b) by (unfold blen, len; lia).
  eapply costs_weaken; [apply (from_buffer_costs b' (2 * blen b + 1)); lia|unfold blen, len in *; lia|cbv beta; intros; lia].
Qed.

Lemma sub_large_costs b ws : costs (c_sub_large b ws) (3 * blen b + 2) (fun u => 1 <= ulen u <= Z.max 1 (blen b)).
Proof.
  unfold c_sub_large. destruct (length (words b) <? length ws)%nat; [apply costs_panic|].
  eapply costs_bind_words; [apply (call_keeps (words b)); intros w' r E; now apply sub_in_place_len in E|].
  intros b' o L. cbv beta iota. destruct o; [apply costs_panic|]. assert (LB : blen b' = blen b) by (unfold blen, len; lia).
  eapply costs_weaken; [apply (from_buffer_costs b' (2 * blen b + 1)); lia|unfold blen, len in *; lia|cbv beta; intros; lia].
Qed.

Lemma sub_ref_val_costs ws b : costs (c_sub_large_ref_val ws b) (6 * len ws + 5) (fun u => 1 <= ulen u <= Z.max 1 (len ws)).
Proof.
  unfold c_sub_large_ref_val. cbv zeta. destruct (Nat.ltb_spec (length ws) (length (words b))) as [C|C]; [apply costs_panic|].
  step. destruct E as [E _].
  eapply costs_bind_words; [apply (call_keeps (words b)); intros w' r X; apply sub_swap_len in X; lia|]. intros b1 o L1. cbv beta iota.
  apply costs_bind_call. intros b2 E2. apply ensure_capacity_words in E2. step. destruct E0 as [E0 _].
  apply costs_bind_call. intros b3 E3. apply extend_words in E3.
  assert (L3 : length (words b3) = length ws) by (rewrite E3, app_length, E0, E2, L1; lia).
  match goal with |- costs (cbind ?m ?k) ?N _ => apply (costs_bind m k (len ws + 1) N (fun x => blen (fst x) = len ws)) end.
  { destruct o; [|apply costs_ok; unfold blen, len; cbn [fst]; lia]. eapply costs_weaken; [apply costs_call|unfold len; lia|].
    intros [b4 o4] E4. cbn [fst]. apply on_buffer_len in E4; [unfold blen, len in *; lia|].
    intros w w' x X. injection X as X. pose proof (sub_one_len w) as AL. rewrite X in AL. exact AL. }
  intros [b4 o4] L4. cbn [fst] in L4. cbv beta iota. destruct o4; [apply costs_panic|].
  eapply costs_weaken; [apply (from_buffer_costs b4 (2 * len ws + 1)); lia|unfold blen, len in *; lia|cbv beta; intros; lia].
Qed.

Lemma sub_word_small a b u : sub_word a b = Ok u -> ulen u = 1.
Proof. unfold sub_word. destruct (b <=? a); [|discriminate]. intros H. now injection H as <-. Qed.

Lemma sub_costs a b : 1 <= ulen a ->
  costs (c_ubig_sub_vr a b) (4 * ulen a + 3) (fun u => 1 <= ulen u <= ulen a) /\
  costs (c_ubig_sub_rr a b) (4 * ulen a + 3) (fun u => 1 <= ulen u <= ulen a) /\
  costs (c_ubig_sub_rv a b) (6 * ulen a + 5) (fun u => 1 <= ulen u <= ulen a).
Proof.
  intros L1. unfold c_ubig_sub_vr, c_ubig_sub_rr, c_ubig_sub_rv, c_buffer_clone, c_sub_word.
  destruct a as [x|x], b as [y|y]; cbn [ulen] in *.
  - assert (X : forall N, 1 <= N -> costs (call 0 (sub_word x y)) N (fun u => 1 <= ulen u <= 1)).
    { intros N HN. eapply costs_weaken; [apply costs_call|cbn; lia|]. intros u E. apply sub_word_small in E. lia. }
    split; [|split]; apply X; lia.
  - split; [|split]; apply costs_panic.
  - assert (X : forall z, words z = words x -> costs (c_sub_large_word z y) (3 * blen x + 2) (fun u => 1 <= ulen u <= blen x)).
    { intros z E. assert (M : blen z = blen x) by (unfold blen; now rewrite E). eapply costs_weaken; [apply sub_large_word_costs|lia|cbv beta; intros; lia]. }
    split; [eapply costs_weaken; [apply X; reflexivity|lia|auto]|].
    split; (apply costs_bind_call; intros z E; apply buffer_clone_words in E; eapply costs_weaken; [apply X; exact E|unfold blen, len in *; lia|auto]).
  - assert (X : forall z, words z = words x -> costs (c_sub_large z (words y)) (3 * blen x + 2) (fun u => 1 <= ulen u <= blen x)).
    { intros z E. assert (M : blen z = blen x) by (unfold blen; now rewrite E). eapply costs_weaken; [apply sub_large_costs|lia|cbv beta; intros; lia]. }
    split; [eapply costs_weaken; [apply X; reflexivity|lia|auto]|]. split.
    + apply costs_bind_call; intros z E; apply buffer_clone_words in E; eapply costs_weaken; [apply X; exact E|unfold blen, len in *; lia|auto].
    + eapply costs_weaken; [apply sub_ref_val_costs|unfold blen; lia|unfold blen in *; cbv beta; intros; lia].
Qed.

Lemma shr_v_costs u k : 1 <= ulen u -> costs (c_ubig_shr_v u k) (4 * ulen u + 3) (fun x => 1 <= ulen x <= ulen u).
Proof.
  intros L1. destruct u as [w|b]; cbn [c_ubig_shr_v ulen] in *.
  - eapply costs_weaken; [apply costs_call|lia|]. intros x E. injection E as <-. cbn. lia.
  - unfold c_shr_large. cbv zeta. destruct (blen b <=? k / wbits); [apply costs_ok; [lia|cbn; lia]|].
    apply costs_bind_call. intros b1 E1.
    assert (M : blen b1 <= blen b).
    { unfold erase_front in E1. apply check_ok in E1. destruct E1 as [_ E1]. injection E1 as <-. unfold blen, len. cbn [words]. rewrite skipn_length. lia. }
    eapply costs_bind_words; [apply (call_keeps (words b1)); intros w' r E; now apply shr_len in E|]. intros b2 c L. cbv beta iota.
    assert (LB : blen b2 = blen b1) by (unfold blen, len; lia).
    eapply costs_weaken; [apply (from_buffer_costs b2 (2 * blen b + 1)); lia|unfold blen, len in *; lia|cbv beta; intros; lia].
Qed.

End Linear.
