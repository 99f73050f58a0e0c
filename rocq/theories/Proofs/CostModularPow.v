(** Counting the products of a modular power (Model/CostModular.v). *)
From Coq Require Import Lia.
From Verif Require Import Model.Base Model.Words Model.Add Model.Shift Model.FastDivide Model.DivWord Model.Memory Model.Mul Model.Div
  Model.RawMemory Model.Buffer Model.UBig Model.IBig Model.Convert Model.ShiftOps Model.Bits Model.DivOps Model.Gcd Model.Modular
  Model.Cost Model.CostDiv Model.CostOps Model.CostFmt Model.CostGcd Model.CostModular Spec.Val Spec.Num.
From Verif Require Import Proofs.Basics Proofs.CostProofs Proofs.CostBounds Proofs.CostTheorems Proofs.CostRates Proofs.CostDivProofs
  Proofs.CostOpsProofs Proofs.CostOpsBounds Proofs.CostDivOps Proofs.CostGcdProofs Proofs.CostGcdSteps Proofs.CostGcdTheorems
  Proofs.CostModularProofs.
From Verif Require Import Proofs.FastDivideProofs Proofs.BufferProofs Proofs.BitsProofs Proofs.BitCountProofs Proofs.ShiftOpsProofs Proofs.ShiftProofs
  Proofs.MulProofs Proofs.DivProofs Proofs.ModularProofs Proofs.ModularPow.

Section Window.
Context {A : Arch} {AOK : ArchOk A}.

(** The estimated number of products, besides squares, for windows of [w] bits. *)
Definition estimate (n w : Z) : Z := 2 ^ (w - 1) - 1 + n / (w + 1).

Lemma estimate_convex n w : 0 <= n -> 1 <= w -> estimate n w <= estimate n (w + 1) -> estimate n (w + 1) <= estimate n (w + 1 + 1).
Proof.
  intros Hn Hw. unfold estimate. replace (w + 1 - 1) with (w - 1 + 1) by ring. replace (w + 1 + 1 - 1) with (w - 1 + 1 + 1) by ring.
  rewrite !Z.pow_add_r by lia. change (2 ^ 1) with 2. pose proof (pow2_pos (w - 1) ltac:(lia)) as P. set (p := 2 ^ (w - 1)) in *. clearbody p.
  pose proof (Z.div_mod n (w + 1) ltac:(lia)) as A1. pose proof (Z.mod_pos_bound n (w + 1) ltac:(lia)) as A2.
  pose proof (Z.div_mod n (w + 1 + 1) ltac:(lia)) as B1. pose proof (Z.mod_pos_bound n (w + 1 + 1) ltac:(lia)) as B2.
  pose proof (Z.div_mod n (w + 1 + 1 + 1) ltac:(lia)) as C1. pose proof (Z.mod_pos_bound n (w + 1 + 1 + 1) ltac:(lia)) as C2.
  set (a := n / (w + 1)) in *. set (b := n / (w + 1 + 1)) in *. set (c := n / (w + 1 + 1 + 1)) in *. clearbody a b c.
  generalize dependent (n mod (w + 1)). generalize dependent (n mod (w + 1 + 1)). generalize dependent (n mod (w + 1 + 1 + 1)). intros rc C1 C2 rb B1 B2 ra A1 A2 L.
  apply Z.nlt_ge. intros D. assert (D1 : a <= b + p) by lia. assert (D2 : c + 2 * p + 1 <= b) by lia. clear L D.
  assert (E1 : n < (b + p + 1) * (w + 1)) by nia. assert (E2 : b < (p + 1) * (w + 1)) by nia.
  assert (E3 : b * (w + 2) < (c + 1) * (w + 3)) by nia. assert (E4 : (c + 1) * (w + 3) <= (b - 2 * p) * (w + 3)) by (apply Z.mul_le_mono_nonneg_r; lia).
  assert (E5 : 2 * p * (w + 3) < b) by lia. assert (w <= p * w) by nia. nia.
Qed.

Lemma estimate_after n w : 0 <= n -> 1 <= w -> estimate n w <= estimate n (w + 1) -> forall w', w <= w' -> estimate n w <= estimate n w'.
Proof.
  intros Hn Hw L w' Hw'. assert (Q : estimate n w <= estimate n w' /\ estimate n w' <= estimate n (w' + 1)).
  { revert w' Hw'. apply Zlt_lower_bound_ind. intros x IH Hx. destruct (Z.eq_dec x w) as [->|Nx]; [split; [lia|exact L]|].
    destruct (IH (x - 1) ltac:(lia)) as [I1 I2]. replace (x - 1 + 1) with x in I2 by ring. split; [lia|].
    replace x with (x - 1 + 1) at 1 by ring. replace (x + 1) with (x - 1 + 1 + 1) by ring. apply estimate_convex; [exact Hn|lia|].
    replace (x - 1 + 1) with x by ring. exact I2. }
  apply Q.
Qed.

Lemma window_loop_best n : 0 <= n < 2 ^ ubits -> forall fuel w, 1 <= w < Z.min wbits ubits -> wbits <= w + Z.of_nat fuel ->
  (forall w', 1 <= w' <= w -> estimate n w <= estimate n w') ->
  exists wl, window_loop fuel n w (estimate n w) = Ok wl /\ 1 <= wl < Z.min wbits ubits /\ forall w', 1 <= w' < Z.min wbits ubits -> estimate n wl <= estimate n w'.
Proof.
  intros Hn. induction fuel as [|fuel IH]; intros w Hw Hf HT; cbn [window_loop]; destruct (Z.ltb_spec (w + 1) (Z.min wbits ubits)) as [C|C].
  1: exfalso; lia.
  1,3: exists w; split; [reflexivity|]; split; [lia|]; intros; apply HT; lia.
  rewrite (window_cost_spec n (w + 1) Hn) by lia. cbn [bind]. fold (estimate n (w + 1)). destruct (Z.leb_spec (estimate n w) (estimate n (w + 1))) as [G|G].
  - exists w. split; [reflexivity|]. split; [lia|]. intros w' Hw'. destruct (Z.le_ge_cases w' w); [apply HT; lia|]. apply estimate_after; lia.
  - apply IH; [lia|lia|]. intros w' Hw'. destruct (Z.eq_dec w' (w + 1)) as [->|]; [lia|]. specialize (HT w' ltac:(lia)). lia.
Qed.

(** The chosen length is best. *)
Lemma choose_best n : 0 <= n < 2 ^ ubits -> exists wl, choose_pow_window_len n = Ok wl /\ 1 <= wl < Z.min wbits ubits /\
  forall w, 1 <= w < Z.min wbits ubits -> estimate n wl <= estimate n w.
Proof.
  intros Hn. unfold choose_pow_window_len. pose proof wbits_cases as WC. pose proof ubits_cases as UC.
  rewrite (window_cost_spec n 1 Hn) by lia. cbn [bind]. fold (estimate n 1). apply window_loop_best; [exact Hn|lia|lia|].
  intros w' Hw'. assert (w' = 1) as -> by lia. lia.
Qed.

(** The bits that a window leaves out are zeros. *)
Lemma pow_window_zeros e next cur bi i wl W nb : 0 <= next < B -> 0 <= cur < B -> 0 <= bi < wbits -> 1 <= wl < wbits ->
  (forall j, 0 <= j < 2 * wbits -> Z.testbit (next + B * cur) j = Z.testbit e (j + wbits * (i - 1))) ->
  Z.testbit e (bi + wbits * i) = true -> pow_window next cur bi wl = Ok (W, nb) ->
  forall j, bi + wbits * i - wl < j <= bi + wbits * i - nb -> Z.testbit e j = false.
Proof.
  intros Hn Hc Hb Hl T0 Tt. pose proof wbits_cases as WC. unfold pow_window. rewrite checked_ok by (clear - WC Hb Hl; lia). cbn [bind].
  rewrite check_true by (clear - Hb Hl; lia). rewrite double_word_val by auto. set (s := bi + 1 + wbits - wl). assert (Hs : 0 <= s <= 2 * wbits - wl) by (unfold s; lia).
  unfold split_double_word. rewrite ones_w_eq, Z.land_ones by lia. rewrite Z.shiftr_div_pow2 by lia.
  pose proof (B_mod_pow wl ltac:(lia)) as EB. pose proof (pow2_pos wl ltac:(lia)) as Pl. pose proof (pow2_pos (wbits - wl) ltac:(lia)) as Pl2.
  assert (E0 : forall z, (z mod B) mod 2 ^ wl = z mod 2 ^ wl).
  { intros z. rewrite EB. rewrite (Z.mul_comm (2 ^ (wbits - wl))). rewrite Z.rem_mul_r by lia. rewrite Z.mul_comm, Z_mod_plus_full, Z.mod_mod by lia. reflexivity. }
  rewrite E0. clear E0. set (V := ((next + B * cur) / 2 ^ s) mod 2 ^ wl). pose proof (Z.mod_pos_bound ((next + B * cur) / 2 ^ s) (2 ^ wl) ltac:(lia)) as VB. fold V in VB.
  assert (TV : forall j, 0 <= j < wl -> Z.testbit V j = Z.testbit e (j + (bi + wbits * i + 1 - wl))).
  { intros j Hj. unfold V. rewrite Z.mod_pow2_bits_low, Z.div_pow2_bits by lia. rewrite T0 by lia. f_equal. unfold s. ring. }
  assert (V0 : V <> 0). { intros E. specialize (TV (wl - 1) ltac:(lia)). rewrite E, Z.bits_0 in TV. replace (wl - 1 + (bi + wbits * i + 1 - wl)) with (bi + wbits * i) in TV by ring. congruence. }
  assert (PB : 2 ^ wl <= B). { rewrite EB. clear - Pl Pl2. nia. }
  destruct (trailing_zeros_w_spec V ltac:(lia)) as [(Tz0 & q & Hq & EV) Tzw]. set (tz := trailing_zeros_w V) in *. clearbody tz.
  pose proof (pow2_pos tz Tz0) as Ptz.
  assert (Tl : tz < wl). { destruct (Z.lt_ge_cases tz wl) as [|C]; [auto|]. pose proof (Z.pow_le_mono_r 2 wl tz ltac:(lia) C). clear - VB EV Hq H Ptz Pl. nia. }
  rewrite checked_ok by (clear - WC Hl Tl Tz0; lia). cbn [bind]. replace (wl - (wl - tz)) with tz by ring. rewrite checked_ok by (clear - WC Hl Tl Tz0; lia). cbn [bind].
  rewrite check_true by (clear - Tzw; lia). intros E. injection E as _ <-. intros j Hj.
  specialize (TV (j - (bi + wbits * i + 1 - wl)) ltac:(lia)). replace (j - (bi + wbits * i + 1 - wl) + (bi + wbits * i + 1 - wl)) with j in TV by ring.
  rewrite <- TV, EV, Z.mul_pow2_bits by lia. apply Z.testbit_neg_r. lia.
Qed.

End Window.

Section Loop.
Context {A : Arch} {AOK : ArchOk A}.
Context (r : ring_large) (N : Z) (EN : N = len (rl_modulus r)) (N2 : 2 <= N).
Context (H W : Z) (RT : rate (length (rl_modulus r)) H) (DV : divides N W) (W0 : 0 <= W).
Local Notation X := (product_steps N H W).
Context (wl : Z) (Hwl : 1 <= wl < Z.min wbits ubits).
Context (ws : list Z) (Wws : wf ws).
Local Notation e := (val ws).

(** The most windows that fit into [bit + 1] bits, if the first [z] bits are zeros. *)
Definition windows (w bit z : Z) : Z := (bit - z + w) / w.

Lemma windows_next bit z : windows wl (bit - 1) (z - 1) = windows wl bit z.
Proof. unfold windows. f_equal. ring. Qed.

Lemma windows_mono bit bit' z z' : bit' - z' <= bit - z -> windows wl bit' z' <= windows wl bit z.
Proof. intros L. unfold windows. apply Z.div_le_mono; lia. Qed.

Lemma windows_one bit : windows wl bit wl + 1 = windows wl bit 0.
Proof. unfold windows. replace (bit - 0 + wl) with (bit - wl + wl + 1 * wl) by ring. rewrite Z.div_add by lia. reflexivity. Qed.

Lemma windows_pos bit z : z <= bit + 1 -> 0 <= windows wl bit z.
Proof. intros L. unfold windows. apply Z.div_pos; lia. Qed.

Lemma large_pow_loop_costs self table n mem fuel : forall v bit z, 0 <= bit < wbits * len ws -> 0 <= z <= bit + 1 -> ml_ring v = r ->
  (forall j, bit - z < j <= bit -> Z.testbit e j = false) ->
  costs (c_large_pow_loop fuel self table ws n wl mem v bit) ((X + 1) * (bit + windows wl bit z) + 1) (fun y => ml_ring y = r).
Proof.
  pose proof (steps_pos r N N2 H W RT W0) as XP. pose proof wbits_cases as WC. pose proof ubits_cases as UC.
  induction fuel as [|fuel IH]; intros v bit z Hb Hz Ev ZB; [apply costs_panic|]. cbn [c_large_pow_loop]. cbv zeta.
  set (wi := bit / wbits). set (bi := bit mod wbits).
  assert (W1 : 1 <= wbits) by (clear - WC; lia). assert (WU : 1 <= wl < wbits) by (clear - Hwl; lia).
  assert (Hwb : 0 <= bi < wbits /\ bit = bi + wbits * wi /\ 0 <= wi < len ws).
  { clear - Hb W1. assert (0 <= bi < wbits) by (apply Z.mod_pos_bound; lia). assert (bit = bi + wbits * wi) by (pose proof (Z.div_mod bit wbits); unfold bi, wi; lia).
    split; [lia|]. split; [lia|]. split; [apply Z.div_pos; lia|apply Z.div_lt_upper_bound; lia]. }
  clearbody wi bi. destruct Hwb as (Hbi & Eb & Hwi).
  destruct (get_set_split ws (Z.to_nat wi)) as (lo & cur & hi & Ews & Llo & Eg & _). { clear - Hwi. unfold len in Hwi. lia. }
  apply costs_bind_call. intros cur' Ec. rewrite Eg in Ec. injection Ec as <-.
  rewrite (proj1 (shl_w_1 bi Hbi)), land_pow2 by (clear - Hbi; lia).
  pose proof Wws as WW. rewrite Ews in WW. apply wf_cons_iff in WW as (Wlo & Wcur & Whi).
  assert (Tb : Z.testbit cur bi = Z.testbit e bit).
  { rewrite (testbit_word lo cur hi bi) by auto. rewrite <- Ews, Llo, Z2Nat.id by (clear - Hwi; lia). f_equal. clear - Eb. lia. }
  rewrite Tb. destruct (Z.testbit e bit) eqn:Tt.
  - assert (z = 0) as ->. { destruct (Z.eq_dec z 0) as [|Z0]; [assumption|]. rewrite ZB in Tt by lia. discriminate. }
    clear ZB.
    assert (Nx : exists next, (if wi =? 0 then free (Ok 0) else free (get (Z.to_nat (wi - 1)) ws)) = free (Ok next) /\ 0 <= next < B /\
        forall j, 0 <= j < 2 * wbits -> Z.testbit (next + B * cur) j = Z.testbit e (j + wbits * (wi - 1))).
    { destruct (Z.eqb_spec wi 0) as [Wi0|Wi0].
      - exists 0. split; [reflexivity|]. split; [pose proof B_ge; lia|]. intros j Hj. rewrite Z.add_0_l. unfold B. rewrite Z.mul_comm, Z.mul_pow2_bits by (clear - W1; lia).
        clear Tt Tb IH. rewrite Wi0 in *. assert (lo = []) by (destruct lo; [reflexivity|cbn in Llo; lia]). subst lo. destruct (Z.lt_ge_cases j wbits) as [C|C].
        + rewrite !Z.testbit_neg_r by (clear - C; lia). reflexivity.
        + rewrite (testbit_word [] cur hi (j - wbits)) by (auto; clear - C Hj; lia). rewrite <- Ews. cbn [length]. f_equal. clear. lia.
      - destruct (last_split lo 0) as (lo' & El). { intros ->. cbn in Llo. clear - Llo Wi0 Hwi. lia. } set (next := last lo 0) in *. clearbody next.
        exists next. rewrite El in Ews, Llo, Wlo. rewrite app_length in Llo. cbn [length] in Llo. rewrite <- app_assoc in Ews. cbn [app] in Ews.
        apply wf_app in Wlo as [Wlo' Wn]. apply wf_cons in Wn as [Wn _]. split. { f_equal. rewrite Ews. apply get_at. clear - Llo Hwi. lia. }
        split; [auto|]. intros j Hj. rewrite (testbit_pair lo' next cur hi j) by auto. rewrite <- Ews. f_equal. clear - Llo Hwi. nia. }
    destruct Nx as (next & -> & Wn & TN). pose proof Tt as Tt2. rewrite Eb in Tt2.
    destruct (pow_window_spec e next cur bi wi wl Wn Wcur Hbi WU TN Tt2) as (Wd & nb & Ep & Hnb & Hnb2 & _).
    pose proof (pow_window_zeros e next cur bi wi wl Wd nb Wn Wcur Hbi WU TN Tt2 Ep) as ZN. rewrite <- Eb in Hnb2, ZN.
    cbn [negb].
    match goal with |- costs (cbind ?m ?k) _ _ =>
      apply (costs_bind_spends m k (1 + X * bit + X) _ (fun y => X * snd y) (fun y => snd y = bit - (nb - 1) /\ ml_ring (fst y) = r)) end.
    + apply (spends_bind _ _ 0 _ _ (fun x => x = next)); [apply costs_ok; [lia|reflexivity]|]. intros ? ->.
      eapply spends_bind; [apply costs_call|]. cbv beta. intros y Ey. rewrite Ep in Ey. injection Ey as <-. cbv beta iota.
      apply (spends_bind _ _ 0 _ _ (fun x => x = nb - 1)).
      { intros x Ex. rewrite snd_free in Ex. rewrite checked_ok in Ex by (clear - Hnb Hwl WC; lia). injection Ex as <-. split; [cbn; lia|reflexivity]. }
      intros ? ->. eapply spends_bind; [eapply square_times_costs; eassumption|]. cbv beta. intros v2 Ev2. rewrite Z2Nat.id by (clear - Hnb; lia).
      apply (spends_bind _ _ 0 _ _ (fun x => x = bit - (nb - 1))).
      { intros x Ex. rewrite snd_free in Ex. unfold usize_chk, checked in Ex. split; [cbn; lia|]. destruct (_ && _) in Ex; [|discriminate]. injection Ex as <-. reflexivity. }
      intros ? ->. apply (spends_bind _ _ 0 _ _ (fun _ => True)); [intros x _; split; [cbn; lia|exact I]|]. intros ? _.
      apply (spends_bind _ _ 0 _ _ (fun _ => True)); [intros x _; split; [cbn; lia|exact I]|]. intros entry _.
      eapply spends_bind; [eapply mul_in_place_costs; eassumption|]. cbv beta. intros v3 Ev3.
      apply spends_free; cbn [fst snd]; [|split; [reflexivity|exact Ev3]]. cbn [Z.of_nat]. lia.
    + intros [v3 b3] [E3 Ev3]. cbn [fst snd] in *. cbv beta iota. subst b3. set (k := nb - 1) in *. assert (Hk : 0 <= k < wl /\ k <= bit) by (unfold k; lia).
      pose proof (windows_one bit) as WO.
      destruct (Z.eqb_spec (bit - k) 0) as [Nb|Nb].
      * apply costs_ok; [|exact Ev3]. assert (0 <= windows wl bit wl). { unfold windows. apply Z.div_pos; lia. }
        assert ((X + 1) * (bit + 1) <= (X + 1) * (bit + windows wl bit 0)) by (apply Z.mul_le_mono_nonneg_l; lia). cbn [Z.of_nat]. lia.
      * eapply costs_bind; [eapply square_costs; eassumption|]. cbv beta. intros v4 Ev4.
        eapply costs_weaken; [apply (IH v4 (bit - k - 1) (Z.min (wl - nb) (bit - k))); [lia|lia|exact Ev4|]| |auto].
        -- intros j Hj. apply ZN. unfold k in *. lia.
        -- assert (Wn2 : windows wl (bit - k - 1) (Z.min (wl - nb) (bit - k)) <= windows wl bit wl).
           { destruct (Z.min_spec (wl - nb) (bit - k)) as [[_ ->]|[Q ->]]; [apply windows_mono; unfold k; lia|].
             unfold windows. rewrite (Z.div_small (bit - k - 1 - (bit - k) + wl)) by lia. apply Z.div_pos; lia. }
           assert ((X + 1) * (bit - k - 1 + windows wl (bit - k - 1) (Z.min (wl - nb) (bit - k))) <= (X + 1) * (bit - k - 1 + (windows wl bit 0 - 1)))
             by (apply Z.mul_le_mono_nonneg_l; lia).
           cbn [Z.of_nat]. lia.
  - apply costs_bind_free. intros y Ey. injection Ey as <-. cbv beta iota. destruct (Z.eqb_spec bit 0) as [->|Nb].
    + apply costs_ok; [|exact Ev]. pose proof (windows_pos 0 z ltac:(lia)). assert (0 <= (X + 1) * (0 + windows wl 0 z)) by (apply Z.mul_nonneg_nonneg; lia). lia.
    + eapply costs_bind; [eapply square_costs; eassumption|]. cbv beta. intros v2 Ev2.
      eapply costs_weaken; [apply (IH v2 (bit - 1) (Z.max 0 (z - 1))); [lia|lia|exact Ev2|]| |auto].
      * intros j Hj. apply ZB. lia.
      * assert (Wn : windows wl (bit - 1) (Z.max 0 (z - 1)) <= windows wl bit z) by (apply windows_mono; lia).
        assert ((X + 1) * (bit - 1 + windows wl (bit - 1) (Z.max 0 (z - 1))) <= (X + 1) * (bit - 1 + windows wl bit z)) by (apply Z.mul_le_mono_nonneg_l; lia).
        cbn [Z.of_nat]. lia.
Qed.

End Loop.
