(** The number of steps of the greatest common divisor and of the linear operations (Model/CostGcd.v). *)
From Coq Require Import Lia.
From Verif Require Import Model.Base Model.Words Model.Add Model.Shift Model.Memory Model.Mul Model.Buffer Model.UBig Model.IBig
  Model.Convert Model.AddOps Model.MulOps Model.ShiftOps Model.Bits Model.DivOps Model.PrimOps Model.Gcd Model.Cost
  Model.CostDiv Model.CostOps Model.CostFmt Model.CostGcd Spec.Val Spec.Num.
From Verif Require Proofs.FmtProofs.
From Verif Require Import Proofs.Basics Proofs.BufferProofs Proofs.Bounds Proofs.AddOpsProofs Proofs.ShiftOpsProofs Proofs.BitCountProofs Proofs.DivOpsProofs Proofs.Limits Proofs.ApiProofs Proofs.GcdProofs
  Proofs.CostProofs Proofs.CostBounds Proofs.CostTheorems Proofs.CostRates Proofs.CostDivProofs
  Proofs.CostOpsProofs Proofs.CostOpsBounds Proofs.CostDivOps Proofs.CostFmtProofs Proofs.CostFmtSteps Proofs.CostOperators Proofs.CostGcdProofs Proofs.CostGcdSteps.

Section Theorems.
Context {A : Arch} {AOK : ArchOk A}.

Lemma B_bits n : 0 <= n -> B ^ n = 2 ^ (wbits * n).
Proof. intros N. unfold B. rewrite Z.pow_mul_r; [reflexivity| |exact N]. destruct AOK as [[->|[->| ->]] _]; lia. Qed.

Lemma wbits_pos : 0 < wbits.
Proof. destruct AOK as [[->|[->| ->]] _]; lia. Qed.

Lemma uval_below u L : ubig_ok u -> ulen u <= L -> 0 <= uval u < B ^ L.
Proof.
  intros O L1. pose proof (uval_nonneg u O). pose proof B_ge. pose proof (ulen_pos u O). split; [lia|].
  destruct (Z.eq_dec (uval u) 0) as [->|E]; [apply Z.pow_pos_nonneg; lia|].
  destruct (FmtProofs.ulen_facts u O ltac:(lia)) as [U1 U2]. eapply Z.lt_le_trans; [apply U2|]. apply Z.pow_le_mono_r; lia.
Qed.

Lemma log2_len x L : 0 <= L -> 0 <= x < B ^ L -> Z.log2 x <= wbits * L.
Proof.
  intros L0 H. pose proof wbits_pos as W. assert (0 <= wbits * L) by (apply Z.mul_nonneg_nonneg; lia).
  destruct (Z.eq_dec x 0) as [->|E]; [cbn; lia|]. rewrite B_bits in H by exact L0. apply Z.lt_le_incl, Z.log2_lt_pow2; lia.
Qed.

Lemma tz_known u L : ubig_ok u -> ulen u <= L -> costs (c_ubig_trailing_zeros u) (L + 1) (fun x =>
  match x with
  | None => uval u = 0
  | Some j => 0 <= j /\ j / wbits <= ulen u /\ exists c, 0 < c /\ Z.odd c = true /\ uval u = c * 2 ^ j
  end).
Proof.
  intros O LL. eapply costs_weaken; [apply (tz_costs u L LL)|lia|]. cbv beta. intros x E.
  destruct (ubig_trailing_zeros_spec u O) as [T0 T1]. destruct (Z.eq_dec (uval u) 0) as [Z0|Z0].
  - rewrite (T0 Z0) in E. injection E as <-. exact Z0.
  - destruct (T1 Z0) as (j & F & OP). rewrite F in E. injection E as <-. destruct (odd_part_odd _ _ OP) as (J & c & C0 & C1 & C2 & _).
    split; [exact J|]. split; [|exists c; auto]. pose proof (ulen_pos u O) as L1. pose proof wbits_pos as W.
    destruct (uval_below u (ulen u) O (Z.le_refl _)) as [_ V]. rewrite B_bits in V by lia.
    assert (P : 2 ^ j <= uval u) by (rewrite C2; assert (0 < 2 ^ j) by (apply Z.pow_pos_nonneg; lia); nia).
    assert (Q : j < wbits * ulen u) by (apply (Z.pow_lt_mono_r_iff 2); [lia|apply Z.mul_nonneg_nonneg; lia|lia]).
    apply Z.div_le_upper_bound; lia.
Qed.

Lemma clone_known u L : ubig_ok u -> ulen u <= L -> costs (c_ubig_clone u) (L + 1) (fun x => ubig_ok x /\ uval x = uval u).
Proof.
  intros O LL. eapply (costs_known _ (ubig_clone u)); [reflexivity|apply (clone_costs u L LL)|]. intros x E.
  destruct (ubig_clone_spec u O) as (y & F & Oy & V). rewrite F in E. injection E as <-. auto.
Qed.

Lemma shr_r_known u k L : ubig_ok u -> 0 <= k -> ulen u <= L ->
  costs (c_ubig_shr_r u k) (4 * L + 4) (fun x => ubig_ok x /\ uval x = uval u / 2 ^ k).
Proof.
  intros O K Lu. pose proof (ulen_pos u O). eapply costs_known; [apply shr_r_erase|eapply costs_weaken; [apply (shr_r_costs u k); lia|lia|intros x X; exact X]|].
  intros x E. destruct (shr_returns (ubig_shr_r u k) u k O K) as (y & F & Oy & V); [apply ubig_shr_r_yields; auto|]. rewrite F in E. injection E as <-. auto.
Qed.

Lemma sub_rv_known a b L : ubig_ok a -> ubig_ok b -> uval b <= uval a -> ulen a <= L ->
  costs (c_ubig_sub_rv a b) (6 * L + 5) (fun x => ubig_ok x /\ uval x = uval a - uval b).
Proof.
  intros Oa Ob V La. pose proof (ulen_pos a Oa). eapply costs_known; [apply sub_rv_erase|eapply costs_weaken; [apply (sub_costs a b); lia|lia|intros x X; exact X]|].
  intros x E. destruct (ubig_sub_rv_yields a b Oa Ob) as [Y _]. destruct Y as [Y _]; [lia|].
  destruct Y as (y & F & P); [pose proof (ubig_ok_val _ Oa); pose proof (ubig_ok_val _ Ob); lia|]. rewrite F in E. injection E as <-. exact P.
Qed.

Lemma rem_known a b M m : ubig_ok a -> ubig_ok b -> uval b <> 0 -> ulen a <= M -> ulen b <= m ->
  costs (c_ubig_rem_vr a b) ((1925 * m + 20) * (M + 1)) (fun x => ubig_ok x /\ uval x = uval a mod uval b).
Proof.
  intros Oa Ob NZ La Lb. pose proof (ulen_pos a Oa) as La1. pose proof (ulen_pos b Ob) as Lb1.
  assert (M1 : 1 <= m) by lia. destruct (divides_below m M1) as (W & W1 & WB & D). apply below_linear in WB; [|lia|lia].
  eapply costs_known; [apply rem_vr_erase|eapply costs_weaken; [apply (rem_vr_costs m W a b); [lia|exact D|lia|lia]| |intros x X; exact X]|].
  - apply Z.mul_le_mono_nonneg; lia.
  - intros x E. destruct (ubig_rem_vr_yields a b Oa Ob) as [_ Y]. destruct (Y NZ) as (y & F & P). rewrite F in E. injection E as <-. exact P.
Qed.

Lemma div_rem_known a b M m : ubig_ok a -> ubig_ok b -> uval b <> 0 -> ulen a <= M -> ulen b <= m ->
  costs (c_ubig_div_rem_rr a b) ((1925 * m + 20) * (M + 1)) (fun x =>
    ubig_ok (fst x) /\ ubig_ok (snd x) /\ uval (fst x) = uval a / uval b /\ uval (snd x) = uval a mod uval b).
Proof.
  intros Oa Ob NZ La Lb. pose proof (ulen_pos a Oa) as La1. pose proof (ulen_pos b Ob) as Lb1.
  assert (M1 : 1 <= m) by lia. destruct (divides_below m M1) as (W & W1 & WB & D). apply below_linear in WB; [|lia|lia].
  eapply costs_known; [apply div_rem_rr_erase|eapply costs_weaken; [apply (div_rem_ops_costs m W a b); [lia|exact D|lia|lia]| |intros x X; exact X]|].
  - apply Z.mul_le_mono_nonneg; lia.
  - intros x E. destruct (ubig_div_rem_rr_yields a b Oa Ob) as [_ Y]. destruct (Y NZ) as (q & r & F & P). rewrite F in E. injection E as <-. exact P.
Qed.

(** *** gcd *)

Lemma gcd_costs a b M m : ubig_ok a -> ubig_ok b -> ulen a <= M -> ulen b <= M -> (ulen a <= m \/ ulen b <= m) -> m <= M ->
  costs (c_ubig_gcd a b) ((4000 * M + 36 * wbits * m) * m) (fun _ => True).
Proof.
  intros Oa Ob La Lb Lm MM. pose proof (ulen_pos a Oa) as La1. pose proof (ulen_pos b Ob) as Lb1. pose proof wbits_pos as W.
  assert (Mm : M <= M * m /\ m <= M * m) by (clear - La Lb La1 Lb1 Lm MM; nia). destruct Mm as [Mm mM]. assert (WM : 0 <= wbits * m * m) by (repeat apply Z.mul_nonneg_nonneg; lia).
  unfold c_ubig_gcd.
  eapply costs_bind; [apply (clone_known a M); auto|]. intros a' [Oa' Va].
  eapply costs_bind; [apply (clone_known b M); auto|]. intros b' [Ob' Vb].
  assert (La' : 1 <= ulen a' <= ulen a) by (apply ulen_val; auto; lia). assert (Lb' : 1 <= ulen b' <= ulen b) by (apply ulen_val; auto; lia).
  eapply costs_bind; [apply (tz_known a' M); [auto|lia]|]. intros az Za.
  eapply costs_bind; [apply (tz_known b' M); [auto|lia]|]. intros bz Zb.
  destruct az as [j|], bz as [k|]; [|apply costs_ok; [lia|exact I]|apply costs_ok; [lia|exact I]|apply costs_panic].
  destruct Za as (J & JL & c & C0 & C1 & C2). destruct Zb as (K & KL & d & D0 & D1 & D2).
  assert (Pj : 0 < 2 ^ j) by (apply Z.pow_pos_nonneg; lia). assert (Pk : 0 < 2 ^ k) by (apply Z.pow_pos_nonneg; lia).
  eapply costs_bind; [apply (shr_known a' j M); [auto|lia|lia]|]. intros a1 [Oa1 Va1]. rewrite C2, Z.div_mul in Va1 by lia.
  eapply costs_bind; [apply (shr_known b' k M); [auto|lia|lia]|]. intros b1 [Ob1 Vb1]. rewrite D2, Z.div_mul in Vb1 by lia. cbv zeta.
  assert (La1' : 1 <= ulen a1 <= ulen a') by (apply ulen_val; auto; nia). assert (Lb1' : 1 <= ulen b1 <= ulen b') by (apply ulen_val; auto; nia).
  eapply costs_bind; [apply (lt_known a1 b1 M); [auto|auto|lia]|]. intros lt ->.
  assert (ZL : Z.min j k / wbits <= m).
  { destruct Lm as [Lm|Lm]; [apply (Z.le_trans _ (j / wbits))|apply (Z.le_trans _ (k / wbits))]; try lia; apply Z.div_le_mono; lia. }
  assert (main : forall s t, ubig_ok s -> ubig_ok t -> uval t <> 0 -> ulen s <= M -> ulen t <= m ->
    costs (a0 <+ c_ubig_rem_vr s t ;; b0 <+ c_gcd_loop (gcd_fuel a0 t) a0 t ;; c_ubig_shl_v b0 (Z.min j k))
      (3890 * (M * m) + 36 * (wbits * m * m) + 71 * m) (fun _ => True)).
  { clear - AOK W M m La La1 Lb Lb1 Lm MM Mm mM WM J K ZL. intros s t Os Ot NZ Ls Lt. pose proof (ulen_pos t Ot) as Lt1.
    assert (M1 : 1 <= m) by lia. assert (CR : (1925 * m + 20) * (M + 1) <= 3890 * (M * m)) by (clear - M1 MM; nia).
    eapply costs_bind; [eapply costs_weaken; [apply (rem_known s t M m); auto|exact CR|intros x X; exact X]|]. intros r [Or Vr]. cbv beta in *.
    pose proof (uval_nonneg t Ot). assert (MB : 0 <= uval s mod uval t < uval t) by (apply Z.mod_pos_bound; lia).
    assert (Lr : 1 <= ulen r <= ulen t) by (apply ulen_val; auto; lia).
    eapply costs_bind; [eapply costs_weaken; [apply (gcd_loop_costs m); lia| |intros x X; exact X]|]; [|intros g Lg; cbv beta in Lg].
    - instantiate (1 := 36 * (wbits * m * m) + 54 * m). unfold gcd_fuel. rewrite Nat2Z.inj_add. change (Z.of_nat 3) with 3.
      pose proof (as_words_ulen r) as Lr2. pose proof (as_words_ulen t) as Lt2.
      rewrite Z2Nat.id by (apply Z.mul_nonneg_nonneg; unfold len; lia).
      assert (LW : wbits * (len (as_words r) + len (as_words t)) <= 2 * (wbits * m)) by (clear - Lr Lr2 Lt Lt1 Lt2 W; unfold len in *; nia).
      apply (Z.le_trans _ ((3 + 2 * (wbits * m)) * (18 * m))); [|lia].
      apply Z.mul_le_mono_nonneg; [|lia|lia|lia]. pose proof (Z.mul_nonneg_nonneg wbits (len (as_words r) + len (as_words t))). unfold len in *; lia.
    - eapply costs_weaken; [apply shl_costs; lia|lia|auto]. }
  assert (TOT : 3890 * (M * m) + 36 * (wbits * m * m) + 71 * m + 13 * M + 11 <= (4000 * M + 36 * wbits * m) * m).
  { rewrite Z.mul_add_distr_r. replace (36 * wbits * m * m) with (36 * (wbits * m * m)) by ring. lia. }
  destruct (Z.ltb_spec (uval a1) (uval b1)) as [C|C].
  - assert (LL : 1 <= ulen a1 <= ulen b1) by (apply ulen_val; auto; lia). eapply costs_weaken; [apply (main b1 a1); auto; lia|lia|auto].
  - assert (LL : 1 <= ulen b1 <= ulen a1) by (apply ulen_val; auto; lia). eapply costs_weaken; [apply (main a1 b1); auto; lia|lia|auto].
Qed.

(** *** extended_gcd *)

Lemma extended_gcd_costs a b M m : ubig_ok a -> ubig_ok b -> ulen a <= M -> ulen b <= M -> (ulen a <= m \/ ulen b <= m) -> m <= M ->
  costs (c_ubig_extended_gcd a b) ((4100 + 280 * wbits) * (M * m)) (fun _ => True).
Proof.
  intros Oa Ob La Lb Lm MM. pose proof (ulen_pos a Oa) as La1. pose proof (ulen_pos b Ob) as Lb1. pose proof wbits_pos as W.
  assert (Mm : M <= M * m /\ m <= M * m) by (clear - La Lb La1 Lb1 Lm MM; nia). destruct Mm as [Mm mM]. assert (WM : 0 <= wbits * (M * m)) by (repeat apply Z.mul_nonneg_nonneg; lia).
  unfold c_ubig_extended_gcd.
  eapply costs_bind; [apply (tz_known a M); [auto|lia]|]. intros az Za.
  eapply costs_bind; [apply (tz_known b M); [auto|lia]|]. intros bz Zb.
  destruct az as [j|], bz as [k|]; [| | |apply costs_panic].
  2: { eapply costs_bind; [apply (clone_known a M); auto|]. intros g _. apply costs_bind_free. intros x _. apply costs_bind_free. intros y _. apply costs_ok; [lia|exact I]. }
  2: { eapply costs_bind; [apply (clone_known b M); auto|]. intros g _. apply costs_bind_free. intros x _. apply costs_bind_free. intros y _. apply costs_ok; [lia|exact I]. }
  destruct Za as (J & JL & c & C0 & C1 & C2). destruct Zb as (K & KL & d & D0 & D1 & D2). cbv zeta.
  remember (Z.min j k) as z eqn:Ez.
  assert (ZL : z / wbits <= m).
  { subst z. destruct Lm as [Lm|Lm]; [apply (Z.le_trans _ (j / wbits))|apply (Z.le_trans _ (k / wbits))]; try lia; apply Z.div_le_mono; lia. }
  assert (Hz : 0 <= z /\ z <= j /\ z <= k) by (clear - Ez J K; lia). destruct Hz as (Hz & Zj & Zk).
  assert (Pz : 0 < 2 ^ z) by (apply Z.pow_pos_nonneg; lia).
  assert (sp : forall e w, z <= e -> w * 2 ^ e = w * 2 ^ (e - z) * 2 ^ z).
  { intros e w He. rewrite <- Z.mul_assoc, <- Z.pow_add_r by lia. do 2 f_equal. lia. }
  eapply costs_bind; [apply (shr_r_known a z M); auto|]. intros u [Hu Vu]. rewrite C2, (sp j), Z.div_mul in Vu by lia.
  eapply costs_bind; [apply (shr_r_known b z M); auto|]. intros v [Hv Vv]. rewrite D2, (sp k), Z.div_mul in Vv by lia.
  assert (Pu : 0 < uval u) by (rewrite Vu; apply Z.mul_pos_pos; [exact C0|]; apply Z.pow_pos_nonneg; [reflexivity|clear - Zj; lia]).
  assert (Pv : 0 < uval v) by (rewrite Vv; apply Z.mul_pos_pos; [exact D0|]; apply Z.pow_pos_nonneg; [reflexivity|clear - Zk; lia]).
  assert (Ouv : Z.odd (uval u) = true \/ Z.odd (uval v) = true).
  { destruct (Z.min_spec j k) as [[_ MN]|[_ MN]]; rewrite MN in Ez; subst z.
    - left. rewrite Vu, Z.sub_diag, Z.mul_1_r. auto.
    - right. rewrite Vv, Z.sub_diag, Z.mul_1_r. auto. }
  assert (Lu : 1 <= ulen u <= ulen a).
  { apply ulen_val; auto. rewrite C2, (sp j) by lia. rewrite <- Vu. clear - Pu Pz. nia. }
  assert (Lv : 1 <= ulen v <= ulen b).
  { apply ulen_val; auto. rewrite D2, (sp k) by lia. rewrite <- Vv. clear - Pv Pz. nia. }
  clear c C0 C1 C2 d D0 D1 D2 sp Vu Vv Ez.
  eapply costs_bind; [apply (lt_known u v M); [auto|auto|lia]|]. intros le ->.
  assert (Ru : uval u < B ^ M) by (apply uval_below; [auto|lia]). assert (Rv : uval v < B ^ M) by (apply uval_below; [auto|lia]).
  apply (costs_bind _ _ (3890 * (M * m) + 14 * M + 12) _ (fun st => tri_ok (uval u) (uval v) (fst st) /\ tri_ok (uval u) (uval v) (snd st) /\
     (Z.odd (tri_a (fst st)) = true \/ Z.odd (tri_a (snd st)) = true) /\ 0 <= tri_a (fst st) < B ^ m /\ 0 <= tri_a (snd st) < B ^ m)).
  { pose proof one_ok as H1. pose proof zero_ok as H0. assert (M1 : 1 <= m) by lia. assert (CR : (1925 * m + 20) * (M + 1) <= 3890 * (M * m)) by (clear - M1 MM; nia). unfold tri_a.
    destruct (Z.leb_spec (uval u) (uval v)) as [C|C].
    - assert (LL : 1 <= ulen u <= ulen v) by (apply ulen_val; auto).
      assert (Um : 0 <= uval u < B ^ m) by (apply uval_below; [auto|lia]).
      eapply costs_bind; [eapply costs_weaken; [apply (div_rem_known v u M m); auto; lia|exact CR|intros x X; exact X]|].
      intros [q r] (Hq & Hr & Vq & Vr). cbn [fst snd] in *. cbv beta iota.
      eapply costs_bind; [apply (clone_known u M); [auto|lia]|]. intros u' [Hu' Vu'].
      pose proof (Z.div_mod (uval v) (uval u) ltac:(lia)) as DM. pose proof (Z.mod_pos_bound (uval v) (uval u) Pu) as MB.
      rewrite <- Vq, <- Vr in DM. rewrite <- Vr in MB. assert (1 <= uval q <= uval v) as Bq by (clear - DM MB Pu C; nia).
      eapply costs_bind; [apply (sub_rv_known v q M); [auto|auto|lia|lia]|]. intros bx [Hbx Vbx].
      eapply costs_bind; [apply (sub_rv_known u (from_word 1) M); [auto|auto|cbn [uval from_word]; lia|lia]|]. intros by_ [Hby Vby]. cbn [uval from_word] in Vby.
      apply costs_ok; [lia|]. cbn [fst snd]. split; [|split; [|split; [|split; lia]]].
      + cbn [tri_ok]. do 3 (split; [auto|]). unfold binv. cbn [uval from_word]. lia.
      + cbn [tri_ok]. do 3 (split; [auto|]). unfold binv. rewrite Vbx, Vby. split; [lia|]. split; [lia|]. split; [|lia]. clear - DM. nia.
      + destruct (Z.odd (uval u')) eqn:Q; [auto|]. right. rewrite Vu' in Q.
        destruct Ouv as [U|U]; [congruence|]. rewrite DM, Z.odd_add, Z.odd_mul, Q in U. destruct (Z.odd (uval r)); [auto|discriminate].
    - assert (LL : 1 <= ulen v <= ulen u) by (apply ulen_val; auto; lia).
      assert (Um : 0 <= uval v < B ^ m) by (apply uval_below; [auto|lia]).
      eapply costs_bind; [eapply costs_weaken; [apply (div_rem_known u v M m); auto; lia|exact CR|intros x X; exact X]|].
      intros [q r] (Hq & Hr & Vq & Vr). cbn [fst snd] in *. cbv beta iota.
      eapply costs_bind; [apply (clone_known v M); [auto|lia]|]. intros v' [Hv' Vv'].
      eapply costs_bind; [apply (clone_known v M); [auto|lia]|]. intros v2 [Hv2 Vv2].
      pose proof (Z.div_mod (uval u) (uval v) ltac:(lia)) as DM. pose proof (Z.mod_pos_bound (uval u) (uval v) Pv) as MB.
      rewrite <- Vq, <- Vr in DM. rewrite <- Vr in MB. assert (1 <= uval q <= uval u) as Bq by (clear - DM MB Pv C; nia).
      eapply costs_bind; [apply (sub_rv_known u (from_word 1) M); [auto|auto|cbn [uval from_word]; lia|lia]|]. intros by_ [Hby Vby]. cbn [uval from_word] in Vby.
      apply costs_ok; [lia|]. cbn [fst snd]. split; [|split; [|split; [|split; lia]]].
      + cbn [tri_ok]. do 3 (split; [auto|]). unfold binv. rewrite Vv', Vv2, Vby. clear - Pu Pv C. nia.
      + cbn [tri_ok]. do 3 (split; [auto|]). unfold binv. cbn [uval from_word]. lia.
      + destruct (Z.odd (uval v')) eqn:Q; [auto|]. right. rewrite Vv' in Q.
        destruct Ouv as [U|U]; [|congruence]. rewrite DM, Z.odd_add, Z.odd_mul, Q in U. destruct (Z.odd (uval r)); [auto|discriminate]. }
  intros [s t] (Ts & Tt & Ost & Rs & Rt). cbn [fst snd] in *. cbv beta iota.
  assert (main : forall s t, tri_ok (uval u) (uval v) s -> tri_ok (uval u) (uval v) t -> Z.odd (tri_a t) = true ->
    0 <= tri_a s < B ^ m -> 0 <= tri_a t < B ^ m ->
    costs (let '(a, _, _) := s in let '(b, _, _) := t in
           '(b, bx, by_) <+ c_egcd_loop (gcd_fuel a b) u v s t ;;
           g <+ c_ubig_shl_v b z ;;
           free (Ok (g, ibig_from_ubig bx, ibig_neg (ibig_from_ubig by_))))
      (276 * (wbits * (M * m)) + 30 * M + 40 + 8 * m + 9) (fun _ => True)).
  { clear - AOK W M m La La1 Lb Lb1 Lm MM Mm mM WM Hz ZL Hu Hv Ru Rv Pu Pv Ouv.
    intros [[s sx] sy] [[t tx] ty] S T Ot Rs Rt. cbv beta iota.
    eapply costs_bind; [eapply costs_weaken; [apply (egcd_costs u v M); auto; lia| |intros x X; exact X]|].
    - instantiate (1 := 276 * (wbits * (M * m)) + 30 * M + 40). pose proof (log2_len _ m ltac:(lia) Rs) as Ls. pose proof (log2_len _ m ltac:(lia) Rt) as Lt.
      assert (X : (58 * M + 80) * (Z.log2 (tri_a (s, sx, sy)) + Z.log2 (tri_a (t, tx, ty))) <= (138 * M) * (2 * (wbits * m))).
      { pose proof (Z.log2_nonneg (tri_a (s, sx, sy))). pose proof (Z.log2_nonneg (tri_a (t, tx, ty))). apply Z.mul_le_mono_nonneg; lia. }
      replace (138 * M * (2 * (wbits * m))) with (276 * (wbits * (M * m))) in X by ring. clear - X La La1. destruct (Z.odd (tri_a (s, sx, sy))); lia.
    - intros [[g gx] gy] [(Hg & _) Vg]. cbv beta iota. unfold tri_a in Rt, Vg, Ot. cbn [fst] in *.
      assert (Lg : 1 <= ulen g <= m).
      { apply len_small; [lia|exact Hg|]. rewrite Vg. eapply Z.le_lt_trans; [|apply Rt].
        destruct (Z.eq_dec (uval t) 0) as [E|E]; [rewrite E in Ot; discriminate|]. apply Z.divide_pos_le; [lia|apply Z.gcd_divide_r]. }
      eapply costs_bind; [apply shl_costs; lia|]. intros h _. apply costs_ok; [lia|exact I]. }
  assert (TOT : 3890 * (M * m) + 14 * M + 12 + (2 * (M + 1) + 2 * (4 * M + 4) + (M + 1)) + 1 + (276 * (wbits * (M * m)) + 30 * M + 40 + 8 * m + 9) <= (4100 + 280 * wbits) * (M * m)).
  { rewrite Z.mul_add_distr_r. replace (280 * wbits * (M * m)) with (280 * (wbits * (M * m))) by ring. lia. }
  destruct s as [[s sx] sy], t as [[t tx] ty]. pose proof Tt as (Ht & _).
  eapply costs_bind; [apply (odd_known t); exact Ht|]. intros o ->.
  unfold tri_a in *. cbn [fst] in *. destruct (Z.odd (uval t)) eqn:Q.
  - eapply costs_weaken; [apply (main (s, sx, sy) (t, tx, ty)); auto|lia|auto].
  - eapply costs_weaken; [apply (main (t, tx, ty) (s, sx, sy)); auto; cbn [fst]; destruct Ost; [auto|discriminate]|lia|auto].
Qed.

End Theorems.

(** *** Steps are never negative *)

Section Nonneg.
Context {A : Arch}.

Lemma add_large_word_nn b a : 0 <= fst (c_add_large_word b a).
Proof. unfold c_add_large_word, c_from_buffer, c_push_may_reallocate. onn. Qed.

Lemma add_large_nn b a : 0 <= fst (c_add_large b a).
Proof. unfold c_add_large, c_from_buffer, c_push_may_reallocate. onn. Qed.

Lemma add_vr_nn a b : 0 <= fst (c_ubig_add_vr a b).
Proof. unfold c_ubig_add_vr, c_buffer_clone, c_add_word. pose proof add_large_word_nn. pose proof add_large_nn. onn. Qed.

Lemma add_rr_nn a b : 0 <= fst (c_ubig_add_rr a b).
Proof. unfold c_ubig_add_rr, c_buffer_clone, c_add_word. pose proof add_large_word_nn. pose proof add_large_nn. onn. Qed.

Lemma sub_large_word_nn b a : 0 <= fst (c_sub_large_word b a).
Proof. unfold c_sub_large_word, c_from_buffer. onn. Qed.

Lemma sub_large_nn b a : 0 <= fst (c_sub_large b a).
Proof. unfold c_sub_large, c_from_buffer. onn. Qed.

Lemma sub_large_ref_val_nn b a : 0 <= fst (c_sub_large_ref_val b a).
Proof. unfold c_sub_large_ref_val, c_from_buffer. onn. Qed.

Lemma sub_vr_nn a b : 0 <= fst (c_ubig_sub_vr a b).
Proof. unfold c_ubig_sub_vr, c_buffer_clone, c_sub_word. pose proof sub_large_word_nn. pose proof sub_large_nn. onn. Qed.

Lemma sub_rv_nn a b : 0 <= fst (c_ubig_sub_rv a b).
Proof. unfold c_ubig_sub_rv, c_buffer_clone, c_sub_word. pose proof sub_large_word_nn. pose proof sub_large_ref_val_nn. onn. Qed.

Lemma sub_rr_nn a b : 0 <= fst (c_ubig_sub_rr a b).
Proof. unfold c_ubig_sub_rr, c_buffer_clone, c_sub_word. pose proof sub_large_word_nn. pose proof sub_large_nn. onn. Qed.

Lemma shl_word_nn w k : 0 <= fst (c_shl_word w k).
Proof. unfold c_shl_word, c_shl_word_slow, c_from_buffer. cbv zeta. onn. Qed.

Lemma shl_ref_large_nn w k : 0 <= fst (c_shl_ref_large w k).
Proof. unfold c_shl_ref_large, c_from_buffer. cbv zeta. onn. Qed.

Lemma shl_large_nn w k : 0 <= fst (c_shl_large w k).
Proof. unfold c_shl_large, c_from_buffer. cbv zeta. pose proof shl_ref_large_nn. onn. Qed.

Lemma shl_v_nn u k : 0 <= fst (c_ubig_shl_v u k).
Proof. unfold c_ubig_shl_v. pose proof shl_word_nn. pose proof shl_large_nn. onn. Qed.

Lemma shl_r_nn u k : 0 <= fst (c_ubig_shl_r u k).
Proof. unfold c_ubig_shl_r. pose proof shl_word_nn. pose proof shl_ref_large_nn. onn. Qed.

Lemma shr_v_nn u k : 0 <= fst (c_ubig_shr_v u k).
Proof. unfold c_ubig_shr_v, c_shr_large, c_from_buffer. cbv zeta. onn. Qed.

Lemma shr_r_nn u k : 0 <= fst (c_ubig_shr_r u k).
Proof. unfold c_ubig_shr_r, c_shr_large_ref, c_from_buffer. cbv zeta. onn. Qed.

Lemma rem_vr_nn a b : 0 <= fst (c_ubig_rem_vr a b).
Proof. unfold c_ubig_rem_vr, c_rem_large, c_from_buffer, c_buffer_clone. pose proof div_rem_in_lhs_nn. onn. Qed.

Lemma gcd_loop_nn fuel : forall a b, 0 <= fst (c_gcd_loop fuel a b).
Proof.
  pose proof shr_v_nn. pose proof sub_vr_nn.
  induction fuel as [|fuel IH]; intros; cbn [c_gcd_loop]; unfold c_ubig_trailing_zeros, c_ubig_lt; cbv zeta; onn.
Qed.

Lemma gcd_nn a b : 0 <= fst (c_ubig_gcd a b).
Proof.
  unfold c_ubig_gcd, c_ubig_clone, c_ubig_trailing_zeros, c_ubig_lt. cbv zeta.
  pose proof shr_v_nn. pose proof shl_v_nn. pose proof gcd_loop_nn. pose proof rem_vr_nn. onn.
Qed.

Lemma halve_nn fuel : forall u v t, 0 <= fst (c_halve_loop fuel u v t).
Proof.
  pose proof shr_v_nn. pose proof add_vr_nn.
  induction fuel as [|fuel IH]; intros u v [[a x] y]; cbn [c_halve_loop]; unfold c_is_odd; cbv zeta; onn.
Qed.

Lemma egcd_loop_nn fuel : forall u v s t, 0 <= fst (c_egcd_loop fuel u v s t).
Proof.
  pose proof halve_nn. pose proof sub_vr_nn. pose proof add_vr_nn.
  induction fuel as [|fuel IH]; intros u v [[a x] y] [[b p] q]; cbn [c_egcd_loop]; unfold c_ubig_lt; cbv zeta; onn.
Qed.

Lemma extended_gcd_nn a b : 0 <= fst (c_ubig_extended_gcd a b).
Proof.
  unfold c_ubig_extended_gcd, c_ubig_clone, c_ubig_trailing_zeros, c_ubig_le, c_is_odd. cbv zeta.
  pose proof shr_r_nn. pose proof shl_v_nn. pose proof egcd_loop_nn. pose proof div_rem_rr_nn. pose proof sub_rv_nn. onn.
Qed.

End Nonneg.

Section Steps.
Context {A : Arch} {AOK : ArchOk A}.

Theorem add_op_steps (f : ubig -> ubig -> counted ubig) (g : ubig -> ubig -> res ubig) a b n x :
  In (f, g) [(c_ubig_add_vv, ubig_add_vv); (c_ubig_add_vr, ubig_add_vr); (c_ubig_add_rr, ubig_add_rr)] ->
  1 <= ulen a -> 1 <= ulen b -> f a b = (n, Ok x) -> g a b = Ok x /\ 0 <= n <= 18 * Z.max (ulen a) (ulen b).
Proof.
  intros F La Lb E. destruct F as [F|[F|[F|[]]]]; injection F as <- <-.
  - pose proof (add_vv_erase a b) as X. pose proof (add_vv_nn a b) as Y. rewrite E in X, Y. cbn [fst snd] in *. split; [auto|]. split; [exact Y|].
    pose proof (counted_bound _ _ _ _ _ E (add_costs a b (Z.max (ulen a) (ulen b)) ltac:(lia) ltac:(lia) ltac:(lia))). lia.
  - pose proof (add_vr_erase a b) as X. pose proof (add_vr_nn a b) as Y. rewrite E in X, Y. cbn [fst snd] in *. split; [auto|]. split; [exact Y|].
    pose proof (counted_bound _ _ _ _ _ E (add_vr_costs a b (Z.max (ulen a) (ulen b)) ltac:(lia) ltac:(lia) ltac:(lia))). lia.
  - pose proof (add_rr_erase a b) as X. pose proof (add_rr_nn a b) as Y. rewrite E in X, Y. cbn [fst snd] in *. split; [auto|]. split; [exact Y|].
    pose proof (counted_bound _ _ _ _ _ E (add_rr_costs a b (Z.max (ulen a) (ulen b)) ltac:(lia) ltac:(lia) ltac:(lia))). lia.
Qed.

Theorem sub_op_steps (f : ubig -> ubig -> counted ubig) (g : ubig -> ubig -> res ubig) a b n x :
  In (f, g) [(c_ubig_sub_vr, ubig_sub_vr); (c_ubig_sub_rv, ubig_sub_rv); (c_ubig_sub_rr, ubig_sub_rr)] ->
  1 <= ulen a -> f a b = (n, Ok x) -> g a b = Ok x /\ 0 <= n <= 11 * ulen a.
Proof.
  intros F La E. destruct (sub_costs a b La) as (C1 & C2 & C3). destruct F as [F|[F|[F|[]]]]; injection F as <- <-.
  - pose proof (sub_vr_erase a b) as X. pose proof (sub_vr_nn a b) as Y. rewrite E in X, Y. cbn [fst snd] in *. split; [auto|]. split; [exact Y|].
    apply (counted_bound _ _ _ _ _ E) in C1. lia.
  - pose proof (sub_rv_erase a b) as X. pose proof (sub_rv_nn a b) as Y. rewrite E in X, Y. cbn [fst snd] in *. split; [auto|]. split; [exact Y|].
    first [apply (counted_bound _ _ _ _ _ E) in C2|apply (counted_bound _ _ _ _ _ E) in C3]; lia.
  - pose proof (sub_rr_erase a b) as X. pose proof (sub_rr_nn a b) as Y. rewrite E in X, Y. cbn [fst snd] in *. split; [auto|]. split; [exact Y|].
    first [apply (counted_bound _ _ _ _ _ E) in C2|apply (counted_bound _ _ _ _ _ E) in C3]; lia.
Qed.

Theorem shl_op_steps (f : ubig -> Z -> counted ubig) (g : ubig -> Z -> res ubig) u k n x :
  In (f, g) [(c_ubig_shl_v, ubig_shl_v); (c_ubig_shl_r, ubig_shl_r)] ->
  1 <= ulen u -> 0 <= k -> f u k = (n, Ok x) -> g u k = Ok x /\ 0 <= n <= 14 * ulen u + 3 * (k / wbits).
Proof.
  intros F L K E. destruct (shl_costs u k L K) as [C1 C2]. destruct F as [F|[F|[]]]; injection F as <- <-.
  - pose proof (shl_v_erase u k) as X. pose proof (shl_v_nn u k) as Y. rewrite E in X, Y. cbn [fst snd] in *. split; [auto|]. split; [exact Y|].
    apply (counted_bound _ _ _ _ _ E) in C1. lia.
  - pose proof (shl_r_erase u k) as X. pose proof (shl_r_nn u k) as Y. rewrite E in X, Y. cbn [fst snd] in *. split; [auto|]. split; [exact Y|].
    apply (counted_bound _ _ _ _ _ E) in C2. lia.
Qed.

Theorem shr_op_steps (f : ubig -> Z -> counted ubig) (g : ubig -> Z -> res ubig) u k n x :
  In (f, g) [(c_ubig_shr_v, ubig_shr_v); (c_ubig_shr_r, ubig_shr_r)] ->
  1 <= ulen u -> f u k = (n, Ok x) -> g u k = Ok x /\ 0 <= n <= 8 * ulen u.
Proof.
  intros F L E. destruct F as [F|[F|[]]]; injection F as <- <-.
  - pose proof (shr_v_erase u k) as X. pose proof (shr_v_nn u k) as Y. rewrite E in X, Y. cbn [fst snd] in *. split; [auto|]. split; [exact Y|].
    pose proof (counted_bound _ _ _ _ _ E (shr_v_costs u k L)). lia.
  - pose proof (shr_r_erase u k) as X. pose proof (shr_r_nn u k) as Y. rewrite E in X, Y. cbn [fst snd] in *. split; [auto|]. split; [exact Y|].
    pose proof (counted_bound _ _ _ _ _ E (shr_r_costs u k L)). lia.
Qed.

Theorem gcd_steps a b n x : ubig_ok a -> ubig_ok b -> c_ubig_gcd a b = (n, Ok x) ->
  ubig_gcd a b = Ok x /\
  0 <= n <= (4000 * Z.max (ulen a) (ulen b) + 36 * wbits * Z.min (ulen a) (ulen b)) * Z.min (ulen a) (ulen b).
Proof.
  intros Oa Ob E. pose proof (gcd_erase a b) as X. pose proof (gcd_nn a b) as Y. rewrite E in X, Y. cbn [fst snd] in *. split; [auto|]. split; [exact Y|].
  apply (counted_bound _ _ _ _ _ E (gcd_costs a b (Z.max (ulen a) (ulen b)) (Z.min (ulen a) (ulen b)) Oa Ob ltac:(lia) ltac:(lia) ltac:(lia) ltac:(lia))).
Qed.

Theorem extended_gcd_steps a b n x : ubig_ok a -> ubig_ok b -> c_ubig_extended_gcd a b = (n, Ok x) ->
  ubig_extended_gcd a b = Ok x /\ 0 <= n <= (4100 + 280 * wbits) * (ulen a * ulen b).
Proof.
  intros Oa Ob E. pose proof (extended_gcd_erase a b) as X. pose proof (extended_gcd_nn a b) as Y. rewrite E in X, Y. cbn [fst snd] in *. split; [auto|]. split; [exact Y|].
  replace (ulen a * ulen b) with (Z.max (ulen a) (ulen b) * Z.min (ulen a) (ulen b)).
  2: { destruct (Z.max_spec (ulen a) (ulen b)) as [[? ->]|[? ->]]; [rewrite Z.min_l by lia; ring|rewrite Z.min_r by lia; ring]. }
  apply (counted_bound _ _ _ _ _ E (extended_gcd_costs a b (Z.max (ulen a) (ulen b)) (Z.min (ulen a) (ulen b)) Oa Ob ltac:(lia) ltac:(lia) ltac:(lia) ltac:(lia))).
Qed.

End Steps.
