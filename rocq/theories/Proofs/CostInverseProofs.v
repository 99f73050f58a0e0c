(** What modular inverses and quotients cost (Model/CostInverse.v). *)
From Coq Require Import Lia.
From Verif Require Import Model.Base Model.Words Model.Add Model.Shift Model.FastDivide Model.DivWord Model.Memory Model.Mul Model.Div
  Model.RawMemory Model.Buffer Model.UBig Model.IBig Model.Convert Model.AddOps Model.ShiftOps Model.Bits Model.DivOps Model.PrimOps Model.Gcd Model.Modular
  Model.Cost Model.CostDiv Model.CostOps Model.CostFmt Model.CostGcd Model.CostModular Model.CostInverse Spec.Val Spec.Num Spec.Prim Spec.Modular.
From Verif Require Import Proofs.Basics Proofs.CostProofs Proofs.CostBounds Proofs.CostTheorems Proofs.CostRates Proofs.CostDivProofs
  Proofs.CostOpsProofs Proofs.CostOpsBounds Proofs.CostDivOps Proofs.CostOperators Proofs.CostGcdProofs Proofs.CostGcdSteps Proofs.CostGcdTheorems
  Proofs.BufferProofs Proofs.ApiProofs Proofs.AddProofs Proofs.AddOpsProofs Proofs.DivOpsProofs Proofs.ConvertProofs Proofs.GcdProofs Proofs.GcdApi Proofs.ModularProofs Proofs.ModularRoom Proofs.ModularApi Proofs.ModularPow
  Proofs.CostModularProofs Proofs.CostModularPow Proofs.CostModularTheorems.

Section Erase.
Context {A : Arch}.

Lemma isub_large_word_erase b w : snd (c_isub_large_word b w) = isub_large_word b w.
Proof. pose proof sub_large_word_erase. unfold c_isub_large_word, isub_large_word. oer. Qed.

Lemma isub_large_erase b ws : snd (c_isub_large b ws) = isub_large b ws.
Proof. pose proof sub_large_ref_val_erase. unfold c_isub_large, isub_large, c_from_buffer. oer. Qed.

Lemma sub_val_val_erase a b : snd (c_sub_ubig_val_val a b) = sub_ubig_val_val a b.
Proof. pose proof isub_large_word_erase. pose proof isub_large_erase. unfold c_sub_ubig_val_val, sub_ubig_val_val, neg_res. oer. Qed.

Lemma iadd_erase x y : snd (c_ibig_add_vv x y) = ibig_add_vv x y.
Proof.
  pose proof sub_val_val_erase. pose proof add_vv_erase. unfold c_ibig_add_vv, ibig_add_vv, neg_res, ibig_of.
  destruct (isign x), (isign y); [oer|oer|oer|]. rewrite snd_cbind, add_vv_erase. destruct (ubig_add_vv (imag x) (imag y)); reflexivity.
Qed.

Lemma irem_euclid_erase x y : snd (c_ibig_rem_euclid_vv x y) = ibig_rem_euclid_vv x y.
Proof. pose proof iadd_erase. pose proof rem_vr_erase. unfold c_ibig_rem_euclid_vv, ibig_rem_euclid_vv, c_ibig_rem_vr, ibig_rem_vr. cbv zeta. oer. Qed.

Lemma denormalize_erase v s : snd (c_denormalize v s) = denormalize v s.
Proof. unfold c_denormalize, denormalize, c_from_buffer. oer. Qed.

Lemma residue_erase m : snd (c_residue m) = residue m.
Proof. pose proof denormalize_erase. unfold c_residue, residue, large_residue. oer. Qed.

Lemma inverse_erase m : snd (c_inverse m) = inverse m.
Proof.
  unfold c_inverse, inverse. destruct m as [m|m].
  - rewrite snd_cbind. apply bind_ext; [|reflexivity]. unfold c_small_inverse, small_inverse, c_ubig_eqb. cbv zeta.
    pose proof extended_gcd_erase. pose proof irem_euclid_erase. do 3 (rewrite snd_cbind; apply bind_ext; [apply snd_call|intros]).
    rewrite snd_cbind. apply bind_ext; [apply extended_gcd_erase|]. intros [[g u] v]. cbv beta iota. rewrite snd_cbind, snd_call. cbn [bind]. oer.
  - rewrite snd_cbind. apply bind_ext; [|reflexivity]. unfold c_large_inverse, large_inverse, c_ubig_eqb, large_residue, ring_large_modulus. cbv zeta.
    pose proof extended_gcd_erase. pose proof irem_euclid_erase. pose proof from_ubig_erase. do 2 (rewrite snd_cbind; apply bind_ext; [apply denormalize_erase|intros]).
    rewrite snd_cbind. apply bind_ext; [apply extended_gcd_erase|]. intros [[g u] v]. cbv beta iota. rewrite snd_cbind, snd_call. cbn [bind]. oer.
Qed.

Lemma mod_div_erase a b : snd (c_mod_div_rr a b) = mod_div_rr a b.
Proof.
  unfold c_mod_div_rr, mod_div_rr. rewrite snd_cbind. apply bind_ext; [apply inverse_erase|]. intros [i|]; [apply mod_mul_erase|reflexivity].
Qed.

Lemma mod_pow_signed_erase m e : snd (c_mod_pow_signed m e) = mod_pow_signed m e.
Proof.
  unfold c_mod_pow_signed, mod_pow_signed. destruct (isign e); [apply mod_pow_erase|]. rewrite snd_cbind. apply bind_ext; [apply inverse_erase|].
  intros [i|]; [apply mod_pow_erase|reflexivity].
Qed.

Lemma isub_large_word_nn b w : 0 <= fst (c_isub_large_word b w).
Proof. pose proof sub_large_word_nn. unfold c_isub_large_word. onn. Qed.

Lemma isub_large_nn b w : 0 <= fst (c_isub_large b w).
Proof. pose proof sub_large_ref_val_nn. unfold c_isub_large, c_from_buffer. onn. Qed.

Lemma irem_euclid_nn x y : 0 <= fst (c_ibig_rem_euclid_vv x y).
Proof.
  pose proof isub_large_word_nn. pose proof isub_large_nn. pose proof add_vv_nn. pose proof rem_vr_nn.
  unfold c_ibig_rem_euclid_vv, c_ibig_rem_vr, c_ibig_add_vv, c_sub_ubig_val_val. cbv zeta. onn.
Qed.

Lemma denormalize_nn v s : 0 <= fst (c_denormalize v s).
Proof. unfold c_denormalize, c_from_buffer. onn. Qed.

Lemma residue_nn m : 0 <= fst (c_residue m).
Proof. pose proof denormalize_nn. unfold c_residue. onn. Qed.

Lemma inverse_nn m : 0 <= fst (c_inverse m).
Proof.
  pose proof extended_gcd_nn. pose proof irem_euclid_nn. pose proof denormalize_nn. pose proof from_ubig_nn.
  unfold c_inverse, c_small_inverse, c_large_inverse, c_ubig_eqb. onn.
Qed.

End Erase.

Section Costs.
Context {A : Arch} {AOK : ArchOk A}.

Lemma isub_large_costs b ws n : wf (words b) -> wf ws -> (length ws <= length (words b))%nat -> blen b <= n ->
  costs (c_isub_large b ws) (5 * n + 2) (fun _ => True).
Proof.
  intros Wb Ww L Ln. unfold c_isub_large. rewrite (proj2 (Nat.leb_le _ _) L).
  destruct (sub_in_place_with_sign_spec (words b) ws Wb Ww L) as (v & s & E & P & _).
  eapply costs_bind_words; [apply (call_keeps (words b)); intros w' r F; rewrite E in F; injection F as <- _; exact P|].
  intros b' r L'. cbv beta iota. assert (LB : blen b' = blen b) by (unfold blen, len; lia).
  eapply costs_bind; [apply (from_buffer_costs b' (2 * n + 1)); lia|]. intros u _. apply costs_ok; [unfold blen, len in *; lia|exact I].
Qed.

Lemma isub_large_word_costs b w n : blen b <= n -> costs (c_isub_large_word b w) (3 * n + 2) (fun _ => True).
Proof. intros Ln. unfold c_isub_large_word. eapply costs_bind; [apply sub_large_word_costs|]. intros u _. apply costs_ok; [lia|exact I]. Qed.

Lemma sub_val_val_costs a b n : ubig_ok a -> ubig_ok b -> ulen a <= n -> ulen b <= n -> 1 <= n -> costs (c_sub_ubig_val_val a b) (5 * n + 2) (fun _ => True).
Proof.
  intros Oa Ob La Lb N1. unfold c_sub_ubig_val_val. destruct a as [x|x], b as [y|y]; cbn [ulen] in *.
  - eapply costs_weaken; [apply costs_call|cbn [Z.of_nat]; lia|auto].
  - eapply costs_bind; [apply (isub_large_word_costs y x n); lia|]. intros r _. apply costs_ok; [lia|exact I].
  - eapply costs_weaken; [apply (isub_large_word_costs x y n); lia|lia|auto].
  - destruct Oa as (Wa & _). destruct Ob as (Wb & _). destruct (Nat.leb_spec (length (words y)) (length (words x))) as [C|C].
    + apply isub_large_costs; auto.
    + eapply costs_bind; [apply (isub_large_costs y (words x) n); auto; lia|]. intros r _. apply costs_ok; [lia|exact I].
Qed.

Lemma irem_euclid_costs x y M m : ibig_ok x -> ibig_ok y -> ival y <> 0 -> ulen (imag x) <= M -> ulen (imag y) <= m ->
  costs (c_ibig_rem_euclid_vv x y) ((1925 * m + 20) * (M + 1) + 5 * m + 2) (fun r => ibig_ok r /\ ival r = emod (ival x) (ival y)).
Proof.
  intros Ox Oy NZ Lx Ly. pose proof (ulen_pos _ (proj1 Ox)) as Lx1. pose proof (ulen_pos _ (proj1 Oy)) as Ly1.
  assert (NM : uval (imag y) <> 0) by (intros Z0; apply NZ; unfold ival; rewrite Z0; lia).
  eapply costs_known; [apply irem_euclid_erase| |].
  - unfold c_ibig_rem_euclid_vv, c_ibig_rem_vr. match goal with |- costs (cbind ?m0 ?k) _ _ =>
      apply (costs_bind m0 k ((1925 * m + 20) * (M + 1)) _ (fun r => ubig_ok (imag r) /\ uval (imag r) = uval (imag x) mod uval (imag y))) end.
    + eapply costs_bind; [apply (rem_known (imag x) (imag y) M m); auto; [apply Ox|apply Oy]|]. intros r [Or Vr]. apply costs_ok; [lia|].
      unfold from_sign_magnitude. repeat match goal with |- context [match ?t with _ => _ end] => destruct t end; cbn [imag]; auto.
    + intros r [Or Vr]. cbv zeta. destruct (isign r) eqn:Sr; [apply costs_ok; [lia|exact I]|]. unfold c_ibig_add_vv. rewrite Sr.
      assert (AB : imag (ibig_abs y) = imag y /\ isign (ibig_abs y) = Positive).
      { unfold ibig_abs, ibig_from_ubig, from_sign_magnitude, unsigned_abs. cbn [imag isign]. split; [reflexivity|]. destruct (ubig_eqb _ _); reflexivity. }
      destruct AB as (-> & ->). pose proof (uval_nonneg _ (proj1 Oy)) as YN. assert (YP : 0 < uval (imag y)) by (clear - YN NM; lia).
      pose proof (Z.mod_pos_bound (uval (imag x)) (uval (imag y)) YP) as MB. assert (VB : uval (imag r) <= uval (imag y)) by (rewrite Vr; clear - MB; lia).
      destruct (ulen_val (imag r) (imag y) Or (proj1 Oy) VB). eapply costs_weaken; [apply (sub_val_val_costs (imag y) (imag r) m); [apply Oy|exact Or|lia|lia|lia]|lia|auto].
  - intros r E. destruct (ibig_rem_euclid_vv_yields x y Ox Oy) as [_ Y]. destruct (Y NZ) as (z & F & P). rewrite F in E. injection E as <-. exact P.
Qed.

Lemma denormalize_costs v s n : len v <= n -> costs (c_denormalize v s) (4 * n + 4) (fun _ => True).
Proof.
  intros L. unfold c_denormalize. apply costs_bind_call. intros b0 E0. apply allocate_words in E0. apply costs_bind_call. intros b1 E1. apply extend_words in E1.
  rewrite E0 in E1. cbn [app] in E1. eapply costs_bind_words; [apply (call_keeps (words b1)); intros w' r E; now apply shr_len in E|].
  intros b2 c L2. cbv beta iota. step. eapply costs_weaken; [apply (from_buffer_costs b2 (2 * n + 1))| |auto].
  - unfold blen, len in *. rewrite L2, E1. lia.
  - unfold len in L. rewrite E1. cbn [Z.of_nat]. lia.
Qed.

Lemma residue_steps r n x a k z : element r n x a -> c_residue x = (k, Ok z) -> residue x = Ok z /\ 0 <= k <= 8 * words_in n.
Proof.
  intros Ex E. destruct (cfst _ _ _ _ (residue_erase x) (residue_nn x) E) as [F N0]. split; [exact F|]. split; [exact N0|].
  pose proof (words_in_pos n) as WP. destruct r as [r|r].
  - apply element_small in Ex as (_ & raw & -> & _). eapply Z.le_trans; [|exact (Z.mul_le_mono_nonneg_l 1 _ 8 ltac:(lia) WP)].
    eapply (counted_bound _ _ _ _ (fun _ => True) E). cbn [c_residue]. step. apply costs_ok; [cbn [Z.of_nat]; lia|exact I].
  - apply large_facts in Ex as (ws & -> & L1 & L2 & L3). apply Z.le_trans with (4 * words_in n + 4); [|lia].
    eapply (counted_bound _ _ _ _ (fun _ => True) E). cbn [c_residue]. apply denormalize_costs. cbn [ml_value]. lia.
Qed.

Lemma denormalize_known v s n z : returns (denormalize v s) z -> len v <= n -> costs (c_denormalize v s) (4 * n + 4) (fun u => ubig_ok u /\ uval u = z).
Proof.
  intros (u & E & P) L. eapply costs_known; [apply denormalize_erase|apply (denormalize_costs v s n L)|]. intros x X. rewrite E in X. injection X as <-. exact P.
Qed.

Lemma egcd_known a b N : ubig_ok a -> ubig_ok b -> ulen a <= N -> ulen b <= N ->
  costs (c_ubig_extended_gcd a b) ((4100 + 280 * wbits) * (N * N)) (fun p =>
    ubig_ok (fst (fst p)) /\ ulen (fst (fst p)) <= N /\ ibig_ok (snd (fst p)) /\ ulen (imag (snd (fst p))) <= N).
Proof.
  intros Oa Ob La Lb. eapply costs_known; [apply extended_gcd_erase|apply (extended_gcd_costs a b N N); auto; lia|].
  intros [[g u] v] E. pose proof (ubig_extended_gcd_all a b Oa Ob) as G. rewrite E in G. destruct G as (Og & Ou & _ & NZ & Vg & _ & Bu & _). cbn [fst snd].
  destruct (uval_below a N Oa La) as [A0 A1]. destruct (uval_below b N Ob Lb) as [B0 B1]. pose proof (ulen_pos a Oa) as L1. pose proof B_ge as BG.
  assert (BN : B <= B ^ N) by (apply (Z.le_trans _ (B ^ 1)); [rewrite Z.pow_1_r; lia|apply Z.pow_le_mono_r; lia]).
  split; [exact Og|]. split.
  - apply (len_small g N); [lia|exact Og|]. rewrite Vg. destruct (Z.eq_dec (uval a) 0) as [E0|E0].
    + rewrite E0, Z.gcd_0_l. rewrite Z.abs_eq by lia. exact B1.
    + assert (Z.gcd (uval a) (uval b) <= uval a) by (apply Z.divide_pos_le; [lia|apply Z.gcd_divide_l]). lia.
  - split; [exact Ou|]. apply (len_small (imag u) N); [lia|apply Ou|]. assert (AV : uval (imag u) = Z.abs (ival u)).
    { pose proof (uval_nonneg _ (proj1 Ou)). unfold ival. destruct (isign u); cbn [sign_val]; lia. }
    rewrite AV. lia.
Qed.

Lemma as_words_below g : Z.of_nat (length (as_words g)) <= ulen g.
Proof. destruct g as [w|b]; cbn [as_words ulen]; [destruct (w =? 0); cbn; lia|unfold blen, len; lia]. Qed.

Lemma small_inverse_costs r n raw a : element (RingSmall r) n (MSmall (mkModuloSmall r raw)) a ->
  costs (c_small_inverse (mkModuloSmall r raw)) (12000 + 280 * wbits) (fun _ => True).
Proof.
  intros Ex. pose proof (element_ring _ _ _ _ Ex) as Hr. pose proof (is_ring_pos _ n Hr) as Hn. apply element_small in Ex as (R & raw' & EQ & H). injection EQ as <-.
  pose proof R as (HnB & Hs & EM & _). pose proof H as [_ Ha]. pose proof wbits_ge as WG. pose proof B_ge as BG. assert (HB : 2 ^ wbits = B) by reflexivity.
  unfold c_small_inverse. cbv zeta. cbn [ms_ring]. apply costs_bind_call. intros res Er. unfold small_residue in Er. cbn [ms_raw ms_ring] in Er. rewrite (raw_of_residue r n R raw a H) in Er. injection Er as <-.
  assert (ring_small_modulus r = n) as ->. { unfold ring_small_modulus, shr_w. rewrite Z.shiftr_div_pow2, EM, Z.div_mul by lia. reflexivity. }
  assert (RA : 0 <= a < 2 ^ wbits) by (rewrite HB; lia). assert (RN : 0 <= n < 2 ^ wbits) by (rewrite HB; lia).
  destruct (ubig_from_unsigned_spec wbits a wbits_prim RA) as (ua & Ea & Oa & Va). destruct (ubig_from_unsigned_spec wbits n wbits_prim RN) as (ub & Eb & Ob & Vb).
  destruct (ibig_from_unsigned_spec wbits n wbits_prim RN) as (ib & Ei & Oi & Vi).
  assert (La : ulen ua <= 1) by (apply (len_small ua 1); [lia|exact Oa|rewrite Z.pow_1_r; lia]). assert (Lb : ulen ub <= 1) by (apply (len_small ub 1); [lia|exact Ob|rewrite Z.pow_1_r; lia]).
  assert (Li : ulen (imag ib) <= 1).
  { apply (len_small (imag ib) 1); [lia|apply Oi|]. rewrite Z.pow_1_r. pose proof (uval_nonneg _ (proj1 Oi)). unfold ival in Vi. destruct (isign ib); cbn [sign_val] in Vi; lia. }
  apply costs_bind_call. intros ua' Ea'. rewrite Ea in Ea'. injection Ea' as <-. apply costs_bind_call. intros ub' Eb'. rewrite Eb in Eb'. injection Eb' as <-.
  eapply costs_bind; [apply (egcd_known ua ub 1 Oa Ob La Lb)|]. intros [[g u] v] (Og & Lg & Ou & Lu). cbn [fst snd] in Og, Lg, Ou, Lu. cbv beta iota. unfold c_ubig_eqb.
  assert (LG : Z.of_nat (length (as_words g)) <= 1) by (pose proof (as_words_below g); lia).
  apply costs_bind_call. intros eq _. destruct eq; [|apply costs_ok; [cbn [Z.of_nat]; lia|exact I]].
  apply costs_bind_call. intros ib' Ei'. rewrite Ei in Ei'. injection Ei' as <-.
  eapply costs_bind; [apply (irem_euclid_costs u ib 1 1); auto; lia|]. intros re _. apply costs_bind_call. intros o _. apply costs_bind_free. intros w _.
  apply costs_bind_call. intros raw2 _. apply costs_bind_call. intros m2 _. apply costs_ok; [cbn [Z.of_nat]; lia|exact I].
Qed.

Lemma large_inverse_costs r n ws a : element (RingLarge r) n (MLarge (mkModuloLarge r ws)) a ->
  costs (c_large_inverse (mkModuloLarge r ws)) ((12000 + 280 * wbits) * (words_in n * words_in n)) (fun _ => True).
Proof.
  intros Ex. pose proof (element_ring _ _ _ _ Ex) as Hr. pose proof (is_ring_pos _ n Hr) as Hn. pose proof (residue_spec _ _ _ _ Ex) as RS.
  pose proof Ex as Ey. apply element_large in Ey as (R & ws0 & _ & (_ & _ & _ & Ha)). pose proof R as (HnB & Hs & EM & _).
  apply large_facts in Ex as (ws' & EQ & L1 & L2 & L3). injection EQ as <-. set (N := words_in n) in *.
  pose proof wbits_ge as WG. cbn [residue] in RS. unfold large_residue in RS. cbn [ml_value ml_ring] in RS.
  unfold c_large_inverse. cbn [ml_value ml_ring]. eapply costs_bind; [apply (denormalize_known ws (rl_shift r) N a RS); lia|]. intros ua [Oa Va].
  eapply costs_bind; [apply (denormalize_known (rl_modulus r) (rl_shift r) N n); [exact (ring_modulus_spec (RingLarge r) n Hr)|lia]|]. intros ub [Ob Vb].
  assert (UN : n < B ^ N).
  { unfold N, words_in. unfold B. rewrite <- Z.pow_mul_r by (pose proof (words_in_pos n); unfold words_in in *; lia).
    apply Z.log2_lt_pow2; [lia|]. assert (W0 : 0 < wbits) by lia. assert (W1 : wbits <> 0) by lia. pose proof (Z.mod_pos_bound (Z.log2 n) wbits W0). pose proof (Z.div_mod (Z.log2 n) wbits W1). nia. }
  assert (A0 : 0 <= a < n) by (clear - Ha; lia).
  assert (La : ulen ua <= N) by (apply (len_small ua N); [lia|exact Oa|lia]). assert (Lb : ulen ub <= N) by (apply (len_small ub N); [lia|exact Ob|lia]).
  eapply costs_bind; [apply (egcd_known ua ub N Oa Ob La Lb)|]. intros [[g u] v] (Og & Lg & Ou & Lu). cbn [fst snd] in Og, Lg, Ou, Lu. cbv beta iota. unfold c_ubig_eqb.
  assert (LG : Z.of_nat (length (as_words g)) <= N) by (pose proof (as_words_below g); lia).
  assert (NN : 2 * N <= N * N) by (clear - L3; nia).
  apply costs_bind_call. intros eq _. destruct eq; [|apply costs_ok; [lia|exact I]].
  destruct (ibig_from_ubig_spec ub Ob) as [Oi Vi]. assert (Li : ulen (imag (ibig_from_ubig ub)) <= N) by exact Lb.
  eapply costs_bind; [apply (irem_euclid_costs u (ibig_from_ubig ub) N N); auto; lia|]. intros re [Or Vr]. apply costs_bind_free. intros w Ew.
  destruct (try_from_ibig_spec re Or) as [T _]. unfold emod in Vr. rewrite Vi, Vb, Z.abs_eq in Vr by lia. pose proof (Z.mod_pos_bound (ival u) n ltac:(lia)) as MB.
  destruct (T ltac:(lia)) as (w' & Tw & Ow & Vw). rewrite Tw in Ew. cbn [unwrap] in Ew. injection Ew as <-.
  assert (Lw : 1 <= ulen w' <= N) by (apply (len_small w' N); [lia|exact Ow|lia]).
  destruct (divides_below N ltac:(lia)) as (W & W1 & WB & D). apply below_linear in WB; [|lia|lia].
  eapply costs_bind; [apply (from_ubig_costs r N W); auto; lia|]. intros m2 _. apply costs_ok; [|exact I].
  assert ((W + 10) * (ulen w' + N) <= (1925 * N + 10) * (2 * N)) by (apply Z.mul_le_mono_nonneg; lia).
  clear - H NN LG L3 WG. nia.
Qed.

Lemma inverse_costs r n x a : element r n x a ->
  costs (c_inverse x) ((12000 + 280 * wbits) * (words_in n * words_in n)) (fun o => match o with Some y => exists b, element r n y b | None => True end).
Proof.
  intros Ex. eapply costs_known; [apply inverse_erase| |intros o E; pose proof (inverse_spec r n x a Ex) as Y; rewrite E in Y; destruct o as [y|]; [destruct Y as (_ & b & Y & _); eauto|exact I]].
  instantiate (1 := fun _ => True). pose proof (words_in_pos n) as WP. pose proof wbits_ge as WG. assert (NN : 1 <= words_in n * words_in n) by (clear - WP; nia). destruct r as [r|r].
  - pose proof Ex as Ey. apply element_small in Ey as (_ & raw & -> & _). cbn [c_inverse]. eapply costs_bind; [apply (small_inverse_costs r n raw a Ex)|].
    intros o _. apply costs_ok; [|exact I]. clear - WG NN. nia.
  - pose proof Ex as Ey. apply large_facts in Ey as (ws & -> & _). cbn [c_inverse]. eapply costs_bind; [apply (large_inverse_costs r n ws a Ex)|].
    intros o _. apply costs_ok; [lia|exact I].
Qed.

Theorem inverse_steps r n x a k o : element r n x a -> c_inverse x = (k, Ok o) ->
  inverse x = Ok o /\ 0 <= k <= (12000 + 280 * wbits) * (words_in n * words_in n).
Proof.
  intros Ex E. destruct (cfst _ _ _ _ (inverse_erase x) (inverse_nn x) E) as [F N0]. split; [exact F|]. split; [exact N0|].
  exact (counted_bound _ _ _ _ _ E (inverse_costs r n x a Ex)).
Qed.

Lemma split_steps {T U} (m : counted T) (f : T -> counted U) k z : cbind m f = (k, Ok z) -> exists k1 k2 y, m = (k1, Ok y) /\ f y = (k2, Ok z) /\ k = k1 + k2.
Proof.
  rewrite cbind_eq. destruct m as [k1 [y|p]]; cbn; [|discriminate]. destruct (f y) as [k2 w] eqn:E. cbn. intros H. injection H as <- ->. exists k1, k2, y. auto.
Qed.

Lemma mul_steps_square r n x a y b k z : element r n x a -> element r n y b -> c_mod_mul_assign_r x y = (k, Ok z) -> 0 <= k <= 3975 * (words_in n * words_in n).
Proof.
  intros Ex Ey E. destruct (mul_steps r n x a y b k z Ex Ey E) as (_ & N0 & H). split; [exact N0|]. pose proof (words_in_pos n) as WP.
  apply (Z.pow_le_mono_l_iff k (3975 * (words_in n * words_in n)) 100); [clear - N0; lia|clear - WP; nia|clear; lia|]. apply (Z.le_trans _ _ _ H). clear H.
  replace (3975 * (words_in n * words_in n)) with (3975 * words_in n * words_in n) by ring. rewrite (Z.pow_mul_l (3975 * words_in n) (words_in n)).
  apply Z.mul_le_mono_nonneg_l; [apply Z.pow_nonneg; lia|]. apply Z.pow_le_mono_r; lia.
Qed.

Theorem div_steps r n x a y b k z : element r n x a -> element r n y b -> c_mod_div_rr x y = (k, Ok z) ->
  mod_div_rr x y = Ok z /\ 0 <= k <= (16000 + 280 * wbits) * (words_in n * words_in n).
Proof.
  intros Ex Ey E. assert (F : mod_div_rr x y = Ok z) by (rewrite <- mod_div_erase, E; reflexivity). split; [exact F|].
  unfold c_mod_div_rr in E. apply split_steps in E as (k1 & k2 & o & E1 & E2 & ->). destruct (inverse_steps r n y b k1 o Ey E1) as [F1 B1].
  destruct o as [i|]; [|discriminate]. pose proof (inverse_spec r n y b Ey) as Y. rewrite F1 in Y. destruct Y as (_ & c & Ei & _).
  pose proof (mul_steps_square r n i c x a k2 z Ei Ex E2). lia.
Qed.

Theorem pow_signed_steps r n x a e k z : element r n x a -> ibig_ok e -> c_mod_pow_signed x e = (k, Ok z) ->
  mod_pow_signed x e = Ok z /\ exists k1 k2, k = k1 + k2 /\ 0 <= k1 <= (12000 + 280 * wbits) * (words_in n * words_in n) /\ (0 <= ival e -> k1 = 0) /\
  0 <= k2 /\ k2 ^ 100 <= (7950 * (words_in n * (Z.log2 (Z.abs (ival e)) + 1))) ^ 100 * words_in n ^ 47.
Proof.
  intros Ex Oe E. assert (F : mod_pow_signed x e = Ok z) by (rewrite <- mod_pow_signed_erase, E; reflexivity). split; [exact F|].
  assert (AV : Z.abs (ival e) = uval (imag e)).
  { pose proof (uval_nonneg _ (proj1 Oe)). unfold ival. destruct (isign e); cbn [sign_val]; lia. }
  rewrite AV. unfold c_mod_pow_signed in E. destruct (isign e) eqn:S.
  - exists 0, k. split; [lia|]. split; [pose proof wbits_ge; nia|]. split; [reflexivity|]. destruct (pow_steps r n x a (imag e) k z Ex (proj1 Oe) E) as (_ & P). exact P.
  - apply split_steps in E as (k1 & k2 & o & E1 & E2 & ->). destruct (inverse_steps r n x a k1 o Ex E1) as [F1 B1].
    destruct o as [i|]; [|discriminate]. pose proof (inverse_spec r n x a Ex) as Y. rewrite F1 in Y. destruct Y as (_ & c & Ei & _).
    destruct (pow_steps r n i c (imag e) k2 z Ei (proj1 Oe) E2) as (_ & P). exists k1, k2. split; [reflexivity|]. split; [exact B1|]. split; [|exact P].
    intros V. exfalso. pose proof (uval_nonneg _ (proj1 Oe)) as U. destruct (Z.eq_dec (uval (imag e)) 0) as [Z0|Z0]; [apply (proj2 Oe) in Z0; congruence|].
    unfold ival in V. rewrite S in V. cbn [sign_val] in V. lia.
Qed.

End Costs.
