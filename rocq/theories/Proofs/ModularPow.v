(** Modular exponentiation. *)
From Verif Require Import Model.Base Model.Words Model.FastDivide Model.Memory Model.Div Model.RawMemory Model.Buffer Model.UBig Model.IBig Model.Convert Model.Bits
  Model.Gcd Model.Modular Spec.Val Spec.Num Spec.Modular
  Proofs.Basics Proofs.FastDivideProofs Proofs.BufferProofs Proofs.BitsProofs Proofs.BitCountProofs Proofs.ShiftOpsProofs Proofs.GcdProofs
  Proofs.ShiftProofs Proofs.MulProofs Proofs.DivProofs Proofs.Scratch Proofs.ModularProofs Proofs.ModularRoom.
From Coq Require Import Lia Znumtheory Zpow_facts.

Section ModularPow.
Context {A : Arch} {AOK : ArchOk A}.

Lemma mul_mod_both x y n : ((x mod n) * (y mod n)) mod n = (x * y) mod n.
Proof. rewrite <- Zmult_mod. reflexivity. Qed.

Lemma pow_even_mod x k n : 0 < n -> (x mod n) ^ k mod n = x ^ k mod n.
Proof. intros H. symmetry. apply Zpower_mod. lia. Qed.

Lemma mod_bit_split e k : 0 <= k -> e mod 2 ^ (k + 1) = Z.b2z (Z.testbit e k) * 2 ^ k + e mod 2 ^ k.
Proof.
  intros Hk. rewrite Z.pow_add_r by lia. change (2 ^ 1) with 2. pose proof (pow2_pos k Hk).
  rewrite Z.rem_mul_r by lia. rewrite Z.testbit_spec' by lia. lia.
Qed.

Lemma div_bit_split e k : 0 <= k -> e / 2 ^ k = 2 * (e / 2 ^ (k + 1)) + Z.b2z (Z.testbit e k).
Proof.
  intros Hk. rewrite Z.pow_add_r by lia. change (2 ^ 1) with 2. pose proof (pow2_pos k Hk). rewrite Z.testbit_spec' by lia.
  rewrite <- Z.div_div by lia. pose proof (Z.div_mod (e / 2 ^ k) 2). lia.
Qed.

(** ** Single word rings *)
Section SmallRing.
Context (r : ring_small) (n : Z) (R : rs_ok r n).
Local Notation raw_of := (raw_of r n).

Lemma n_pos : 0 < n.
Proof. destruct R as [H _]. lia. Qed.

Lemma raw_mul_mod x a y b : raw_of x (a mod n) -> raw_of y (b mod n) -> exists raw', raw_mul x y r = Ok raw' /\ raw_of raw' ((a * b) mod n).
Proof.
  intros Hx Hy. destruct (raw_mul_spec r n R x _ y _ Hx Hy) as (raw & E & H). exists raw. split; [exact E|]. rewrite mul_mod_both in H. exact H.
Qed.

Lemma pow_helper_spec bits : forall x a y b e, raw_of x (a mod n) -> raw_of y (b mod n) -> 0 <= e -> Z.of_nat bits <= wbits ->
  exists raw', pow_helper bits x y e r = Ok raw' /\ raw_of raw' ((a ^ 2 ^ Z.of_nat bits * b ^ (e mod 2 ^ Z.of_nat bits)) mod n).
Proof.
  induction bits as [|k IH]; intros x a y b e Hx Hy He Hb; cbn [pow_helper].
  - exists x. split; [reflexivity|]. cbn [Z.of_nat]. rewrite Z.pow_0_r, Z.pow_1_r, Z.mod_1_r, Z.pow_0_r, Z.mul_1_r. exact Hx.
  - destruct (raw_mul_mod x a x a Hx Hx) as (v & -> & Hv). cbn [bind].
    assert (Hk : 0 <= Z.of_nat k < wbits) by lia. rewrite (proj1 (shl_w_1 (Z.of_nat k) Hk)), land_pow2 by lia.
    assert (K : exists v', (if Z.testbit e (Z.of_nat k) then raw_mul v y r else Ok v) = Ok v' /\ raw_of v' ((a * a * b ^ Z.b2z (Z.testbit e (Z.of_nat k))) mod n)).
    { destruct (Z.testbit e (Z.of_nat k)); cbn [Z.b2z].
      - rewrite Z.pow_1_r. apply raw_mul_mod; auto.
      - exists v. split; [reflexivity|]. rewrite Z.pow_0_r, Z.mul_1_r. exact Hv. }
    destruct K as (v' & -> & Hv'). cbn [bind]. destruct (IH v' _ y b e Hv' Hy He ltac:(lia)) as (z & -> & Hz). exists z. split; [reflexivity|].
    revert Hz. replace (Z.of_nat (S k)) with (Z.of_nat k + 1) by lia. rewrite mod_bit_split by lia. set (t := Z.testbit e (Z.of_nat k)).
    set (q := 2 ^ Z.of_nat k). assert (0 < q) by (apply Z.pow_pos_nonneg; lia). pose proof (Z.mod_pos_bound e q ltac:(lia)).
    rewrite Z.pow_add_r by lia. fold q. change (2 ^ 1) with 2. rewrite (Z.pow_add_r b) by (destruct t; cbn [Z.b2z]; lia).
    rewrite Z.pow_mul_l. rewrite <- (Z.pow_mul_r b) by (destruct t; cbn [Z.b2z]; lia). rewrite <- Z.pow_2_r, <- Z.pow_mul_r by lia.
    replace (q * 2) with (2 * q) by lia. rewrite Z.mul_assoc. auto.
Qed.

Lemma raw_one : exists raw, raw_from_word 1 r = Ok raw /\ raw_of raw (1 mod n).
Proof. apply raw_from_word_spec; auto. pose proof B_ge. lia. Qed.

Lemma pow_word_spec x a e : raw_of x (a mod n) -> 0 <= e < B -> exists raw', pow_word x e r = Ok raw' /\ raw_of raw' (a ^ e mod n).
Proof.
  intros Hx He. unfold pow_word. destruct (Z.eqb_spec e 0) as [->|N]. { rewrite Z.pow_0_r. exact raw_one. }
  unfold leading_zeros_w, leading_zeros_n, bitlen. rewrite (proj2 (Z.eqb_neq _ _)) by lia.
  pose proof (Z.log2_nonneg e) as L0. pose proof (Z.log2_spec e ltac:(lia)) as L. assert (Z.log2 e < wbits) by (apply Z.log2_lt_pow2; [lia|exact (proj2 He)]).
  pose proof wbits_cases as WC.
  replace (wbits - 1 - (wbits - (Z.log2 e + 1))) with (Z.log2 e) by lia.
  rewrite checked_ok by lia. cbn [bind].
  destruct (pow_helper_spec (Z.to_nat (Z.log2 e)) x a x a e Hx Hx ltac:(lia) ltac:(lia)) as (z & -> & Hz). exists z. split; [reflexivity|].
  rewrite Z2Nat.id in Hz by lia. set (q := 2 ^ Z.log2 e) in *. rewrite Z.pow_succ_r in L by lia. fold q in L.
  replace (e mod q) with (e - q) in Hz by (apply Z.mod_unique with 1; lia). assert (Q1 : 0 <= q) by (apply Z.pow_nonneg; lia). assert (Q2 : 0 <= e - q) by (clear - L; lia).
  rewrite <- (Z.pow_add_r a q (e - q) Q1 Q2) in Hz. replace (q + (e - q)) with e in Hz by lia. exact Hz.
Qed.

Lemma small_pow_loop_spec ws : forall v y a E, wf ws -> 0 <= E -> raw_of v (a ^ E mod n) -> raw_of y (a mod n) ->
  exists raw', small_pow_loop v y ws r = Ok raw' /\ raw_of raw' (a ^ (val (rev ws) + Bn (length ws) * E) mod n).
Proof.
  induction ws as [|w t IH]; intros v y a E W HE Hv Hy; cbn [small_pow_loop].
  - exists v. split; [reflexivity|]. cbn [rev val length]. rewrite Bn_0, Z.mul_1_l, Z.add_0_l. exact Hv.
  - apply wf_cons in W as [Ww Wt]. pose proof wbits_ge. destruct (pow_helper_spec (Z.to_nat wbits) v (a ^ E) y a w Hv Hy ltac:(lia) ltac:(lia)) as (z & -> & Hz). cbn [bind].
    rewrite Z2Nat.id in Hz by lia. change (2 ^ wbits) with B in Hz. rewrite (Z.mod_small w B) in Hz by auto. pose proof B_ge.
    assert (Q1 : 0 <= E * B) by (apply Z.mul_nonneg_nonneg; lia). assert (Q2 : 0 <= E * B + w) by (clear - Q1 Ww; lia).
    rewrite <- (Z.pow_mul_r a E B HE) in Hz by lia. rewrite <- (Z.pow_add_r a (E * B) w Q1 (proj1 Ww)) in Hz.
    destruct (IH z y a (E * B + w) Wt Q2 Hz Hy) as (z' & -> & Hz'). exists z'. split; [reflexivity|].
    cbn [rev length]. rewrite val_app, Bn_S, rev_length, val_cons. cbn [val].
    replace (val (rev t) + Bn (length t) * (w + B * 0) + B * Bn (length t) * E) with (val (rev t) + Bn (length t) * (E * B + w)) by ring. exact Hz'.
Qed.

Lemma small_pow_spec x a e : raw_of x a -> ubig_ok e ->
  exists raw', small_pow (mkModuloSmall r x) e = Ok (mkModuloSmall r raw') /\ raw_of raw' (a ^ uval e mod n).
Proof.
  intros Hx He. pose proof n_pos as Hn. assert (Hx' : raw_of x (a mod n)) by (rewrite Z.mod_small by apply Hx; exact Hx).
  assert (NT : 3 <= uval e -> exists raw', small_pow_nontrivial (mkModuloSmall r x) e = Ok (mkModuloSmall r raw') /\ raw_of raw' (a ^ uval e mod n)).
  { intros He3. unfold small_pow_nontrivial. cbn [ms_raw ms_ring]. pose proof B_ge. rewrite ubig_le_spec by (auto; cbn; lia). cbn [uval from_word bind].
    rewrite (proj2 (Z.leb_le _ _)) by lia. rewrite check_true by reflexivity.
    assert (S : exists below top, as_words e = rev below ++ [top] /\ wf below /\ 0 <= top < B /\ uval e = val (rev below) + Bn (length below) * top).
    { destruct e as [w|b]; cbn [as_words uval].
      - cbn [uval] in He3. rewrite (proj2 (Z.eqb_neq _ _)) by lia. exists [], w. cbn [rev app length val]. rewrite Bn_0. split; [reflexivity|]. split; [constructor|]. cbn in He. lia.
      - destruct He as (W & L & _). destruct (last_split (words b) 0) as (rest & E). { intros E. rewrite E in L. cbn in L. lia. }
        exists (rev rest), (last (words b) 0). rewrite rev_involutive, rev_length. set (t := last (words b) 0) in *. clearbody t. rewrite E in W |- *. apply wf_app in W as [W1 W2]. apply wf_cons in W2 as [W2 _].
        split; [reflexivity|]. split; [apply wf_rev; auto|]. split; [auto|]. rewrite val_app. cbn [val]. f_equal. lia. }
    destruct S as (below & top & -> & Wb & Ht & V). rewrite rev_app_distr, rev_involutive. cbn [rev app].
    destruct (pow_word_spec x a top Hx' Ht) as (v & -> & Hv). cbn [bind].
    destruct (small_pow_loop_spec below v x a top Wb ltac:(lia) Hv Hx') as (z & -> & Hz). cbn [bind]. rewrite <- V in Hz.
    rewrite (small_new_spec r n R z _ Hz). exists z. split; [reflexivity|exact Hz]. }
  unfold small_pow. destruct e as [w|b]; [|apply NT; pose proof (Large_ge b He); pose proof B_ge; cbn [uval]; lia]. cbn [uval] in *. cbn [ubig_ok] in He. cbn [ms_raw ms_ring].
  destruct (Z.eqb_spec w 0) as [->|N0]; [|destruct (Z.eqb_spec w 1) as [->|N1]; [|destruct (Z.eqb_spec w 2) as [->|N2]]].
  - unfold small_from_ubig, from_word. destruct raw_one as (z & -> & Hz). cbn [bind]. rewrite (small_new_spec r n R z _ Hz). exists z. split; [reflexivity|]. rewrite Z.pow_0_r. exact Hz.
  - exists x. split; [reflexivity|]. rewrite Z.pow_1_r. exact Hx'.
  - destruct (raw_mul_mod x a x a Hx' Hx') as (z & -> & Hz). cbn [bind]. rewrite (small_new_spec r n R z _ Hz). exists z. split; [reflexivity|]. rewrite Z.pow_2_r. exact Hz.
  - apply NT. lia.
Qed.

End SmallRing.

(** ** Multi-word rings *)

Lemma window_cost_spec n w : 0 <= n < 2 ^ ubits -> 1 <= w < Z.min wbits ubits -> window_cost n w = Ok (2 ^ (w - 1) - 1 + n / (w + 1)).
Proof.
  intros Hn Hw. unfold window_cost. pose proof wbits_cases as WC. pose proof ubits_cases as UC.
  rewrite checked_ok by lia. cbn [bind]. rewrite check_true by lia. rewrite Z.shiftl_mul_pow2, Z.mul_1_l by lia.
  assert (P : 1 <= 2 ^ (w - 1) <= 2 ^ (ubits - 2)).
  { split; [pose proof (pow2_pos (w - 1)); lia|]. apply Z.pow_le_mono_r; lia. }
  assert (U4 : 4 * 2 ^ (ubits - 2) = 2 ^ ubits) by (destruct UC as [-> | [-> | ->]]; reflexivity).
  assert (U : 2 ^ 16 <= 2 ^ ubits) by (apply Z.pow_le_mono_r; lia).
  rewrite Z.mod_small by (clear - P U4; lia). rewrite usize_chk_lt by (clear - P U4; lia). cbn [bind].
  rewrite usize_chk_lt by (clear - Hw UC U; lia). cbn [bind].
  assert (D : 0 <= n / (w + 1) <= n / 2).
  { split; [apply Z.div_pos; lia|]. apply Z.div_le_compat_l; lia. }
  assert (D2 : 2 * (n / 2) <= n) by (apply Z.mul_div_le; lia).
  rewrite usize_chk_lt by (clear - P U4 D D2 Hn; lia). reflexivity.
Qed.

(** The table of a chosen window has at most half as many entries as the exponent has bits. *)
Lemma window_loop_spec n : 0 <= n < 2 ^ ubits -> forall fuel w c, 1 <= w < Z.min wbits ubits -> wbits <= w + Z.of_nat fuel ->
  2 ^ (w - 1) - 1 <= n / 2 -> c <= n / 2 ->
  exists wl, window_loop fuel n w c = Ok wl /\ 1 <= wl < Z.min wbits ubits /\ 2 ^ (wl - 1) - 1 <= n / 2.
Proof.
  intros Hn. induction fuel as [|fuel IH]; intros w c Hw Hf HT Hc; cbn [window_loop]; destruct (Z.ltb_spec (w + 1) (Z.min wbits ubits)) as [C|C];
    try (exists w; split; [reflexivity|split; [lia|exact HT]]). { exfalso. lia. }
  rewrite (window_cost_spec n (w + 1) Hn) by lia. cbn [bind]. set (c2 := _ + n / _). destruct (Z.leb_spec c c2) as [G|G]; [exists w; split; [reflexivity|split; [lia|exact HT]]|].
  assert (0 <= n / (w + 1 + 1)) by (apply Z.div_pos; lia). apply IH; [lia|lia| |]; unfold c2 in *; clear - G Hc H; lia.
Qed.

Lemma choose_spec n : 0 <= n < 2 ^ ubits -> exists wl, choose_pow_window_len n = Ok wl /\ 1 <= wl < Z.min wbits ubits /\ 2 ^ (wl - 1) - 1 <= n / 2.
Proof.
  intros Hn. unfold choose_pow_window_len. pose proof wbits_cases as WC. pose proof ubits_cases as UC.
  rewrite (window_cost_spec n 1 Hn) by lia. cbn [bind]. assert (0 <= n / 2) by (apply Z.div_pos; lia).
  apply window_loop_spec; [exact Hn|lia|lia|exact H|]. change (2 ^ (1 - 1) - 1 + n / (1 + 1)) with (n / 2). lia.
Qed.

(** Bits of two adjacent words. *)
Lemma testbit_pair lo w1 w2 hi j : wf lo -> 0 <= w1 < B -> 0 <= w2 < B -> 0 <= j < 2 * wbits ->
  Z.testbit (w1 + B * w2) j = Z.testbit (val (lo ++ w1 :: w2 :: hi)) (j + wbits * Z.of_nat (length lo)).
Proof.
  intros Wl H1 H2 Hj. pose proof wbits_ge. rewrite val_app, !val_cons. pose proof (val_bound _ Wl). rewrite Bn_pow2 in *.
  rewrite (testbit_split (val lo)) by nia. rewrite (proj2 (Z.ltb_ge _ _)) by nia.
  replace (j + wbits * Z.of_nat (length lo) - wbits * Z.of_nat (length lo)) with j by lia. unfold B.
  rewrite !(testbit_split w1) by (auto; lia). destruct (Z.ltb_spec j wbits); [reflexivity|].
  rewrite (testbit_split w2) by (auto; lia). rewrite (proj2 (Z.ltb_lt _ _)) by lia. reflexivity.
Qed.

Lemma testbit_word lo w hi j : wf lo -> 0 <= w < B -> 0 <= j < wbits ->
  Z.testbit w j = Z.testbit (val (lo ++ w :: hi)) (j + wbits * Z.of_nat (length lo)).
Proof.
  intros Wl H1 Hj. pose proof wbits_ge. rewrite val_app, !val_cons. pose proof (val_bound _ Wl). rewrite Bn_pow2 in *.
  rewrite (testbit_split (val lo)) by nia. rewrite (proj2 (Z.ltb_ge _ _)) by nia.
  replace (j + wbits * Z.of_nat (length lo) - wbits * Z.of_nat (length lo)) with j by lia. unfold B.
  rewrite !(testbit_split w) by (auto; lia). rewrite (proj2 (Z.ltb_lt _ _)) by lia. reflexivity.
Qed.

(** The window of [wl] bits at [bit], without trailing zeros. *)
Lemma pow_window_spec e next cur bi i wl : 0 <= next < B -> 0 <= cur < B -> 0 <= bi < wbits -> 1 <= wl < wbits ->
  (forall j, 0 <= j < 2 * wbits -> Z.testbit (next + B * cur) j = Z.testbit e (j + wbits * (i - 1))) ->
  Z.testbit e (bi + wbits * i) = true ->
  exists W nb, pow_window next cur bi wl = Ok (W, nb) /\ 1 <= nb <= wl /\ nb - 1 <= bi + wbits * i /\
    Z.odd W = true /\ 0 <= W < 2 ^ wl /\ W = (e / 2 ^ (bi + wbits * i - (nb - 1))) mod 2 ^ nb.
Proof.
  intros Hn Hc Hb Hl T0 Tt. pose proof wbits_cases as WC. unfold pow_window. rewrite checked_ok by (clear - WC Hb Hl; lia). cbn [bind].
  rewrite check_true by (clear - Hb Hl; lia). rewrite double_word_val by auto. set (s := bi + 1 + wbits - wl). assert (Hs : 0 <= s <= 2 * wbits - wl) by (unfold s; lia).
  unfold split_double_word. rewrite ones_w_eq, Z.land_ones by lia. rewrite Z.shiftr_div_pow2 by lia.
  pose proof (B_mod_pow wl ltac:(lia)) as EB. pose proof (pow2_pos wl ltac:(lia)) as Pl. pose proof (pow2_pos (wbits - wl) ltac:(lia)) as Pl2.
  assert (E0 : forall z, (z mod B) mod 2 ^ wl = z mod 2 ^ wl).
  { intros z. rewrite EB. rewrite (Z.mul_comm (2 ^ (wbits - wl))). rewrite Z.rem_mul_r by lia. rewrite Z.mul_comm, Z_mod_plus_full, Z.mod_mod by lia. reflexivity. }
  rewrite E0. clear E0. set (W := ((next + B * cur) / 2 ^ s) mod 2 ^ wl). pose proof (Z.mod_pos_bound ((next + B * cur) / 2 ^ s) (2 ^ wl) ltac:(lia)) as WB. fold W in WB.
  assert (TW : forall j, 0 <= j < wl -> Z.testbit W j = Z.testbit e (j + (bi + wbits * i + 1 - wl))).
  { intros j Hj. unfold W. rewrite Z.mod_pow2_bits_low, Z.div_pow2_bits by lia. rewrite T0 by lia. f_equal. unfold s. ring. }
  assert (W0 : W <> 0). { intros E. specialize (TW (wl - 1) ltac:(lia)). rewrite E, Z.bits_0 in TW. replace (wl - 1 + (bi + wbits * i + 1 - wl)) with (bi + wbits * i) in TW by ring. congruence. }
  assert (PB : 2 ^ wl <= B). { rewrite EB. clear - Pl Pl2. nia. }
  destruct (trailing_zeros_w_spec W ltac:(lia)) as [(Tz0 & q & Hq & EW) Tzw]. set (tz := trailing_zeros_w W) in *. clearbody tz.
  pose proof (pow2_pos tz Tz0) as Ptz.
  assert (Tl : tz < wl). { destruct (Z.lt_ge_cases tz wl) as [|C]; [auto|]. pose proof (Z.pow_le_mono_r 2 wl tz ltac:(lia) C). clear - WB EW Hq H Ptz Pl. nia. }
  rewrite checked_ok by (clear - WC Hl Tl Tz0; lia). cbn [bind]. replace (wl - (wl - tz)) with tz by ring. rewrite checked_ok by (clear - WC Hl Tl Tz0; lia). cbn [bind].
  rewrite check_true by (clear - Tzw; lia). unfold shr_w. rewrite Z.shiftr_div_pow2 by lia.
  assert (ET : W / 2 ^ tz = 2 * q + 1) by (rewrite EW; apply Z.div_mul; lia).
  assert (TZ : Z.testbit W tz = true). { rewrite Z.testbit_true by lia. rewrite ET. rewrite Z.add_comm, Z.mul_comm, Z_mod_plus_full. reflexivity. }
  rewrite TW in TZ by lia.
  assert (NN : 0 <= tz + (bi + wbits * i + 1 - wl)). { destruct (Z.le_gt_cases 0 (tz + (bi + wbits * i + 1 - wl))) as [|C]; [auto|]. rewrite Z.testbit_neg_r in TZ by lia. discriminate. }
  exists (W / 2 ^ tz), (wl - tz). split; [reflexivity|]. split; [lia|]. split; [lia|]. split.
  { rewrite ET, Z.odd_add, Z.odd_mul. reflexivity. }
  split. { split; [rewrite ET; lia|]. rewrite EW in WB. rewrite ET. clear - WB Ptz Hq. nia. }
  apply Z.bits_inj'. intros j Hj. rewrite Z.div_pow2_bits by lia. destruct (Z.lt_ge_cases j (wl - tz)) as [C|C].
  - rewrite Z.mod_pow2_bits_low, Z.div_pow2_bits by lia. rewrite TW by lia. f_equal. ring.
  - rewrite Z.mod_pow2_bits_high by lia. apply testbit_high with wl; lia.
Qed.

Section LargeRing.
Context (r : ring_large) (n : Z) (R : rl_ok r n).
Local Notation large_of := (large_of r n).
Context (need : Z) (EM : need = ring_need (length (rl_modulus r))).

Lemma nl_pos : 0 < n.
Proof. destruct R as [H _]. pose proof B_ge. lia. Qed.

Lemma need_pos : 0 < need.
Proof. pose proof R as (_ & _ & _ & _ & L2 & _). pose proof EM as E. unfold ring_need in E. pose proof (mul_memory_nonneg (length (rl_modulus r))). lia. Qed.

Lemma mul_norm x a y b : large_of x (a mod n) -> large_of y (b mod n) -> exists p, mul_normalized r x y need = Ok p /\ large_of p ((a * b) mod n).
Proof.
  intros Hx Hy. destruct (mul_normalized_spec r n R x _ y _ need Hx Hy (Z.eq_le_incl _ _ (eq_sym EM))) as (p & E & H). exists p. split; [exact E|].
  rewrite mul_mod_both in H. exact H.
Qed.

Lemma mul_in_place x a y b : large_of x (a mod n) -> large_of y (b mod n) ->
  exists p, mul_normalized_in_place (mkModuloLarge r x) y need = Ok (mkModuloLarge r p) /\ large_of p ((a * b) mod n).
Proof.
  intros Hx Hy. destruct (mul_normalized_in_place_spec r n R x _ y _ need Hx Hy (Z.eq_le_incl _ _ (eq_sym EM))) as (p & E & H). exists p. split; [exact E|].
  rewrite mul_mod_both in H. exact H.
Qed.

Lemma square x a : large_of x (a mod n) -> exists p, large_square_in_place (mkModuloLarge r x) need = Ok (mkModuloLarge r p) /\ large_of p ((a * a) mod n).
Proof. intros Hx. exact (mul_in_place x a x a Hx Hx). Qed.

Lemma square_times_spec k : forall x a E, 0 <= E -> large_of x (a ^ E mod n) ->
  exists p, square_times k (mkModuloLarge r x) need = Ok (mkModuloLarge r p) /\ large_of p (a ^ (E * 2 ^ Z.of_nat k) mod n).
Proof.
  induction k as [|k IH]; intros x a E HE Hx; cbn [square_times].
  - exists x. split; [reflexivity|]. cbn [Z.of_nat]. rewrite Z.pow_0_r, Z.mul_1_r. exact Hx.
  - destruct (square x (a ^ E) Hx) as (p & -> & Hp). cbn [bind]. rewrite <- Z.pow_add_r in Hp by lia.
    assert (HE2 : 0 <= E + E) by (clear - HE; lia). destruct (IH p a (E + E) HE2 Hp) as (q & -> & Hq). exists q. split; [reflexivity|].
    replace (Z.of_nat (S k)) with (Z.of_nat k + 1) by lia. rewrite Z.pow_add_r by lia. change (2 ^ 1) with 2.
    replace (E * (2 ^ Z.of_nat k * 2)) with ((E + E) * 2 ^ Z.of_nat k) by ring. exact Hq.
Qed.

Lemma pow_table_spec self sq a : large_of self (a mod n) -> large_of sq (a ^ 2 mod n) ->
  forall count i l prev rest, (1 <= i)%nat -> length l = ((i - 1) * length (rl_modulus r))%nat ->
  length rest = (count * length (rl_modulus r))%nat ->
  (if (i =? 1)%nat then prev = self else exists l0, l = l0 ++ prev) -> large_of prev (a ^ (2 * Z.of_nat i - 1) mod n) ->
  exists t, pow_table count i r self sq (l ++ rest) need = Ok (l ++ t) /\ length t = (count * length (rl_modulus r))%nat /\
    forall k, (k < count)%nat -> exists l e h, t = l ++ e ++ h /\ length l = (k * length (rl_modulus r))%nat /\
      length e = length (rl_modulus r) /\ large_of e (a ^ (2 * Z.of_nat i - 1 + 2 * (Z.of_nat k + 1)) mod n).
Proof.
  intros Hself Hsq. set (N := length (rl_modulus r)) in *.
  induction count as [|count IH]; intros i l prev rest Hi Ll Lr Pl Hprev; cbn [pow_table].
  - exists []. destruct rest; [|discriminate Lr]. split; [reflexivity|]. split; [reflexivity|]. intros k Hk. clear - Hk. lia.
  - destruct (mul_norm prev _ sq _ Hprev Hsq) as (cur & EC & Hc).
    rewrite <- (Z.pow_add_r a (2 * Z.of_nat i - 1) 2) in Hc; [|clear - Hi; lia|clear; lia]. pose proof Hc as (_ & Lc & _). fold N in Lc.
    pose proof Hprev as (_ & Lp & _). fold N in Lp.
    assert (exists old rest', rest = old ++ rest' /\ length old = N /\ length rest' = (count * N)%nat) as (old & rest' & -> & Lo & Lr').
    { exists (firstn N rest), (skipn N rest). split; [symmetry; apply firstn_skipn|]. rewrite firstn_length, skipn_length, Lr. clear. lia. }
    assert ((if (i =? 1)%nat
       then on_window 0 N (l ++ old ++ rest') (fun cur => p <- mul_normalized r self sq need;; cur <- copy_slice cur p;; Ok (cur, tt))
       else on_window ((i - 2) * N) (i * N) (l ++ old ++ rest') (fun w => '(prev, cur) <- split_at N w;;
          p <- mul_normalized r prev sq need;; cur <- copy_slice cur p;; Ok (prev ++ cur, tt))) = Ok ((l ++ cur) ++ rest', tt)) as E.
    { destruct (Nat.eqb_spec i 1) as [->|Ni].
      - subst prev. destruct l; [|rewrite Nat.sub_diag in Ll; discriminate Ll]. change ([] ++ old ++ rest') with ([] ++ old ++ rest').
        rewrite on_window_app by (cbn; clear - Lo; lia). rewrite EC. cbn [bind]. unfold copy_slice. rewrite check_true by (rewrite Lo, Lc; apply Nat.eqb_refl). reflexivity.
      - destruct Pl as (l0 & ->). rewrite app_length, Lp in Ll. assert (length l0 = ((i - 2) * N)%nat) as L0.
        { replace (i - 1)%nat with (S (i - 2)) in Ll by (clear - Hi Ni; lia). cbn [Nat.mul] in Ll. clear - Ll. lia. }
        replace ((l0 ++ prev) ++ old ++ rest') with (l0 ++ (prev ++ old) ++ rest') by (rewrite !app_assoc; reflexivity).
        rewrite on_window_app. 2: exact L0. 2: { rewrite app_length, L0, Lp, Lo. assert (i = S (S (i - 2))) as EI by (clear - Hi Ni; lia). rewrite EI at 2. cbn [Nat.mul]. clear. lia. }
        rewrite split_at_app by auto. cbn [bind]. rewrite EC. cbn [bind]. unfold copy_slice. rewrite check_true by (rewrite Lo, Lc; apply Nat.eqb_refl).
        cbn [bind]. rewrite !app_assoc. reflexivity. }
    fold N. rewrite E. cbn [bind].
    destruct (IH (S i) (l ++ cur) cur rest') as (t & Et & Lt & Ht).
    + clear. lia.
    + rewrite app_length, Ll, Lc. replace (S i - 1)%nat with (S (i - 1)) by (clear - Hi; lia). cbn [Nat.mul]. clear. lia.
    + exact Lr'.
    + replace (S i =? 1)%nat with false by (symmetry; apply Nat.eqb_neq; clear - Hi; lia). exists l. reflexivity.
    + replace (2 * Z.of_nat (S i) - 1) with (2 * Z.of_nat i - 1 + 2) by (clear; lia). exact Hc.
    + rewrite Et. exists (cur ++ t). split; [rewrite app_assoc; reflexivity|]. split; [rewrite app_length, Lc, Lt; reflexivity|]. intros [|k] Hk.
      * exists [], cur, t. split; [reflexivity|]. split; [reflexivity|]. split; [exact Lc|]. exact Hc.
      * assert (Hk' : (k < count)%nat) by (clear - Hk; lia). destruct (Ht k Hk') as (l' & e & h & -> & Ll' & Le & He). exists (cur ++ l'), e, h. split; [rewrite <- app_assoc; reflexivity|].
        split; [rewrite app_length, Lc, Ll'; reflexivity|]. split; [exact Le|].
        replace (2 * Z.of_nat i - 1 + 2 * (Z.of_nat (S k) + 1)) with (2 * Z.of_nat (S i) - 1 + 2 * (Z.of_nat k + 1)) by (clear; lia). exact He.
Qed.

Section Loop.
Context (self : list Z) (a : Z) (Hself : large_of self (a mod n)).
Context (wl : Z) (Hwl : 1 <= wl < Z.min wbits ubits).
Context (table : list Z).
Context (Htable : forall k, (k < Z.to_nat (2 ^ (wl - 1) - 1))%nat -> exists l e h, table = l ++ e ++ h /\ length l = (k * length (rl_modulus r))%nat /\
      length e = length (rl_modulus r) /\ large_of e (a ^ (1 + 2 * (Z.of_nat k + 1)) mod n)).
Context (ws : list Z) (Wws : wf ws).
Local Notation e := (val ws).

Lemma entry_spec W : Z.odd W = true -> 0 <= W < 2 ^ wl ->
  exists v, (if shr_w W 1 mod 2 ^ ubits =? 0 then Ok self
   else '(_, t) <- split_at (Z.to_nat ((shr_w W 1 mod 2 ^ ubits - 1) * len (rl_modulus r))) table;; slice_to (Z.to_nat (len (rl_modulus r))) t) = Ok v /\
   large_of v (a ^ W mod n).
Proof.
  intros Ho HW. unfold shr_w. rewrite Z.shiftr_div_pow2 by lia. change (2 ^ 1) with 2. 
  pose proof (Z.div_mod W 2 ltac:(lia)) as DM. rewrite Zmod_odd, Ho in DM.
  assert (P : 2 ^ wl = 2 * 2 ^ (wl - 1)). { rewrite <- Z.pow_succ_r by lia. f_equal. lia. }
  assert (PU : 2 ^ (wl - 1) <= 2 ^ ubits) by (apply Z.pow_le_mono_r; lia).
  set (q := W / 2) in *. clearbody q. assert (Hq : 0 <= q < 2 ^ (wl - 1)) by (clear - DM HW P; lia). rewrite Z.mod_small by (clear - Hq PU; lia).
  destruct (Z.eqb_spec q 0) as [Q0|Q0].
  - exists self. split; [reflexivity|]. assert (W = 1) as -> by (clear - DM Q0; lia). rewrite Z.pow_1_r. exact Hself.
  - destruct (Htable (Z.to_nat (q - 1))) as (l & v & h & -> & Ll & Lv & Hv). { clear - Hq Q0. lia. }
    rewrite split_at_app. 2: { rewrite Ll. unfold len. clear - Hq Q0. rewrite Z2Nat.inj_mul by lia. rewrite Nat2Z.id. reflexivity. }
    cbn [bind]. unfold len. rewrite Nat2Z.id. rewrite slice_to_Ok by (rewrite app_length; clear - Lv; lia).
    rewrite <- Lv, firstn_app, Nat.sub_diag, firstn_all. cbn [firstn]. rewrite app_nil_r. exists v. split; [reflexivity|].
    replace W with (1 + 2 * (Z.of_nat (Z.to_nat (q - 1)) + 1)) by (clear - DM Hq Q0; lia). exact Hv.
Qed.

Lemma large_pow_loop_spec fuel : forall x bit, bit + 1 <= Z.of_nat fuel -> 0 <= bit < wbits * len ws -> bit < 2 ^ ubits ->
  large_of x (a ^ (2 * (e / 2 ^ (bit + 1))) mod n) ->
  exists p, large_pow_loop fuel self table ws (len (rl_modulus r)) wl need (mkModuloLarge r x) bit = Ok (mkModuloLarge r p) /\ large_of p (a ^ e mod n).
Proof.
  pose proof (val_nonneg ws Wws) as He0. pose proof wbits_cases as WC. pose proof ubits_cases as UC.
  assert (Epos : forall k, 0 <= k -> 0 <= e / 2 ^ k) by (intros k Hk; apply Z.div_pos; [exact He0|apply pow2_pos; exact Hk]).
  induction fuel as [|fuel IH]; intros x bit Hf Hb HU Hx; [clear - Hf Hb; lia|]. cbn [large_pow_loop].
  set (wi := bit / wbits). set (bi := bit mod wbits).
  assert (W1 : 1 <= wbits) by (clear - WC; lia). assert (WU : 1 <= wl < wbits) by (clear - Hwl; lia).
  assert (Hwb : 0 <= bit < wbits * len ws /\ 0 <= bi < wbits /\ bit = bi + wbits * wi /\ 0 <= wi < len ws).
  { clear - Hb W1. assert (0 <= bi < wbits) by (apply Z.mod_pos_bound; lia). assert (bit = bi + wbits * wi) by (pose proof (Z.div_mod bit wbits); unfold bi, wi; lia).
    split; [lia|]. split; [lia|]. split; [lia|]. split; [apply Z.div_pos; lia|apply Z.div_lt_upper_bound; lia]. }
  clearbody wi bi. destruct Hwb as (_ & Hbi & Eb & Hwi).
  destruct (get_set_split ws (Z.to_nat wi)) as (lo & cur & hi & Ews & Llo & Eg & _). { clear - Hwi. unfold len in Hwi. lia. }
  rewrite Eg. cbn [bind]. rewrite (proj1 (shl_w_1 bi Hbi)), land_pow2 by (clear - Hbi; lia).
  pose proof Wws as WW. rewrite Ews in WW. apply wf_cons_iff in WW as (Wlo & Wcur & Whi).
  assert (Tb : Z.testbit cur bi = Z.testbit e bit).
  { rewrite (testbit_word lo cur hi bi) by auto. rewrite <- Ews, Llo, Z2Nat.id by (clear - Hwi; lia). f_equal. clear - Eb. lia. }
  rewrite Tb.
  match goal with |- context [bind ?s _] => match s with context [pow_window] =>
    assert (K : exists x' bit', s = Ok (mkModuloLarge r x', bit') /\ 0 <= bit' <= bit /\ large_of x' (a ^ (e / 2 ^ bit') mod n)) end end.
  { destruct (Z.testbit e bit) eqn:Tt.
    - assert (N : exists next, (if wi =? 0 then Ok 0 else get (Z.to_nat (wi - 1)) ws) = Ok next /\ 0 <= next < B /\
        forall j, 0 <= j < 2 * wbits -> Z.testbit (next + B * cur) j = Z.testbit e (j + wbits * (wi - 1))).
      { destruct (Z.eqb_spec wi 0) as [W0|W0].
        - exists 0. split; [reflexivity|]. split; [pose proof B_ge; lia|]. intros j Hj. rewrite Z.add_0_l. unfold B. rewrite Z.mul_comm, Z.mul_pow2_bits by (clear - W1; lia).
          clear Tt Tb Hx IH. rewrite W0 in *. assert (lo = []) by (destruct lo; [reflexivity|cbn in Llo; lia]). subst lo. destruct (Z.lt_ge_cases j wbits) as [C|C].
          + rewrite !Z.testbit_neg_r by (clear - C; lia). reflexivity.
          + rewrite (testbit_word [] cur hi (j - wbits)) by (auto; clear - C Hj; lia). rewrite <- Ews. cbn [length]. f_equal. clear. lia.
        - destruct (last_split lo 0) as (lo' & El). { intros ->. cbn in Llo. clear - Llo W0 Hwi. lia. } set (next := last lo 0) in *. clearbody next.
          exists next. rewrite El in Ews, Llo, Wlo. rewrite app_length in Llo. cbn [length] in Llo. rewrite <- app_assoc in Ews. cbn [app] in Ews.
          apply wf_app in Wlo as [Wlo' Wn]. apply wf_cons in Wn as [Wn _]. split. { rewrite Ews. apply get_at. clear - Llo Hwi. lia. }
          split; [auto|]. intros j Hj. rewrite (testbit_pair lo' next cur hi j) by auto. rewrite <- Ews. f_equal. clear - Llo Hwi. nia. }
      destruct N as (next & -> & Wn & TN). cbn [bind].
      destruct (pow_window_spec e next cur bi wi wl Wn Wcur Hbi WU TN) as (W & nb & -> & Hnb & Hnb2 & Ho & HW & EW). { rewrite <- Eb. exact Tt. }
      cbn [bind]. rewrite <- Eb in Hnb2, EW. rewrite checked_ok by (clear - Hnb Hwl WC; lia). cbn [bind].
      assert (Q1 : 0 <= e / 2 ^ (bit + 1)) by (apply Epos; clear - Hb; lia). assert (Q2 : 0 <= 2 * (e / 2 ^ (bit + 1))) by (clear - Q1; lia).
      destruct (square_times_spec (Z.to_nat (nb - 1)) x a _ Q2 Hx) as (v & -> & Hv). cbn [bind]. rewrite Z2Nat.id in Hv by (clear - Hnb; lia).
      rewrite usize_chk_lt by (clear - HU Hb Hnb Hnb2; lia). cbn [bind].
      assert (L1 : Z.land W 1 = 1). { change 1 with (Z.ones 1) at 1. rewrite Z.land_ones by discriminate. change (2 ^ 1) with 2. rewrite Zmod_odd, Ho. reflexivity. }
      rewrite check_true by (rewrite L1; reflexivity).
      destruct (entry_spec W Ho HW) as (t & Et & Ht). unfold len in Et |- *. cbv zeta. rewrite Et. cbn [bind].
      destruct (mul_in_place v _ t _ Hv Ht) as (p & -> & Hp). cbn [bind]. exists p, (bit - (nb - 1)). split; [reflexivity|]. split; [clear - Hnb Hnb2; lia|].
      set (b' := bit - (nb - 1)) in *. assert (Hb' : 0 <= b') by (clear - Hnb2; unfold b'; lia).
      assert (N1 : 0 <= nb - 1 /\ 0 <= nb) by (clear - Hnb; lia). pose proof (pow2_pos (nb - 1) (proj1 N1)) as Pn. pose proof (pow2_pos nb (proj2 N1)) as Pn2.
      rewrite <- Z.pow_add_r in Hp; [|clear - Q1 Pn; nia|clear - HW; lia].
      replace (2 * (e / 2 ^ (bit + 1)) * 2 ^ (nb - 1) + W) with (e / 2 ^ b') in Hp; [exact Hp|].
      pose proof (Z.div_mod (e / 2 ^ b') (2 ^ nb) ltac:(clear - Pn2; lia)) as DM. rewrite <- EW in DM. rewrite DM. f_equal.
      pose proof (pow2_pos b' Hb') as Pb. rewrite Z.div_div by (clear - Pb Pn2; lia). rewrite <- Z.pow_add_r by (clear - Hb' N1; lia). replace (b' + nb) with (bit + 1) by (unfold b'; ring).
      replace (2 ^ nb) with (2 * 2 ^ (nb - 1)) by (clear - N1; rewrite <- Z.pow_succ_r by lia; f_equal; lia). ring.
    - exists x, bit. split; [reflexivity|]. split; [clear - Hb; lia|]. rewrite (div_bit_split e bit), Tt by (clear - Hb; lia). cbn [Z.b2z]. rewrite Z.add_0_r. exact Hx. }
  destruct K as (x' & bit' & -> & Hb' & Hx'). cbn [bind]. destruct (Z.eqb_spec bit' 0) as [->|N0].
  - exists x'. split; [reflexivity|]. rewrite Z.pow_0_r, Z.div_1_r in Hx'. exact Hx'.
  - destruct (square x' _ Hx') as (y & -> & Hy). cbn [bind]. rewrite <- Z.pow_add_r in Hy by (apply Epos; clear - Hb'; lia).
    apply IH; [clear - Hf Hb'; lia|clear - Hb Hb' N0; lia|clear - HU Hb'; lia|]. replace (bit' - 1 + 1) with bit' by ring. replace (2 * (e / 2 ^ bit')) with (e / 2 ^ bit' + e / 2 ^ bit') by ring. exact Hy.
Qed.

End Loop.

Lemma large_pow_spec x a u : large_of x a -> ubig_ok u ->
  (exists p, large_pow (mkModuloLarge r x) u = Ok (mkModuloLarge r p) /\ large_of p (a ^ uval u mod n)) \/
  no_memory (room_for_pow n (uval u)) (large_pow (mkModuloLarge r x) u).
Proof.
  intros Hx Hu. pose proof nl_pos as Hn. assert (Hx' : large_of x (a mod n)) by (rewrite Z.mod_small by apply Hx; exact Hx). pose proof B_ge as HB.
  assert (NT : 2 <= uval u -> (exists p, large_pow_nontrivial (mkModuloLarge r x) u = Ok (mkModuloLarge r p) /\ large_of p (a ^ uval u mod n)) \/
    no_memory (room_for_pow n (uval u)) (large_pow_nontrivial (mkModuloLarge r x) u)).
  { intros He2. unfold large_pow_nontrivial. cbn [ml_value ml_ring]. rewrite ubig_le_spec by (auto; cbn; lia). cbn [uval from_word bind].
    rewrite (proj2 (Z.leb_le _ _)) by lia. rewrite check_true by reflexivity. rewrite ubig_bit_len_spec by auto. cbn [bind].
    assert (S : wf (as_words u) /\ val (as_words u) = uval u).
    { destruct u as [w|b]; cbn [as_words uval] in *; [|split; [apply Hu|reflexivity]]. rewrite (proj2 (Z.eqb_neq _ _)) by lia. cbn [val].
      split; [apply wf_cons; split; [exact Hu|constructor]|lia]. }
    destruct S as [Ww Vw]. unfold bitlen. rewrite (proj2 (Z.eqb_neq _ _)) by lia. assert (U0 : 0 < uval u) by (clear - He2; lia). pose proof (Z.log2_spec (uval u) U0) as L.
    assert (L1 : 1 <= Z.log2 (uval u)) by (apply Z.log2_le_pow2; lia).
    assert (LL : Z.log2 (uval u) < wbits * len (as_words u)).
    { apply Z.log2_lt_pow2; [lia|]. rewrite <- Vw. pose proof (val_bound _ Ww) as Q. rewrite Bn_pow2 in Q. exact (proj2 Q). }
    assert (LU : wbits * len (as_words u) < 2 ^ ubits).
    { pose proof MAX_LEN_facts as (F1 & F2 & _). pose proof wbits_ge. assert (len (as_words u) <= MAX_LEN).
      { destruct u as [w|b]; cbn [as_words]; [destruct (w =? 0); unfold len; cbn; lia|]. destruct Hu as (_ & _ & _ & M & _). exact M. }
      nia. }
    destruct (choose_spec (Z.log2 (uval u) + 1)) as (wl & -> & Hwl & HT); [lia|]. cbn [bind].
    destruct (pow_room r n wl (uval u) R ltac:(lia) HT He2) as [(l & -> & El)|[-> NR]]; [left|right; split; [reflexivity|exact NR]].
    cbn [bind]. rewrite El. cbn [bind]. clear El l. rewrite <- EM. fold (len (rl_modulus r)).
    assert (P1 : 0 < 2 ^ (wl - 1)) by (apply pow2_pos; clear - Hwl; lia). assert (Q0 : 0 <= 2 ^ (wl - 1) - 1) by (clear - P1; lia). set (q := 2 ^ (wl - 1) - 1) in *.
    unfold alloc_fill, alloc. assert (TW : 0 <= q * len (rl_modulus r)) by (unfold len; apply Z.mul_nonneg_nonneg; clear - Q0; lia).
    rewrite Z2Nat.id by exact TW. assert (0 < need) as ND by exact need_pos.
    rewrite (proj2 (Z.leb_le _ _)) by (clear - ND; lia). rewrite (proj2 (Z.ltb_lt _ _)) by (clear - ND TW; lia). cbn [andb bind].
    replace (q * len (rl_modulus r) + need - q * len (rl_modulus r)) with need by ring. unfold large_mul_in_place. cbn [ml_value].
    destruct (mul_in_place x a x a Hx' Hx') as (sq & -> & Hsq). cbn [bind ml_value]. rewrite <- Z.pow_2_r in Hsq.
    assert (Hx1 : large_of x (a ^ (2 * Z.of_nat 1 - 1) mod n)) by (change (2 * Z.of_nat 1 - 1) with 1; rewrite Z.pow_1_r; exact Hx').
    destruct (pow_table_spec x sq a Hx' Hsq (Z.to_nat q) 1 [] x (repeat 0 (Z.to_nat (q * len (rl_modulus r))))) as (t & Et & Lt & Ht);
      [apply le_n|reflexivity| |reflexivity|exact Hx1|].
    { rewrite repeat_length. unfold len. rewrite Z2Nat.inj_mul by (clear - Q0; lia). rewrite Nat2Z.id. reflexivity. }
    cbn [app] in Et. rewrite Et. cbn [bind].
    replace (Z.log2 (uval u) + 1 - 2) with (Z.log2 (uval u) - 1) by ring. rewrite usize_chk_lt by lia. cbn [bind].
    set (bit := Z.log2 (uval u) - 1) in *.
    destruct (large_pow_loop_spec x a Hx' wl Hwl t Ht (as_words u) Ww (S (Z.to_nat bit)) sq bit) as (p & E & Hp); [lia|lia|lia| |].
    - rewrite Vw. replace (bit + 1) with (Z.log2 (uval u)) by (unfold bit; ring). assert (uval u / 2 ^ Z.log2 (uval u) = 1) as ->; [|exact Hsq].
      symmetry. rewrite Z.pow_succ_r in L by lia. apply Z.div_unique with (uval u - 2 ^ Z.log2 (uval u)); lia.
    - rewrite Vw in Hp. exists p. split; [exact E|exact Hp]. }
  unfold large_pow. destruct u as [w|b]; [|apply NT; pose proof (Large_ge b Hu); cbn [uval]; lia]. cbn [uval] in *. cbn [ubig_ok] in Hu. cbn [ml_value ml_ring].
  destruct (Z.eqb_spec w 0) as [->|N0]; [|destruct (Z.eqb_spec w 1) as [->|N1]].
  - destruct (large_from_ubig_spec r n R (from_word 1)) as [F _]; [cbn; lia|]. destruct F as (p & E & H).
    { cbn [from_word uval]. rewrite Z.mul_1_l. destruct R as (_ & Hs & _). pose proof B_MAXV. assert (2 ^ rl_shift r < B) by (unfold B; apply Z.pow_lt_mono_r; lia). nia. }
    left. exists p. split; [exact E|]. rewrite Z.pow_0_r. exact H.
  - left. exists x. split; [reflexivity|]. rewrite Z.pow_1_r. exact Hx'.
  - apply NT. lia.
Qed.

(** Powers need at least the memory of products. *)
Lemma large_pow_no_room x u : ubig_ok u -> 2 <= uval u -> room_for_mul n = false -> large_pow (mkModuloLarge r x) u = Panic OutOfMemory.
Proof.
  intros Hu He F. assert (NT : large_pow_nontrivial (mkModuloLarge r x) u = Panic OutOfMemory).
  { unfold large_pow_nontrivial. cbn [ml_value ml_ring]. pose proof B_ge as HB. rewrite ubig_le_spec by (auto; cbn; lia). cbn [uval from_word bind].
    rewrite (proj2 (Z.leb_le _ _)) by lia. rewrite check_true by reflexivity. rewrite ubig_bit_len_spec by auto. cbn [bind].
    assert (0 <= bitlen (uval u) < 2 ^ ubits) as Hb.
    { split; [apply bitlen_nonneg|]. pose proof (ubig_ok_val u Hu) as [_ HM]. unfold bitlen. destruct (uval u =? 0); [pose proof ubits_ge; pose proof (pow2_pos ubits); lia|].
      pose proof MAX_LEN_facts as (_ & F2 & _). assert (Z.log2 (uval u) < wbits * MAX_LEN) by (apply Z.log2_lt_pow2; [lia|exact HM]). lia. }
    destruct (choose_spec _ Hb) as (wl & -> & Hwl & HT). cbn [bind]. pose proof R as (Hn & _ & _ & _ & L2 & LM & _).
    destruct (ring_pow_request (length (rl_modulus r)) wl L2 LM ltac:(lia)) as [_ P2]. rewrite P2; [reflexivity|].
    unfold room_for_mul in F. rewrite (proj2 (Z.ltb_ge n B)) in F by lia. cbn [orb] in F. rewrite block_fits_spec, (ring_mul_words r n R) in F. apply Z.leb_gt in F.
    eapply Z.lt_le_trans; [exact F|]. pose proof word_size_pos. apply Z.mul_le_mono_nonneg_r; [lia|].
    assert (0 < 2 ^ (wl - 1)) by (apply pow2_pos; lia). assert (0 <= (2 ^ (wl - 1) - 1) * Z.of_nat (length (rl_modulus r))) by (apply Z.mul_nonneg_nonneg; lia). lia. }
  unfold large_pow. destruct u as [w|b]; [|exact NT]. cbn [uval] in He. rewrite (proj2 (Z.eqb_neq w 0)), (proj2 (Z.eqb_neq w 1)) by lia. exact NT.
Qed.

End LargeRing.

End ModularPow.
