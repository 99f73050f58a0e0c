(** The benchmarks do not panic and measure numbers of the sizes they announce. *)
From Coq Require Import ZArith QArith Lia.
From Verif Require Import Model.Base Model.Words Model.Buffer Model.UBig Model.IBig Model.Convert Model.AddOps Model.MulOps
  Model.ShiftOps Model.DivOps Model.Gcd Model.Pow Model.Fmt Model.Parse Model.Rand Model.Modular Model.Tools Model.Bench
  Spec.Val Spec.Num Spec.Prim Spec.Digits Spec.FmtText Spec.ParseResult Spec.Modular Spec.Rand Spec.Bench
  Proofs.Basics Proofs.ShiftProofs Proofs.BufferProofs Proofs.ConvertProofs Proofs.AddOpsProofs Proofs.MulOpsProofs Proofs.ShiftOpsProofs Proofs.DivOpsProofs
  Proofs.GcdProofs Proofs.GcdApi Proofs.PowProofs Proofs.RandProofs Proofs.ModularProofs Proofs.ModularApi Proofs.ModularRoom Proofs.ModularTheorems
  Proofs.DigitsProofs Proofs.RadixProofs Proofs.ParseProofs Proofs.FmtProofs Proofs.FmtApi Proofs.FmtRound Proofs.PrimeToolProofs.
Open Scope Z_scope.

(** ** Programs *)

Definition good {T} (P : T -> Prop) (r : res (option T)) : Prop := r = Ok None \/ exists x, r = Ok (Some x) /\ P x.

Lemma good_never {T} (m : rand (option T)) P : all m (good P) -> never_panics m P.
Proof. intros H cs r R. exact (all_runs _ _ H cs r R). Qed.

Lemma good_obind {S T} (m : rand (option S)) (k : S -> rand (option T)) Q P :
  all m (good Q) -> (forall x, Q x -> all (k x) (good P)) -> all (obind m k) (good P).
Proof.
  intros H K. unfold obind. apply all_bind. apply (all_impl _ (good Q)); [|exact H].
  intros r [-> |(x & -> & Hx)]; [left; reflexivity|exact (K x Hx)].
Qed.

Lemma good_lift {S T} (m : res S) (k : S -> rand (option T)) x P : m = Ok x -> all (k x) (good P) -> all (rbind (lift m) k) (good P).
Proof. intros -> H. exact H. Qed.

Lemma good_olift {T} (m : res T) x (P : T -> Prop) : m = Ok x -> P x -> all (olift m) (good P).
Proof. intros -> H. right. exists x. split; [reflexivity|exact H]. Qed.

(** ** Lengths of texts *)

Lemma text_length radix k v bits ds : 2 <= radix -> 1 <= k -> 2 ^ k <= radix -> 0 < v < 2 ^ bits -> 1 <= bits -> canonical radix v ds ->
  Z.of_nat (length ds) <= bits / k + 1.
Proof.
  intros Hr Hk Hkr Hv Hb (C1 & C2 & C3). destruct C3 as [-> |C3]; [cbn in C2; lia|].
  pose proof (reads_lead radix v ds ltac:(lia) (conj C1 C2) C3) as L. set (n := Z.of_nat (length ds)) in *.
  assert (1 <= n) by (destruct ds; [contradiction|unfold n; cbn [length]; lia]).
  assert (K : (2 ^ k) ^ (n - 1) <= radix ^ (n - 1)) by (apply Z.pow_le_mono_l; split; [apply Z.lt_le_incl, pow2_pos; lia|exact Hkr]).
  rewrite <- Z.pow_mul_r in K by lia. assert (k * (n - 1) < bits) by (apply (Z.pow_lt_mono_r_iff 2); lia).
  assert (n - 1 <= bits / k); [|lia]. apply Z.div_le_lower_bound; lia.
Qed.

Section Bench.
Context {A : Arch} {AOK : ArchOk A}.

Lemma bit_len_usize : MAX_BIT_LEN < 2 ^ ubits.
Proof. unfold MAX_BIT_LEN. pose proof MAX_BIT_LEN_usize. lia. Qed.

Lemma usize_fits x : 0 <= x <= MAX_BIT_LEN -> usize_chk x = Ok x.
Proof.
  intros H. pose proof bit_len_usize. unfold usize_chk, checked. destruct (Z.leb_spec 0 x); [|lia]. destruct (Z.ltb_spec x (2 ^ ubits)); [reflexivity|lia].
Qed.

Lemma MAXV_bits : MAXV = 2 ^ MAX_BIT_LEN.
Proof. unfold MAXV, MAX_BIT_LEN. f_equal. lia. Qed.

Lemma pow_MAXV b : 0 <= b < MAX_BIT_LEN -> 2 ^ b < MAXV.
Proof. intros H. rewrite MAXV_bits. apply Z.pow_lt_mono_r; lia. Qed.

Lemma has_bits_range n u : has_bits n u -> ubig_ok u /\ 1 <= n /\ 2 ^ (n - 1) <= uval u < 2 ^ n /\ 0 < uval u.
Proof.
  intros (H & P & L). pose proof (Z.log2_nonneg (uval u)). pose proof (Z.log2_spec (uval u) P) as S.
  split; [exact H|]. split; [lia|]. replace (n - 1) with (Z.log2 (uval u)) by lia. rewrite <- L. split; [exact S|exact P].
Qed.

Theorem random_samples bits : 1 <= bits < MAX_BIT_LEN -> samples_ubig (fun k => random_ubig k bits) (2 ^ (bits - 1)) (2 ^ bits).
Proof.
  intros H. pose proof bit_len_usize as HU. pose proof (pow2_pos (bits - 1) ltac:(lia)) as P.
  assert (D : 2 ^ bits = 2 * 2 ^ (bits - 1)) by (rewrite <- Z.pow_succ_r by lia; f_equal; lia).
  pose proof (pow_MAXV bits ltac:(lia)) as V.
  unfold random_ubig. rewrite usize_fits by lia. cbn [bind].
  destruct (literal_spec 1 ltac:(lia)) as (one & -> & Hone & Eone). cbn [bind].
  destruct (ubig_shl_v_yields one (bits - 1) Hone ltac:(lia)) as [S1 _]. destruct (S1 ltac:(lia)) as (low & -> & Hlow & Elow). cbn [bind].
  destruct (ubig_shl_v_yields one bits Hone ltac:(lia)) as [S2 _]. destruct (S2 ltac:(lia)) as (high & -> & Hhigh & Ehigh). cbn [bind].
  rewrite Eone, Z.mul_1_l in Elow, Ehigh.
  assert (EL : ubig_lt low high = Ok true).
  { unfold ubig_lt. rewrite ubig_cmp_spec by assumption. cbn [bind]. rewrite (proj2 (Z.compare_lt_iff _ _)) by lia. reflexivity. }
  rewrite EL. cbn [bind assert]. destruct (ubig_new_spec low high Hlow Hhigh) as [N _]. destruct (N ltac:(lia)) as (s & -> & SA).
  rewrite Elow, Ehigh in SA. exact SA.
Qed.

Lemma random_good k bits : 1 <= bits < MAX_BIT_LEN -> all (random_ubig k bits) (good (has_bits bits)).
Proof.
  intros H. apply runs_all. intros cs r R. destruct (random_samples bits H) as [S _]. pose proof (pow2_pos (bits - 1) ltac:(lia)) as P.
  destruct (S k cs r R) as [-> |(u & -> & Hu & L)]; [left; reflexivity|right]. exists u. split; [reflexivity|]. split; [exact Hu|]. split; [lia|].
  rewrite (Z.log2_unique (uval u) (bits - 1)); [lia|lia|]. replace (Z.succ (bits - 1)) with bits by lia. exact L.
Qed.

(** Sizes that the benchmarks can use. *)
Definition fits (e : Z) : Prop := 1 <= e /\ 2 * 10 ^ e < MAX_BIT_LEN.

Lemma fits_bits e : fits e -> power_of_ten e = Ok (10 ^ e) /\ 10 <= 10 ^ e /\ 2 * 10 ^ e < MAX_BIT_LEN.
Proof.
  intros [H F]. assert (10 ^ 1 <= 10 ^ e) by (apply Z.pow_le_mono_r; lia). rewrite Z.pow_1_r in *.
  split; [|lia]. apply usize_fits. lia.
Qed.

Ltac start F :=
  let E := fresh "E" in let L := fresh "L" in let U := fresh "U" in
  destruct (fits_bits _ F) as (E & L & U); apply good_never; eapply good_lift; [exact E|]; set (bits := 10 ^ _) in *; clearbody bits; clear E.
Ltac draw a H := eapply good_obind; [apply random_good; lia|]; intros a H; pose proof (has_bits_range _ _ H) as (? & _ & ? & ?).

Lemma twice bits : 1 <= bits -> 2 * bits < MAX_BIT_LEN -> 2 ^ bits * 2 ^ bits < MAXV /\ 2 * 2 ^ bits < MAXV /\ 2 <= 2 ^ bits.
Proof.
  intros H L. pose proof (pow_MAXV (2 * bits) ltac:(lia)) as V. replace (2 * bits) with (bits + bits) in V by lia. rewrite Z.pow_add_r in V by lia.
  assert (2 ^ 1 <= 2 ^ bits) by (apply Z.pow_le_mono_r; lia). split; [exact V|]. nia.
Qed.

Theorem bench_add_good k e : fits e -> never_panics (bench_add k e) (fun '(a, b, c) =>
  has_bits (10 ^ e) a /\ has_bits (10 ^ e) b /\ ubig_ok c /\ uval c = uval a + uval b).
Proof.
  intros F. start F. draw a Ha. draw b Hb. destruct (twice bits ltac:(lia) ltac:(lia)) as (T1 & T2 & T3).
  destruct (ubig_add_rr_yields a b) as [Y _]; [assumption..|]. destruct Y as (c & Ec & Hc & Vc); [lia|].
  eapply good_olift; [rewrite Ec; reflexivity|]. cbn beta iota. auto.
Qed.

Theorem bench_sub_good k e : fits e -> never_panics (bench_sub k e) (fun '(a, b, d) =>
  has_bits (10 ^ e) a /\ has_bits (10 ^ e) b /\ ubig_ok d /\ uval d = uval a).
Proof.
  intros F. start F. draw a Ha. draw b Hb. destruct (twice bits ltac:(lia) ltac:(lia)) as (T1 & T2 & T3).
  destruct (ubig_add_vr_yields a b) as [Y _]; [assumption..|]. destruct Y as (c & Ec & Hc & Vc); [lia|].
  destruct (ubig_sub_rr_yields c b) as [Y _]; [assumption..|]. destruct Y as [Y _]; [lia|]. destruct Y as (d & Ed & Hd & Vd); [lia|].
  eapply good_olift; [rewrite Ec; cbn [bind]; rewrite Ed; reflexivity|]. cbn beta iota. do 3 (split; [assumption|]). lia.
Qed.

Theorem bench_mul_good k e : fits e -> never_panics (bench_mul k e) (fun '(a, b, c) =>
  has_bits (10 ^ e) a /\ has_bits (10 ^ e) b /\ ubig_ok c /\ uval c = uval a * uval b).
Proof.
  intros F. start F. draw a Ha. draw b Hb. destruct (twice bits ltac:(lia) ltac:(lia)) as (T1 & T2 & T3).
  destruct (ubig_mul_rr_yields a b) as [Y _]; [assumption..|]. destruct Y as (c & Ec & Hc & Vc); [nia|].
  eapply good_olift; [rewrite Ec; reflexivity|]. cbn beta iota. auto.
Qed.

Theorem bench_div_good k e : fits e -> never_panics (bench_div k e) (fun '(a, b, (q, r)) =>
  has_bits (2 * 10 ^ e) a /\ has_bits (10 ^ e) b /\ ubig_ok q /\ ubig_ok r /\ uval a = uval q * uval b + uval r /\ 0 <= uval r < uval b).
Proof.
  intros F. start F. eapply good_lift; [apply usize_fits; lia|]. draw a Ha. draw b Hb.
  destruct (ubig_div_rem_rr_yields a b) as [_ Y]; [assumption..|]. destruct Y as (q & r & Ec & Hq & Hr & Vq & Vr); [lia|].
  eapply good_olift; [rewrite Ec; reflexivity|]. cbn beta iota. do 4 (split; [assumption|]). rewrite Vq, Vr.
  split; [rewrite (Z.div_mod (uval a) (uval b)) at 1 by lia; ring|apply Z.mod_pos_bound; lia].
Qed.

Theorem bench_gcd_good k e : fits e -> never_panics (bench_gcd k e) (fun '(a, b, g) =>
  has_bits (10 ^ e) a /\ has_bits (10 ^ e) b /\ ubig_ok g /\ uval g = Z.gcd (uval a) (uval b)).
Proof.
  intros F. start F. draw a Ha. draw b Hb.
  destruct (ubig_gcd_spec a b) as [_ Y]; [assumption..|]. destruct Y as (g & Ec & Hg & Vg); [lia|].
  eapply good_olift; [rewrite Ec; reflexivity|]. cbn beta iota. auto.
Qed.

Theorem bench_extended_gcd_good k e : fits e -> never_panics (bench_extended_gcd k e) (fun '(a, b, (g, x, y)) =>
  has_bits (10 ^ e) a /\ has_bits (10 ^ e) b /\ ubig_ok g /\ ibig_ok x /\ ibig_ok y /\
  uval g = Z.gcd (uval a) (uval b) /\ uval a * ival x + uval b * ival y = uval g).
Proof.
  intros F. start F. draw a Ha. draw b Hb. destruct (twice bits ltac:(lia) ltac:(lia)) as (T1 & T2 & T3).
  pose proof (ubig_extended_gcd_bezout a b) as Y. rewrite (proj2 (Z.eqb_neq (uval a) 0)) in Y by lia. cbn [andb] in Y.
  destruct Y as (g & x & y & Ec & Hg & Hx & Hy & V1 & V2 & _); [assumption..|lia|lia|].
  eapply good_olift; [rewrite Ec; reflexivity|]. cbn beta iota. auto 10.
Qed.

Lemma plain_text be bits a : 1 <= bits -> has_bits bits a ->
  exists hs ds, canonical 16 (uval a) hs /\ ubig_lower_hex be a no_options = Ok (map (digit_text false) hs) /\ Z.of_nat (length hs) <= bits / 4 + 1 /\
    canonical 10 (uval a) ds /\ ubig_display be a no_options = Ok (map (digit_text false) ds) /\ Z.of_nat (length ds) <= bits / 3 + 1.
Proof.
  intros Hb H. pose proof (has_bits_range _ _ H) as (Ha & _ & R & P).
  pose proof (ubig_prints be a no_options Ha eq_refl) as (D & _ & _ & _ & X & _).
  destruct D as (ds & CD & ED). destruct X as (hs & CX & EX). rewrite Z.abs_eq in CD, CX by lia.
  destruct (Z.ltb_spec (uval a) 0); [lia|]. exists hs, ds.
  split; [exact CX|]. split; [exact EX|]. split; [apply (text_length 16 4 (uval a)); lia || exact CX|].
  split; [exact CD|]. split; [exact ED|]. apply (text_length 10 3 (uval a)); lia || exact CD.
Qed.

Lemma third bits k : 1 <= bits -> 2 <= k -> 0 <= bits / k + 1 <= bits + 1.
Proof. intros H K. pose proof (Z.div_pos bits k ltac:(lia) ltac:(lia)). pose proof (Z.div_le_upper_bound bits k bits ltac:(lia) ltac:(nia)). lia. Qed.

Theorem bench_to_hex_good be k e : fits e -> never_panics (bench_to_hex be k e) (fun '(a, out, capacity) =>
  has_bits (10 ^ e) a /\ (exists ds, canonical 16 (uval a) ds /\ out = map (digit_text false) ds) /\ Z.of_nat (length out) <= capacity).
Proof.
  intros F. start F. draw a Ha. pose proof (third bits 4 ltac:(lia) ltac:(lia)).
  destruct (plain_text be bits a ltac:(lia) Ha) as (hs & _ & C & E & LH & _).
  eapply good_olift; [rewrite usize_fits by lia; cbn [bind]; rewrite E; reflexivity|]. cbn beta iota. rewrite map_length. eauto.
Qed.

Theorem bench_to_dec_good be k e : fits e -> never_panics (bench_to_dec be k e) (fun '(a, out, capacity) =>
  has_bits (10 ^ e) a /\ (exists ds, canonical 10 (uval a) ds /\ out = map (digit_text false) ds) /\ Z.of_nat (length out) <= capacity).
Proof.
  intros F. start F. draw a Ha. pose proof (third bits 3 ltac:(lia) ltac:(lia)).
  destruct (plain_text be bits a ltac:(lia) Ha) as (_ & ds & _ & _ & _ & C & E & LD).
  eapply good_olift; [rewrite usize_fits by lia; cbn [bind]; rewrite E; reflexivity|]. cbn beta iota. rewrite map_length. eauto.
Qed.

Theorem bench_from_text_good radix be k e : radix = 10 \/ radix = 16 -> fits e -> never_panics (bench_from_text radix be k e) (fun '(a, r) =>
  has_bits (10 ^ e) a /\ exists u, r = POk u /\ ubig_ok u /\ uval u = uval a).
Proof.
  intros HR F. start F. draw a Ha. pose proof (third bits 3 ltac:(lia) ltac:(lia)).
  destruct (ubig_round be a radix no_options) as (t & Et & RB); [assumption|discriminate|left; reflexivity|lia|].
  assert (LT : Z.of_nat (length t) <= bits / 3 + 1).
  { pose proof (ubig_in_radix_shows be a radix no_options) as SH. destruct SH as (ds & C & E); [assumption|discriminate|lia|].
    rewrite Et in E. injection E as ->. unfold padded. cbn. destruct (Z.ltb_spec (uval a) 0); [lia|]. cbn. rewrite app_nil_r, map_length.
    rewrite Z.abs_eq in C by lia. apply (text_length radix 3 (uval a)); lia || exact C. }
  destruct RB as (u & Eu & Hu & Vu).
  { unfold slice_size. cbn [length]. pose proof bit_len_usize. pose proof ubits_ge.
    replace (2 ^ ubits) with (2 * 2 ^ (ubits - 1)) in * by (rewrite <- Z.pow_succ_r by lia; f_equal; lia).
    assert (bits / 3 + 2 <= bits) by (pose proof (Z.mul_div_le bits 3 ltac:(lia)); lia). lia. }
  eapply good_olift; [rewrite Et; cbn [bind]; rewrite Eu; reflexivity|]. cbn beta iota. eauto.
Qed.

Theorem bench_pow_good e : fits e -> returns (bench_pow e) (3 ^ 10 ^ e).
Proof.
  intros F. destruct (fits_bits _ F) as (E & L & U). unfold bench_pow. rewrite E. cbn [bind]. set (bits := 10 ^ e) in *. clearbody bits.
  destruct (literal_spec 3 ltac:(lia)) as (u & -> & Hu & Eu). cbn [bind]. pose proof bit_len_usize.
  destruct (ubig_pow_spec u bits Hu ltac:(lia)) as [Y _]. rewrite Eu in Y. apply Y.
  apply Z.le_lt_trans with ((2 ^ 2) ^ bits); [apply Z.pow_le_mono_l; lia|]. rewrite <- Z.pow_mul_r by lia. apply pow_MAXV. lia.
Qed.

Lemma room_of r n bits a : is_ring r n -> 10 <= bits -> 2 * bits < MAX_BIT_LEN -> 0 <= a < 2 ^ bits -> ring_room r a.
Proof.
  intros Hr Hb L Ha. destruct r as [r|r]; cbn [ring_room]; [exact I|]. apply is_ring_large in Hr as (_ & S & _).
  pose proof wbits_ge as HW. pose proof MAX_LEN_ge as ML. assert (W : wbits <= 64) by (destruct arch_ok as ([Ew|[Ew|Ew]] & _); lia).
  assert (2 ^ rl_shift r <= 2 ^ wbits) by (apply Z.pow_le_mono_r; lia). pose proof (pow2_pos (rl_shift r) ltac:(lia)).
  assert (2 ^ bits * 2 ^ wbits < MAXV); [|nia]. rewrite <- Z.pow_add_r by lia. apply pow_MAXV. unfold MAX_BIT_LEN in *. nia.
Qed.

Theorem bench_modulo_mul_good addr k e : fits e -> never_panics (bench_modulo_mul addr k e) (fun '(m, u, v, c) =>
  has_bits (10 ^ e) m /\ has_bits (10 ^ e) u /\ has_bits (10 ^ e) v /\
  exists r, is_ring r (uval m) /\ element r (uval m) c ((uval u * uval v) mod uval m)).
Proof.
  intros F. start F. draw m Hm. destruct (twice bits ltac:(lia) ltac:(lia)) as (T1 & T2 & T3).
  destruct (ring_new_ring addr m) as (r & Er & Hr & _); [assumption|lia|]. eapply good_lift; [exact Er|]. draw u Hu.
  destruct (ubig_into_modulo_spec r (uval m) u Hr) as [[_ (a & Ea & Ha)] _]; [assumption|apply (room_of r (uval m) bits); auto; lia|].
  eapply good_lift; [exact Ea|]. draw v Hv.
  destruct (ubig_into_modulo_spec r (uval m) v Hr) as [[_ (b & Eb & Hb)] _]; [assumption|apply (room_of r (uval m) bits); auto; lia|].
  assert (RM : room_for_mul (uval m) = true) by (apply mul_room_often; [nia|right; nia]).
  pose proof (muls_spec r (uval m) a _ b _ Ha Hb) as MS. rewrite RM in MS. rewrite Forall_forall in MS.
  destruct (MS mod_mul_rr) as (c & Ec & Hc); [cbn; tauto|].
  eapply good_olift; [rewrite Eb; cbn [bind]; rewrite Ec; reflexivity|]. cbn beta iota. do 3 (split; [assumption|]).
  exists r. split; [exact Hr|]. rewrite <- Z.mul_mod in Hc by lia. exact Hc.
Qed.

Theorem bench_modulo_pow_good addr k e : fits e -> 10 ^ e * (10 ^ e / wbits + 1) <= MAX_LEN ->
  never_panics (bench_modulo_pow addr k e) (fun '(m, u, b, c) =>
  has_bits (10 ^ e) m /\ has_bits (10 ^ e) u /\ has_bits (10 ^ e) b /\
  exists r, is_ring r (uval m) /\ element r (uval m) c ((uval u ^ uval b) mod uval m)).
Proof.
  intros F FT. start F. draw m Hm. destruct (twice bits ltac:(lia) ltac:(lia)) as (T1 & T2 & T3).
  destruct (ring_new_ring addr m) as (r & Er & Hr & _); [assumption|lia|]. eapply good_lift; [exact Er|]. draw u Hu.
  destruct (ubig_into_modulo_spec r (uval m) u Hr) as [[_ (a & Ea & Ha)] _]; [assumption|apply (room_of r (uval m) bits); auto; lia|].
  eapply good_lift; [exact Ea|]. draw b Hb.
  assert (RM : room_for_pow (uval m) (uval b) = true).
  { apply pow_room_enough; [nia|right; nia|right]. destruct Hb as (_ & _ & ->). destruct Hm as (_ & _ & Lm). pose proof wbits_ge.
    assert (Z.log2 (uval m) / wbits <= bits / wbits) by (apply Z.div_le_mono; lia). nia. }
  destruct (pow_spec r (uval m) a _ b Ha) as (c & Ec & Hc); [assumption|exact RM|].
  eapply good_olift; [rewrite Ec; reflexivity|]. cbn beta iota. do 3 (split; [assumption|]).
  exists r. split; [exact Hr|]. rewrite Zpow_facts.Zpower_mod in Hc by lia. rewrite Z.mod_mod in Hc by lia. rewrite <- Zpow_facts.Zpower_mod in Hc by lia. exact Hc.
Qed.

(** The sizes in the file. *)
Theorem sizes_fit : 32 <= wbits -> 32 <= ubits ->
  (forall e, 1 <= e <= 6 -> fits e) /\ (forall e, 1 <= e <= 4 -> 10 ^ e * (10 ^ e / wbits + 1) <= MAX_LEN).
Proof.
  intros Hw Hu. assert (M : 60000000 <= MAX_LEN).
  { destruct arch_ok as ([Ew|[Ew|Ew]] & [Eu|[Eu|Eu]] & _); try lia;
      unfold MAX_LEN, NTT_MAX_ORDER, USIZE_MAX; rewrite Ew, Eu; intros C; discriminate C. }
  split; intros e He.
  - split; [lia|]. assert (10 ^ e <= 10 ^ 6) by (apply Z.pow_le_mono_r; lia). change (10 ^ 6) with 1000000 in *. unfold MAX_BIT_LEN. nia.
  - assert (0 < 10 ^ e <= 10 ^ 4) by (split; [apply Z.pow_pos_nonneg; lia|apply Z.pow_le_mono_r; lia]). change (10 ^ 4) with 10000 in *.
    assert (10 ^ e / wbits <= 10000 / 32); [|change (10000 / 32) with 312 in *; nia].
    transitivity (10000 / wbits); [apply Z.div_le_mono; lia|]. apply Z.div_le_compat_l; lia.
Qed.

Lemma short_words : wbits = 16 -> 12 < ubits -> MAX_LEN <= 4096.
Proof.
  intros W U. unfold MAX_LEN, NTT_MAX_ORDER. rewrite W. change (16 =? 16) with true. cbn iota. rewrite (proj2 (Z.ltb_lt 12 ubits)) by lia.
  change (2 ^ 12) with 4096. cbv zeta. pose proof (Z.le_min_r (USIZE_MAX / 16) 4096) as L. set (m := Z.min (USIZE_MAX / 16) 4096) in *.
  clearbody m. pose proof (Z.mod_pos_bound m 2 eq_refl). lia.
Qed.

(** "Note: these don't work on 16-bit machines." *)
Theorem too_big k e cs r : wbits = 16 \/ ubits = 16 -> 5 <= e <= 6 -> runs (bench_add k e) cs r -> exists p, r = Panic p.
Proof.
  intros HA He. assert (P5 : 10 ^ 5 <= 10 ^ e) by (apply Z.pow_le_mono_r; lia). change (10 ^ 5) with 100000 in P5.
  assert (P6 : 10 ^ e <= 10 ^ 6) by (apply Z.pow_le_mono_r; lia). change (10 ^ 6) with 1000000 in P6. revert cs r. apply all_runs.
  unfold bench_add. destruct (Z.lt_ge_cases (10 ^ e) (2 ^ ubits)) as [C|C].
  - assert (U : 16 < ubits) by (apply (Z.pow_lt_mono_r_iff 2); [lia|pose proof ubits_ge; lia|]; change (2 ^ 16) with 65536; lia).
    assert (W : wbits = 16) by lia. pose proof (short_words W ltac:(lia)) as M.
    unfold power_of_ten, usize_chk, checked. rewrite (proj2 (Z.leb_le 0 (10 ^ e))), (proj2 (Z.ltb_lt _ _)) by lia. cbn [andb lift rbind].
    set (bits := 10 ^ e) in *. clearbody bits. unfold obind, random_ubig, usize_chk, checked.
    rewrite (proj2 (Z.leb_le 0 (bits - 1))), (proj2 (Z.ltb_lt _ _)) by lia. cbn [andb bind].
    destruct (literal_spec 1 ltac:(lia)) as (one & -> & Hone & Eone). cbn [bind].
    destruct (ubig_shl_v_yields one (bits - 1) Hone ltac:(lia)) as [_ Y]. rewrite Y.
    + cbn. eauto.
    + rewrite Eone, Z.mul_1_l. unfold MAXV. apply Z.pow_le_mono_r; [lia|]. rewrite W. lia.
  - unfold power_of_ten, usize_chk, checked. rewrite (proj2 (Z.ltb_ge _ _)) by exact C. rewrite Bool.andb_false_r. cbn. eauto.
Qed.

End Bench.
