(** How many steps formatting takes (Model/CostFmt.v): numbers of any length. *)
From Coq Require Import Lia.
From Verif Require Import Model.Base Model.Words Model.FastDivide Model.DivWord Model.Mul Model.Buffer Model.UBig Model.IBig
  Model.Convert Model.MulOps Model.DivOps Model.Gcd Model.Pow Model.Radix Model.Fmt Model.Cost Model.CostDiv Model.CostOps Model.CostFmt Spec.Val Spec.Num.
From Verif Require Import Proofs.Basics Proofs.FastDivideProofs Proofs.BufferProofs Proofs.Bounds Proofs.GcdProofs Proofs.CostProofs Proofs.CostBounds Proofs.CostTheorems Proofs.CostRates Proofs.CostOpsProofs
  Proofs.CostOpsBounds Proofs.CostDivOps Proofs.MulOpsProofs Proofs.DivOpsProofs Proofs.PowProofs Proofs.RadixProofs Proofs.DigitWriterProofs
  Proofs.FmtProofs Proofs.CostFmtProofs Proofs.CostFmtBounds.

Section Steps.
Context {A : Arch} {AOK : ArchOk A} (be : bool).

Lemma ulen_le x n : ubig_ok x -> uval x < B ^ n -> 1 <= n -> 1 <= ulen x <= n.
Proof.
  intros O V N. pose proof B_ge. pose proof (uval_nonneg x O) as V0. destruct (Z.eq_dec (uval x) 0) as [E|E].
  - destruct x as [w|b]; cbn [ulen]; [lia|]. pose proof (Large_ge _ O). cbn [uval] in *. lia.
  - destruct (ulen_facts x O ltac:(lia)) as [L1 L2]. split; [lia|]. apply Z.nlt_ge. intros C.
    assert (B ^ n <= B ^ (ulen x - 1)) by (apply Z.pow_le_mono_r; lia). lia.
Qed.

Lemma as_words_ulen x : Z.of_nat (length (as_words x)) <= ulen x.
Proof. destruct x as [y|b]; [cbn; destruct (y =? 0); cbn; lia|]. cbn [as_words ulen]. unfold blen, len. lia. Qed.

Context (radix : Z) (ri : RadixInfo) (Hr : 2 <= radix <= 36) (Eri : radix_info radix = Ok ri) (NI : np_info radix ri).
Notation range := (range_per_word ri).
Notation p2 i := (2 ^ Z.of_nat i).

Lemma p2_pos i : 1 <= p2 i. Proof. pose proof (Z.pow_pos_nonneg 2 (Z.of_nat i)). lia. Qed.
Lemma p2_S i : p2 (S i) = 2 * p2 i. Proof. rewrite Nat2Z.inj_succ, Z.pow_succ_r; lia. Qed.

Lemma range_words e : 0 <= e -> B ^ (8 * e) <= range ^ (16 * e).
Proof.
  intros E. pose proof (range_sqrt radix ri Hr Eri NI). pose proof B_ge. replace (16 * e) with (2 * (8 * e)) by ring.
  rewrite (Z.pow_mul_r range 2) by lia. apply Z.pow_le_mono_l. rewrite Z.pow_2_r. lia.
Qed.

Lemma power_len p i : ubig_ok p -> uval p = cpow ri i -> 8 * p2 i + 1 <= ulen p <= 16 * p2 i.
Proof.
  intros O V. pose proof (p2_pos i) as P. pose proof B_ge. destruct (dpw_facts radix ri Hr Eri NI) as (D1 & D2 & D3 & D4).
  pose proof (cpow_pos radix ri Hr Eri NI i) as CP. destruct (ulen_facts p O ltac:(lia)) as [L1 L2]. split.
  - apply Z.nlt_ge. intros C. assert (B ^ ulen p <= B ^ (8 * p2 i)) by (apply Z.pow_le_mono_r; lia). pose proof (range_words (p2 i) ltac:(lia)).
    unfold cpow in V. lia.
  - apply ulen_le; [exact O| |lia]. rewrite V. unfold cpow. apply Z.pow_lt_mono_l; lia.
Qed.

Lemma below_power_len x i : ubig_ok x -> uval x < cpow ri i -> 1 <= ulen x <= 16 * p2 i.
Proof.
  intros O V. pose proof (p2_pos i) as P. destruct (dpw_facts radix ri Hr Eri NI) as (D1 & D2 & D3 & D4). apply ulen_le; [exact O| |lia].
  eapply Z.lt_trans; [exact V|]. unfold cpow. apply Z.pow_lt_mono_l; lia.
Qed.

Lemma powers_costs H number : ubig_ok number -> 1 <= uval number -> rate (Z.to_nat (2 * ulen number)) H ->
  forall fuel prev ps, powers_ok ri (ps ++ [prev]) -> uval prev <= uval number ->
  costs (c_npl_powers_loop fuel number prev (ps ++ [prev])) ((3 * H + 60) * (2 * ulen number - 16 * p2 (length ps))) (fun _ => True).
Proof.
  intros On Pn R. assert (H1 : 1 <= H) by (destruct R as [R _]; lia). destruct (ulen_facts number On Pn) as (Ln & Lv). pose proof B_ge as HB.
  set (N := ulen number) in *. set (K := 3 * H + 60). assert (K1 : 63 <= K) by lia.
  assert (LE : forall p i, ubig_ok p -> uval p = cpow ri i -> uval p <= uval number -> 8 * p2 i < N).
  { intros p i Op Vp Hle. pose proof (p2_pos i). apply Z.nle_gt. intros C. pose proof (range_words (p2 i) ltac:(lia)).
    assert (B ^ N <= B ^ (8 * p2 i)) by (apply Z.pow_le_mono_r; lia). unfold cpow in Vp. lia. }
  induction fuel as [|fuel IH]; intros prev ps Hp Hle; cbn [c_npl_powers_loop]; [apply costs_panic|].
  destruct (Hp (length ps) prev) as [Op Vp].
  { rewrite nth_error_app2, Nat.sub_diag by lia. reflexivity. }
  pose proof (LE prev _ Op Vp Hle) as LN. pose proof (power_len prev _ Op Vp) as LP. pose proof (p2_pos (length ps)) as P1. set (x := p2 (length ps)) in *.
  apply costs_bind_free. intros d E1. apply costs_bind_free. intros d2 E2.
  assert (ED : d2 = 2 * ulen prev - 1).
  { unfold usize_chk, checked in E1, E2. destruct (_ && _) in E1; [|discriminate]. injection E1 as <-. destruct (_ && _) in E2; [|discriminate]. injection E2 as <-. reflexivity. }
  clear E1 E2. fold N. destruct (Z.ltb_spec N d2) as [C|C]; [apply costs_ok; [nia|exact I]|].
  eapply costs_bind; [apply costs_and with (Q := fun new => ubig_ok new /\ uval new = uval prev * uval prev)|].
  - apply (mul_ops_costs H prev prev (16 * x) (16 * x)); [lia|lia|]. eapply rate_le; [exact R|]. lia.
  - intros new E. rewrite mul_rr_erase in E. pose proof (ubig_mul_rr_yields prev prev Op Op) as [Y1 Y2].
    destruct (Z.lt_ge_cases (uval prev * uval prev) MAXV) as [C2|C2]; [|rewrite (Y2 C2) in E; discriminate].
    destruct (Y1 C2) as (z & EZ & OZ & VZ). rewrite EZ in E. injection E as <-. auto.
  - intros new (LW & On' & Vn). unfold lens_below in LW. cbv beta.
    assert (VN : uval new = cpow ri (length (ps ++ [prev]))) by (rewrite Vn, app_length; cbn [length]; rewrite Nat.add_1_r, cpow_S by assumption; rewrite Vp; reflexivity).
    pose proof (mul_bound_same H (16 * x) ltac:(lia) ltac:(lia)) as MB. unfold c_ubig_lt. apply costs_bind_call. intros gt G.
    assert (LM : Z.of_nat (Nat.min (length (as_words number)) (length (as_words new))) <= 32 * x).
    { pose proof (as_words_ulen new). lia. }
    destruct gt; [apply costs_ok; [nia|exact I]|].
    rewrite ubig_lt_spec in G by auto. injection G as G. apply Z.ltb_ge in G.
    eapply costs_weaken; [apply (IH new (ps ++ [prev])); [apply powers_ok_snoc; auto|exact G]| |auto].
    rewrite app_length. cbn [length]. rewrite Nat.add_1_r, p2_S. fold x.
    assert ((3 * H + 26) * (16 * x) + 32 * x + 1 <= K * (16 * x)) by nia. nia.
Qed.

Lemma split_costs d W : 0 <= W -> divides d W -> forall ps x chunks, powers_ok ri (rev ps) -> ubig_ok x -> 1 <= uval x < cpow ri (length ps) ->
  16 * p2 (length ps) <= 2 * d ->
  costs (c_npl_split ps x chunks) ((W + 21) * 33 * p2 (length ps)) (fun _ => True).
Proof.
  intros W0 D. induction ps as [|p ps IH]; intros x chunks Hp Ox Vx Ld; cbn [c_npl_split].
  - apply costs_ok; [cbn; lia|exact I].
  - cbn [rev length] in *. destruct (Hp (length ps) p) as [Op Vp].
    { rewrite nth_error_app2 by (rewrite rev_length; lia). rewrite rev_length, Nat.sub_diag. reflexivity. }
    assert (Hp' : powers_ok ri (rev ps)).
    { intros i q E. apply Hp. rewrite nth_error_app1; auto. apply nth_error_Some. congruence. }
    pose proof (below_power_len x _ Ox (proj2 Vx)) as LX. rewrite p2_S in *. pose proof (p2_pos (length ps)) as P1.
    pose proof (power_len p _ Op Vp) as LP. pose proof (cpow_pos radix ri Hr Eri NI (length ps)) as CP.
    rewrite (cpow_S ri) in Vx. set (y := p2 (length ps)) in *.
    unfold c_ubig_le. apply costs_bind_call. intros ge G. rewrite ubig_le_spec in G by auto. injection G as G.
    assert (LM : Z.of_nat (Nat.min (length (as_words p)) (length (as_words x))) <= 16 * y) by (pose proof (as_words_ulen p); lia).
    destruct ge.
    + apply Z.leb_le in G. eapply costs_bind; [apply costs_and with (Q := fun qr => ubig_ok (fst qr) /\ uval (fst qr) = uval x / uval p); [apply (div_rem_ops_costs d W x p); [exact W0|exact D|lia|lia]|]|].
      * intros [q r] E. rewrite div_rem_vr_erase in E. destruct (ubig_div_rem_vr_yields x p Ox Op) as [_ Y].
        destruct Y as (q' & r' & E' & Oq & _ & Vq & _); [lia|]. rewrite E' in E. injection E as <- <-. auto.
      * intros [q r] (_ & Oq & Vq). cbn [fst] in *. cbv beta iota. rewrite Vp in *.
        eapply costs_weaken; [apply IH; [exact Hp'|exact Oq| |lia]| |auto].
        { rewrite Vq. split; [apply Z.div_le_lower_bound; lia|apply Z.div_lt_upper_bound; lia]. }
        assert ((W + 20) * (ulen x + 1) <= (W + 20) * (33 * y)) by (apply Z.mul_le_mono_nonneg_l; lia). nia.
    + apply Z.leb_gt in G. rewrite Vp in G. eapply costs_weaken; [apply IH; [exact Hp'|exact Ox|lia|lia]|nia|auto].
Qed.

(** [write_big_chunk] *)
Definition wrote (i : nat) (S : Z) : Prop := forall ps w x, powers_ok ri ps -> (i <= length ps)%nat -> ubig_ok x -> uval x < cpow ri i ->
  writes (c_npl_write_big_chunk be ps radix w i x) w (S * (2 * p2 i)).

Lemma wrote_step i S W : 0 <= S -> 0 <= W -> divides (16 * p2 i) W -> wrote i S -> wrote (Datatypes.S i) (S + 9 * (W + 20)).
Proof.
  intros S0 W0 D IH ps w x Hp Hi Hx Hv. cbn [c_npl_write_big_chunk]. apply writes_bind_free. intros p E. unfold get in E.
  destruct (nth_error ps i) as [p'|] eqn:EN; [|discriminate]. injection E as ->. destruct (Hp i p EN) as [Op Vp].
  pose proof (below_power_len x _ Hx Hv) as LX. rewrite p2_S in *. pose proof (p2_pos i) as P1. pose proof (power_len p _ Op Vp) as LP.
  pose proof (cpow_pos radix ri Hr Eri NI i) as CP. pose proof (uval_nonneg x Hx) as NN. rewrite (cpow_S ri) in Hv. set (y := p2 i) in *.
  eapply writes_bind.
  - apply costs_and with (Q := fun qr => ubig_ok (fst qr) /\ uval (fst qr) = uval x / uval p /\ ubig_ok (snd qr) /\ uval (snd qr) = uval x mod uval p); [apply (div_rem_ops_costs (16 * y) W x p); [exact W0|exact D|lia|lia]|].
    intros [q r] E. rewrite div_rem_vr_erase in E. destruct (ubig_div_rem_vr_yields x p Hx Op) as [_ Y].
    destruct Y as (q' & r' & E' & Oq & Or & Vq & Vr); [lia|]. rewrite E' in E. injection E as <- <-. auto.
  - intros [q r] (_ & Oq & Vq & Or & Vr). cbn [fst snd] in *. cbv beta iota. rewrite Vp in *.
    eapply writes_seq; [apply (IH ps w q Hp); [lia|exact Oq|rewrite Vq; apply Z.div_lt_upper_bound; lia]|]. intros w' _.
    eapply writes_le; [apply (IH ps w' r Hp); [lia|exact Or|rewrite Vr; apply Z.mod_pos_bound; lia]|]. fold y.
    assert ((W + 20) * (ulen x + 1) <= (W + 20) * (36 * y)) by (apply Z.mul_le_mono_nonneg_l; lia). nia.
Qed.

Lemma wrote_le i S S' : S <= S' -> wrote i S -> wrote i S'.
Proof. intros L C ps w x Hp Hi Hx Hv. pose proof (p2_pos i). eapply writes_le; [apply (C ps w x); assumption|nia]. Qed.

Lemma wrote_levels k : exists S, below S 45200 (16 * p2 k) /\ forall j, (j <= k)%nat -> wrote j S.
Proof.
  induction k as [|k (S & SB & C)].
  - exists 4529. split; [apply (below_const 4529 45200 _ 1); [lia|lia|cbn; lia|consts]|]. intros j J. assert (j = O) as -> by lia.
    intros ps w x _ _ _ _. cbn [c_npl_write_big_chunk]. eapply writes_le; [apply write_chunk_writes|cbn; lia].
  - pose proof (p2_pos k) as P. assert (D1 : 1 <= 16 * p2 k) by lia. destruct (divides_below _ D1) as (W & W9 & WB & D).
    exists (S + 9 * (W + 20)). assert (S0 : 0 <= S) by apply SB. split.
    2: { clear WB SB. intros j J. destruct (Nat.eq_dec j (Datatypes.S k)) as [->|J2].
         - apply wrote_step; [exact S0|lia|exact D|apply C; lia].
         - apply (wrote_le _ S); [lia|]. apply C. lia. }
    rewrite p2_S. replace (16 * (2 * p2 k)) with (2 * (16 * p2 k)) by ring.
    clear D C. assert (D16 : 16 <= 16 * p2 k) by (clear SB WB; lia). set (d := 16 * p2 k) in *. clearbody d.
    assert (V : below (9 * (W + 20)) (9 * (1925 + 6)) d).
    { apply below_scale; [lia|]. apply below_add; [lia|lia|clear SB WB; lia|exact WB|apply (below_const 20 6 d 16); [lia|lia|clear SB WB; lia|consts]]. }
    eapply below_mono; [| |apply (below_add _ _ 32633 12548 (2 * d)); [lia|lia|clear SB WB V; lia| |]]; [lia|clear SB WB V; lia| |].
    + apply (below_double _ 45200); [clear SB WB V; lia|lia|consts|exact SB].
    + apply (below_double _ (9 * (1925 + 6))); [clear SB WB V; lia|lia|consts|exact V].
Qed.

Lemma write_loop_writes S m ps cs : 0 <= S -> powers_ok ri ps -> (forall j, (j <= m)%nat -> wrote j S) -> (m <= length ps)%nat -> Forall (chunk_ok ri m) cs ->
  forall w, writes (c_npl_write_loop be ps radix cs w) w (S * (2 * csize cs)).
Proof.
  intros S0 Hp C M. induction 1 as [|[i x] t (H1 & H2 & H3) Ht IH]; intros w; cbn [c_npl_write_loop csize]; [apply writes_ok; lia|].
  cbn [fst snd] in *. eapply writes_seq; [apply (C i H1 ps w x); [exact Hp|lia|exact H2|exact H3]|]. intros w' _. eapply writes_le; [apply IH|]. lia.
Qed.

Lemma csize_length cs : Z.of_nat (length cs) <= csize cs.
Proof. induction cs as [|[i x] t IH]; cbn [csize length]; [lia|]. pose proof (p2_pos i). lia. Qed.

Lemma chunk_ok_le m m' cs : (m <= m')%nat -> Forall (chunk_ok ri m) cs -> Forall (chunk_ok ri m') cs.
Proof. intros L. apply Forall_impl. intros c (H1 & H2 & H3). split; [lia|auto]. Qed.

Lemma cval_nonneg m cs : Forall (chunk_ok ri m) cs -> 0 <= cval radix ri cs.
Proof.
  induction 1 as [|[i x] t (_ & O & _) Ht IH]; cbn [cval]; [lia|]. cbn [snd] in O. pose proof (uval_nonneg x O).
  assert (0 <= radix ^ (CD ri * csize t)) by (apply Z.pow_nonneg; lia). nia.
Qed.

Definition large_writes (S N : Z) (p : NpLarge) : Prop := 8 * Z.of_nat (length (npl_chunks p)) <= N /\
  exists X, 0 <= X /\ 4 * X <= S * N /\ forall w, writes (c_npl_write be p w) w (8609 + X).

Lemma npl_new_costs H W S x : ubig_ok x -> 9 <= ulen x -> rate (Z.to_nat (2 * ulen x)) H -> 0 <= W -> divides (2 * ulen x) W ->
  0 <= S -> (forall j, 8 * p2 j < ulen x -> wrote j S) ->
  costs (c_npl_new x radix) ((30 * H + 328 + 7 * (W + 21)) * ulen x + 1040) (large_writes S (ulen x)).
Proof.
  intros Ox N9 R W0 D S0 C. assert (H1 : 1 <= H) by (destruct R as [R _]; lia). pose proof B_ge as HB.
  assert (Hv : 1 <= uval x) by (destruct x as [y|b]; [cbn [ulen] in N9; lia|pose proof (Large_ge _ Ox); cbn [uval] in *; lia]).
  destruct (ulen_facts x Ox Hv) as (Ln & Lv). set (N := ulen x) in *. destruct (dpw_facts radix ri Hr Eri NI) as (D1 & D2 & D3 & D4).
  unfold c_npl_new. apply costs_bind_free. intros u0 _. apply costs_bind_free. intros ri' E. rewrite Eri in E. injection E as <-.
  assert (Or : ubig_ok (from_word range)) by (cbn [ubig_ok from_word]; lia).
  assert (U16 : 0 <= Z.of_nat CHUNK_LEN < 2 ^ ubits).
  { split; [lia|]. apply Z.lt_le_trans with (2 ^ 16); [reflexivity|].
    apply Z.pow_le_mono_r; [lia|]. destruct ubits_cases as [-> | [-> | ->]]; lia. }
  destruct (yields_returns _ _ (ubig_pow_spec (from_word range) (Z.of_nat CHUNK_LEN) Or U16))
    as (cp & Ecp & Oc & Vc).
  { cbn [uval from_word]. unfold CHUNK_LEN. eapply Z.lt_le_trans; [|apply (Bn_MAXV_le 16); pose proof MAX_LEN_ge; lia].
    unfold Bn. apply Z.pow_lt_mono_l; lia. }
  cbn [uval from_word] in Vc. change (Z.of_nat CHUNK_LEN) with 16 in Vc.
  assert (Vc0 : uval cp = cpow ri 0) by (rewrite Vc; symmetry; apply cpow_0).
  eapply costs_bind; [apply costs_and with (Q := fun c => c = cp); [apply (pow_costs H 1 (from_word range) (Z.of_nat CHUNK_LEN)); [cbn [ulen from_word]; lia|unfold CHUNK_LEN; lia|eapply rate_le; [exact R|unfold CHUNK_LEN; lia]]|]|].
  { intros c E. rewrite pow_erase, Ecp in E. congruence. }
  intros c [LC ->]. unfold lens_below in LC. cbv beta. change (1 * Z.of_nat CHUNK_LEN) with 16 in LC. change (4 * 1 * Z.of_nat CHUNK_LEN) with 64.
  unfold c_ubig_lt. apply costs_bind_call. intros gt G. rewrite ubig_lt_spec in G by auto. injection G as G.
  assert (LM : Z.of_nat (Nat.min (length (as_words x)) (length (as_words cp))) <= 16) by (pose proof (as_words_ulen cp); lia).
  assert (K8 : 64 * (3 * H + 26) <= 8 * N * (3 * H + 26)) by (apply Z.mul_le_mono_nonneg_r; lia).
  destruct gt.
  - eapply costs_bind; [apply npm_new_costs|]. intros t T. apply costs_ok; [nia|]. split; [cbn; lia|]. exists 0. split; [lia|]. split; [nia|].
    intros w. unfold c_npl_write. cbn [npl_top npl_powers npl_radix npl_chunks rev c_npl_write_loop]. eapply writes_seq; [apply (npm_write_writes be t w T)|].
    intros w' _. apply writes_ok. lia.
  - apply Z.ltb_ge in G. assert (PO : powers_ok ri ([] ++ [cp])).
    { apply powers_ok_snoc; auto. intros [|i] q E; discriminate. }
    destruct (npl_powers_loop_spec radix ri Hr Eri NI x Ox Hv (Datatypes.S (length (as_words x))) cp [] PO G) as (ps & p & Ep & PO' & Lp); [cbn [length]; lia|].
    cbn [app] in Ep. eapply costs_bind; [apply costs_and with (Q := fun r => r = ps ++ [p]); [apply (powers_costs H x Ox Hv R _ cp [] PO G)|]|].
    { intros r E. rewrite npl_powers_erase in E. congruence. }
    intros r [_ ->]. cbv beta. cbn [length]. change (2 ^ Z.of_nat 0) with 1. fold N. rewrite rev_app_distr. cbn [rev app].
    destruct (PO' (length ps) p) as [Op Vp].
    { rewrite nth_error_app2, Nat.sub_diag by lia. reflexivity. }
    pose proof (cpow_pos radix ri Hr Eri NI (length ps)) as PP.
    pose proof (power_len p _ Op Vp) as LP. pose proof (p2_pos (length ps)) as P1.
    assert (LN : 8 * p2 (length ps) < N).
    { apply Z.nle_gt. intros Q. pose proof (range_words (p2 (length ps)) ltac:(lia)).
      assert (B ^ N <= B ^ (8 * p2 (length ps))) by (apply Z.pow_le_mono_r; lia). unfold cpow in Vp. lia. }
    destruct (ubig_div_rem_rr_yields x p Ox Op) as [_ Y]. rewrite Vp in Y. destruct Y as (q & r & Ed & Hq & Hr' & Vq & Vr); [lia|].
    eapply costs_bind; [apply costs_and with (Q := fun qr => qr = (q, r)); [apply (div_rem_ops_costs (2 * N) W x p); [exact W0|exact D|left; lia|fold N; lia]|]|].
    { intros qr E. rewrite div_rem_rr_erase in E. congruence. }
    intros qr [_ ->]. cbv beta iota. fold N. rewrite Vp in Lp.
    assert (PR : powers_ok ri (rev (rev ps))).
    { rewrite rev_involutive. intros i u E. apply PO'. rewrite nth_error_app1; auto. apply nth_error_Some. congruence. }
    assert (Vq' : 1 <= uval q < cpow ri (length (rev ps))).
    { rewrite rev_length, Vq. split; [apply Z.div_le_lower_bound; lia|apply Z.div_lt_upper_bound; lia]. }
    destruct (npl_split_spec radix ri Hr Eri NI (length ps) (rev ps) q [(length (rev ps), r)]) as (x' & new & Es & Ox' & Vx' & Fn & En); auto.
    { rewrite rev_length. lia. }
    eapply costs_bind; [apply costs_and with (Q := fun s => s = (x', [(length (rev ps), r)] ++ new)); [apply (split_costs (2 * N) W W0 D (rev ps) q _ PR Hq Vq'); rewrite rev_length; lia|]|].
    { intros s E. rewrite npl_split_erase in E. congruence. }
    intros s [_ ->]. cbv beta iota. rewrite rev_length. eapply costs_bind; [apply npm_new_costs|]. intros t T.
    apply costs_ok.
    { assert ((W + 21) * 33 * p2 (length ps) <= (W + 21) * (5 * N)) by (rewrite <- Z.mul_assoc; apply Z.mul_le_mono_nonneg_l; lia).
      assert ((W + 20) * (N + 1) <= (W + 21) * (2 * N)) by (apply Z.mul_le_mono_nonneg; lia).
      assert ((3 * H + 60) * (2 * N - 16 * 1) <= (3 * H + 60) * (2 * N)) by (apply Z.mul_le_mono_nonneg_l; lia).
      lia. }
    set (chunks := (length ps, r) :: new). change ([(length ps, r)] ++ new) with chunks.
    assert (CS : 8 * csize chunks < N).
    { unfold chunks. cbn [csize]. pose proof (csize_nonneg new) as CN. set (e := p2 (length ps) + csize new). apply Z.nle_gt. intros Q.
      pose proof (range_words e ltac:(lia)) as RW. assert (B ^ N <= B ^ (8 * e)) by (apply Z.pow_le_mono_r; lia).
      assert (range ^ (16 * e) <= uval x); [|lia]. unfold e. rewrite Z.mul_add_distr_l, Z.pow_add_r by lia. fold (cpow ri (length ps)).
      rewrite <- (CD_pow radix ri Hr Eri NI (csize new) CN).
      assert (CV : 0 <= cval radix ri (rev new)).
      { apply (cval_nonneg (length ps)). apply Forall_rev. exact Fn. }
      pose proof (Z.div_mod (uval x) (cpow ri (length ps)) ltac:(lia)) as DM. rewrite <- Vq, <- Vr in DM. pose proof (uval_nonneg r Hr').
      assert (Y0 : 0 <= radix ^ (CD ri * csize new)) by (apply Z.pow_nonneg; lia). set (y := radix ^ (CD ri * csize new)) in *.
      assert (y <= uval q) by (rewrite En; clear - CV Vx' Y0; nia). assert (cpow ri (length ps) * y <= cpow ri (length ps) * uval q) by (apply Z.mul_le_mono_nonneg_l; lia). lia. }
    split; [cbn [npl_chunks]; pose proof (csize_length chunks); lia|]. exists (S * (2 * csize chunks)).
    pose proof (csize_nonneg chunks). split; [apply Z.mul_nonneg_nonneg; lia|]. split.
    { replace (4 * (S * (2 * csize chunks))) with (S * (8 * csize chunks)) by ring. apply Z.mul_le_mono_nonneg_l; lia. }
    intros w. unfold c_npl_write. cbn [npl_top npl_powers npl_radix npl_chunks]. eapply writes_seq; [apply (npm_write_writes be t w T)|]. intros w' _.
    eapply writes_le; [apply (write_loop_writes S (length ps) (ps ++ [p])); [exact S0|exact PO'| |rewrite app_length; lia|]|].
    + intros j J. apply C. apply Z.le_lt_trans with (8 * p2 (length ps)); [|exact LN]. apply Z.mul_le_mono_nonneg_l; [lia|]. apply Z.pow_le_mono_r; lia.
    + apply Forall_rev. constructor; [|exact Fn]. split; cbn [fst snd]; [lia|]. split; auto. rewrite Vr. apply Z.mod_pos_bound. lia.
    + rewrite csize_rev. lia.
Qed.

End Steps.

Section Total.
Context {A : Arch} {AOK : ArchOk A} (be : bool).
Notation p2 i := (2 ^ Z.of_nat i).

Lemma below_quarter x k b : 0 <= x -> below (4 * x) (4 * k) b -> below x k b.
Proof.
  intros X [_ E]. split; [exact X|]. rewrite (Z.pow_mul_l 4 x), (Z.pow_mul_l 4 k), <- Z.mul_assoc in E.
  apply Z.mul_le_mono_pos_l in E; [exact E|]. apply Z.pow_pos_nonneg; lia.
Qed.

Lemma fmt_power_two_costs self f : ubig_ok (irf_magnitude self) ->
  costs (c_fmt_power_two be self f) (574 * ulen (irf_magnitude self) + extra self f) (fun _ => True).
Proof.
  intros O. unfold c_fmt_power_two. apply costs_bind_free. intros u0 _. destruct (irf_magnitude self) as [w|b]; cbn [ulen]; apply costs_bind_free; intros p E.
  - eapply costs_weaken; [apply (format_prepared_costs be self f (free (Ok (p2w_width p))) (c_p2w_write be p) 514 0)|lia|auto]; [lia|lia| |].
    + apply costs_ok; [lia|exact I].
    + intros v. apply p2w_write_writes.
  - destruct O as (F & L2 & _). assert (2 <= blen b) by (unfold blen, len; lia).
    eapply costs_weaken; [apply (format_prepared_costs be self f (free (Ok (p2l_width p))) (c_p2l_write be p) (448 * blen b + 14) 0)|lia|auto]; [lia|lia| |].
    + apply costs_ok; [lia|exact I].
    + intros v. apply (p2l_write_writes be _ _ _ _ F E).
Qed.

Lemma fmt_non_power_two_costs self f : ubig_ok (irf_magnitude self) -> exists T, below T 39700 (ulen (irf_magnitude self)) /\
  costs (c_fmt_non_power_two be self f) (T * ulen (irf_magnitude self) + extra self f) (fun _ => True).
Proof.
  intros O. set (N := ulen (irf_magnitude self)).
  assert (N1 : 1 <= N) by (subst N; destruct (irf_magnitude self) as [w|b]; cbn [ulen]; [lia|]; destruct O as (_ & L2 & _); unfold blen, len; lia).
  destruct (is_radix_valid (irf_radix self) && negb (is_pow2 (irf_radix self))) eqn:V.
  2: { exists 0. split; [apply (below_const 0 39700 _ 1); [lia|lia|lia|consts]|]. unfold c_fmt_non_power_two. rewrite V. intros x E. discriminate. }
  pose proof V as V0. apply andb_prop in V. destruct V as [V1 V2]. apply is_radix_valid_iff in V1. apply negb_true_iff in V2.
  destruct (radix_info_np (irf_radix self) V1 V2) as (ri & RE & NI). set (radix := irf_radix self) in *.
  destruct (Z.leb_spec N 8) as [N8|N8].
  - exists 9800. split; [apply (below_const 9800 39700 _ 1); [lia|lia|lia|consts]|].
    unfold c_fmt_non_power_two. apply costs_bind_free. intros u0 _. destruct (irf_magnitude self) as [w|b] eqn:EM.
    + eapply costs_bind; [apply npw_new_costs|]. intros p P.
      eapply costs_weaken; [apply (format_prepared_costs be self f (free (npw_width p)) (c_npw_write be p) 385 0)|lia|auto]; [lia|lia| |].
      * eapply costs_weaken; [apply costs_free|lia|auto].
      * intros v. apply (npw_write_writes be p v P).
    + apply costs_bind_free. intros ri' E. fold radix in E. rewrite RE in E. injection E as <-. apply costs_bind_free. intros d Ed. apply costs_bind_free. intros md Em.
      apply costs_bind_free. intros lim El.
      assert (EQ : md = blen b * (digits_per_word ri + 1) /\ lim = 16 * digits_per_word ri).
      { unfold usize_chk, checked in Ed, Em, El. destruct (_ && _) in Ed; [|discriminate]. injection Ed as <-. destruct (_ && _) in Em; [|discriminate]. injection Em as <-.
        destruct (_ && _) in El; [|discriminate]. injection El as <-. split; reflexivity. }
      destruct EQ as [-> ->]. destruct NI as (_ & D & _). subst N. cbn [ulen] in *.
      destruct (Z.leb_spec (blen b * (digits_per_word ri + 1)) (16 * digits_per_word ri)) as [_|C]; [|nia].
      eapply costs_bind; [apply npm_new_costs|]. intros p P.
      eapply costs_weaken; [apply (format_prepared_costs be self f (free (npm_width p)) (c_npm_write be p) 8609 0)|lia|auto]; [lia|lia| |].
      * eapply costs_weaken; [apply costs_free|lia|auto].
      * intros v. apply (npm_write_writes be p v P).
  - set (m := Z.to_nat (Z.log2 ((N - 1) / 8))).
    assert (Q1 : 1 <= (N - 1) / 8) by (apply Z.div_le_lower_bound; lia).
    pose proof (Z.log2_nonneg ((N - 1) / 8)) as Q0. pose proof (Z.log2_spec ((N - 1) / 8) ltac:(lia)) as [Q2 Q3].
    pose proof (Z.mul_div_le (N - 1) 8 ltac:(lia)) as Q4.
    destruct (wrote_levels be radix ri V1 RE NI m) as (S & SB & C). unfold m in SB. rewrite Z2Nat.id in SB by exact Q0.
    assert (SN : below S 62612 N).
    { apply (below_half _ 45200); [clear SB; lia|lia|consts|]. eapply below_mono; [| |exact SB]; [lia|]. clear SB. lia. }
    assert (S0 : 0 <= S) by apply SB. clear SB.
    assert (D1 : 1 <= 2 * N) by (clear SN; lia). destruct (divides_below _ D1) as (W & W9 & WB & D).
    assert (R1 : (1 <= Z.to_nat (2 * N))%nat) by (clear SN WB; lia). destruct (rate_below _ R1) as (H & R & HB). rewrite Z2Nat.id in HB by (clear SN WB; lia).
    assert (H1 : 1 <= H) by (destruct R as [R _]; clear HB SN WB; lia).
    exists ((30 * H + 7 * W) + (S / 4 + 1 + 1580)). split.
    { apply (below_add _ _ (30 * 158 + 7 * 2668) (15654 + 630)); [lia|lia|clear SN WB HB; lia| |].
      - apply below_add; [lia|lia|clear SN WB HB; lia| |]; (apply below_scale; [lia|]).
        + apply (below_half _ 114); [clear SN WB HB; lia|lia|consts|exact HB].
        + apply (below_half _ 1925); [clear SN WB HB; lia|lia|consts|exact WB].
      - apply below_add; [lia|lia|clear SN WB HB; lia| |apply (below_const 1580 630 N 9); [lia|lia|clear SN WB HB; lia|consts]].
        apply below_quarter; [clear SN WB HB; lia|]. apply (below_le _ (S + 4)); [clear SN WB HB; lia|]. change (4 * 15654) with (62612 + 4).
        apply below_add; [lia|lia|clear SN WB HB; lia|exact SN|apply (below_const 4 4 N 1); [lia|lia|clear SN WB HB; lia|consts]]. }
    clear SN WB HB. assert (CW : forall j, 8 * p2 j < N -> wrote be radix ri j S).
    { intros j J. apply C. apply Nat2Z.inj_le. unfold m. rewrite Z2Nat.id by exact Q0. apply Z.log2_le_pow2; [lia|]. apply Z.div_le_lower_bound; lia. }
    unfold c_fmt_non_power_two. apply costs_bind_free. intros u0 _. destruct (irf_magnitude self) as [w|b] eqn:EM; [subst N; cbn [ulen] in N8; lia|].
    apply costs_bind_free. intros ri' E. apply costs_bind_free. intros d Ed. apply costs_bind_free. intros md Em. apply costs_bind_free. intros lim El.
    assert (SQ : S <= 4 * (S / 4 + 1)) by lia. set (q := S / 4 + 1) in *. clearbody q.
    match goal with |- costs (if ?c then _ else _) _ _ => destruct c end.
    + eapply costs_bind; [apply npm_new_costs|]. intros p P.
      eapply costs_weaken; [apply (format_prepared_costs be self f (free (npm_width p)) (c_npm_write be p) 8609 0)| |auto]; [lia|lia| | |].
      * eapply costs_weaken; [apply costs_free|lia|auto].
      * intros v. apply (npm_write_writes be p v P).
      * assert (1580 * N <= (30 * H + 7 * W + (q + 1580)) * N) by (apply Z.mul_le_mono_nonneg_r; lia). lia.
    + eapply costs_bind; [apply (npl_new_costs be radix ri V1 RE NI H W S (Large b)); [exact O|fold N; lia|exact R|lia|exact D|exact S0|exact CW]|].
      intros p (P1 & X & X0 & X4 & P2). fold N in P1, X4 |- *.
      eapply costs_weaken; [apply (format_prepared_costs be self f (c_npl_width p) (c_npl_write be p) (8609 + X) N)| |auto]; [lia|lia| |exact P2|].
      * eapply costs_weaken; [apply costs_call|lia|auto].
      * assert (X <= q * N). { assert (S * N <= 4 * q * N) by (apply Z.mul_le_mono_nonneg_r; lia). lia. }
        lia.
Qed.

Theorem fmt_full_steps self f n s : ubig_ok (irf_magnitude self) -> c_fmt_full be self f = (n, Ok s) ->
  fmt_full be self f = Ok s /\ 0 <= n /\
  exists m, n <= m + extra self f /\ m ^ 100 <= (39700 * ulen (irf_magnitude self)) ^ 100 * ulen (irf_magnitude self) ^ 47.
Proof.
  intros O E. split. { rewrite <- fmt_full_erase, E. reflexivity. } split. { pose proof (fmt_full_nn be self f) as X. now rewrite E in X. }
  assert (X : exists T, below T 39700 (ulen (irf_magnitude self)) /\ costs (c_fmt_full be self f) (T * ulen (irf_magnitude self) + extra self f) (fun _ => True)).
  { unfold c_fmt_full. destruct (is_pow2 (irf_radix self)); [|now apply fmt_non_power_two_costs].
    exists 574. split; [|now apply fmt_power_two_costs]. apply (below_const 574 39700 _ 1); [lia|lia| |consts].
    destruct (irf_magnitude self) as [w|b]; cbn [ulen]; [lia|]; destruct O as (_ & L2 & _); unfold blen, len; lia. }
  destruct X as (T & TB & C). exists (T * ulen (irf_magnitude self)). rewrite E in C. split; [apply (C s); reflexivity|].
  destruct TB as [T0 TB]. set (N := ulen _) in *. rewrite (Z.pow_mul_l T N), (Z.pow_mul_l 39700 N).
  replace (39700 ^ 100 * N ^ 100 * N ^ 47) with (39700 ^ 100 * N ^ 47 * N ^ 100) by ring.
  apply Z.mul_le_mono_nonneg_r; [|exact TB]. apply Z.pow_nonneg. subst N. clear. destruct (irf_magnitude self) as [w|b]; cbn [ulen]; [lia|]. unfold blen, len. lia.
Qed.

Theorem fmt_power_two_steps self f n s : ubig_ok (irf_magnitude self) -> is_pow2 (irf_radix self) = true -> c_fmt_full be self f = (n, Ok s) ->
  fmt_full be self f = Ok s /\ 0 <= n <= 574 * ulen (irf_magnitude self) + extra self f.
Proof.
  intros O P E. split. { rewrite <- fmt_full_erase, E. reflexivity. } split. { pose proof (fmt_full_nn be self f) as X. now rewrite E in X. }
  pose proof (fmt_power_two_costs self f O) as C. unfold c_fmt_full in E. rewrite P in E. rewrite E in C. apply (C s). reflexivity.
Qed.

End Total.
