(** Formatting: the complete output. *)
From Verif Require Import Model.Base Model.Words Model.Memory Model.FastDivide Model.DivWord Model.Buffer Model.UBig Model.IBig
  Model.Convert Model.MulOps Model.DivOps Model.Gcd Model.Pow Model.Radix Model.Fmt
  Spec.Val Spec.Num Spec.Digits Spec.FmtText
  Proofs.Basics Proofs.FastDivideProofs Proofs.DivWordProofs Proofs.BufferProofs Proofs.DigitsProofs Proofs.ConvertProofs
  Proofs.MulOpsProofs Proofs.ShiftOpsProofs Proofs.DivOpsProofs Proofs.BitCountProofs Proofs.Bounds Proofs.GcdProofs Proofs.PowProofs
  Proofs.RadixProofs Proofs.ParseProofs Proofs.DigitWriterProofs Proofs.FmtProofs.
From Coq Require Import Lia.

Section FmtApi.
Context {A : Arch} {AOK : ArchOk A} (be : bool).

(** The number of digits leaves room for a sign and a prefix. *)
Lemma digits_count radix v ds : 2 <= radix -> reads radix v ds -> hd 0 ds <> 0 -> v < MAXV ->
  Z.of_nat (length ds) <= wbits * MAX_LEN.
Proof.
  intros Hr R H V. pose proof (reads_lead radix v ds ltac:(lia) R H) as P. apply Z.nlt_ge. intros C.
  assert (M : 0 <= wbits * MAX_LEN) by (pose proof MAX_LEN_ge; pose proof wbits_ge; nia).
  unfold MAXV in V. assert (2 ^ (wbits * MAX_LEN) <= 2 ^ (Z.of_nat (length ds) - 1)) by (apply Z.pow_le_mono_r; lia).
  assert (2 ^ (Z.of_nat (length ds) - 1) <= radix ^ (Z.of_nat (length ds) - 1)) by (apply Z.pow_le_mono_l; lia). lia.
Qed.
Lemma usize_room z : 0 <= z <= wbits * MAX_LEN + 8 -> usize_chk z = Ok z.
Proof.
  intros H. pose proof MAX_slack as M. unfold USIZE_MAX in M. pose proof wbits_ge. unfold usize_chk, checked.
  rewrite (proj2 (Z.leb_le _ _)), (proj2 (Z.ltb_lt _ _)) by lia. reflexivity.
Qed.

Section NonPower.
Context (radix : Z) (ri : RadixInfo) (Hr : 2 <= radix <= 36) (Eri : radix_info radix = Ok ri) (NI : np_info radix ri).
Notation dpw := (digits_per_word ri).
Notation range := (range_per_word ri).

Lemma width_loop_spec l : forall n, 0 <= n -> n + CD ri * csize l <= wbits * MAX_LEN ->
  npl_width_loop l dpw n = Ok (n + CD ri * csize l).
Proof.
  destruct (dpw_facts radix ri Hr Eri NI) as (D1 & _).
  assert (HCD : 16 <= CD ri) by (unfold CD; lia).
  induction l as [|[i x] t IH]; intros n Hn Hb; cbn [npl_width_loop csize] in *.
  - f_equal. lia.
  - pose proof (csize_nonneg t). assert (P : 0 < 2 ^ Z.of_nat i) by (apply Z.pow_pos_nonneg; lia).
    assert (Q : CD ri * 2 ^ Z.of_nat i <= wbits * MAX_LEN) by nia.
    unfold chunk_digits. unfold CHUNK_LEN. change (Z.of_nat 16) with 16. fold (CD ri).
    rewrite usize_room by nia. cbn [bind].
    pose proof MAX_BIT_LEN_usize as MB.
    rewrite check_true.
    2:{ apply Z.ltb_lt. apply Z.nle_gt. intros C. assert (2 ^ ubits <= 2 ^ Z.of_nat i) by (apply Z.pow_le_mono_r; lia). nia. }
    cbn [bind]. rewrite Z.shiftl_mul_pow2 by lia. rewrite Z.mod_small by nia.
    rewrite usize_room by nia. cbn [bind]. rewrite IH by nia. f_equal. ring.
Qed.

Lemma npl_new_spec x : ubig_ok x -> 1 <= uval x ->
  exists p ds, npl_new x radix = Ok p /\ npl_width p = Ok (Z.of_nat (length ds)) /\ emits (npl_write be p) ds /\
    reads radix (uval x) ds /\ hd 0 ds <> 0.
Proof.
  intros Hx Hv. destruct (dpw_facts radix ri Hr Eri NI) as (D1 & D2 & D3 & D4). pose proof (ubig_ok_val x Hx) as Vx.
  unfold npl_new. rewrite check_true by (eapply np_valid; eauto). rewrite Eri. cbn [bind].
  assert (Or : ubig_ok (from_word range)) by (cbn [ubig_ok from_word]; lia).
  assert (U16 : 0 <= Z.of_nat CHUNK_LEN < 2 ^ ubits).
  { split; [lia|]. apply Z.lt_le_trans with (2 ^ 16); [reflexivity|].
    apply Z.pow_le_mono_r; [lia|]. destruct ubits_cases as [-> | [-> | ->]]; lia. }
  destruct (yields_returns _ _ (ubig_pow_spec (from_word range) (Z.of_nat CHUNK_LEN) Or U16))
    as (cp & -> & Oc & Vc).
  { cbn [uval from_word]. unfold CHUNK_LEN. eapply Z.lt_le_trans; [|apply (Bn_MAXV_le 16); pose proof MAX_LEN_ge; lia].
    unfold Bn. apply Z.pow_lt_mono_l; lia. }
  cbn [uval from_word] in Vc. change (Z.of_nat CHUNK_LEN) with 16 in Vc.
  cbn [bind]. rewrite ubig_lt_spec by auto. cbn [bind]. rewrite Vc.
  destruct (Z.ltb_spec (uval x) (range ^ 16)) as [G|G].
  - destruct (npm_new_spec be radix ri Hr Eri NI x Hx) as (p & ds & E & Wd & Em & R & H); [lia|].
    rewrite E. cbn [bind]. exists (mkNpLarge p [] [] radix), ds. split; [reflexivity|].
    split. { unfold npl_width. cbn [npl_top npl_radix npl_chunks]. rewrite Wd. cbn [bind]. rewrite Eri. reflexivity. }
    split; [|auto]. intros case out w raw V I. unfold npl_write. cbn [npl_top npl_powers npl_radix npl_chunks rev].
    destruct (Em case out w raw V I) as (w' & -> & I'). exists w'. auto.
  - assert (PO : powers_ok ri ([] ++ [cp])).
    { apply powers_ok_snoc; auto. intros [|i] q E; discriminate. }
    destruct (npl_powers_loop_spec radix ri Hr Eri NI x Hx Hv (S (length (as_words x))) cp [] PO) as (ps & p & Ep & PO' & Lp); [lia|cbn [length]; lia|].
    cbn [app] in Ep. rewrite Ep. cbn [bind]. rewrite rev_app_distr. cbn [rev app].
    destruct (PO' (length ps) p) as [Op Vp].
    { rewrite nth_error_app2, Nat.sub_diag by lia. reflexivity. }
    pose proof (cpow_pos radix ri Hr Eri NI (length ps)) as PP.
    destruct (ubig_div_rem_rr_yields x p Hx Op) as [_ Y]. rewrite Vp in Y. destruct Y as (q & r & -> & Hq & Hr' & Vq & Vr); [lia|].
    cbn [bind]. rewrite Vp in Lp.
    destruct (npl_split_spec radix ri Hr Eri NI (length (ps ++ [p])) (rev ps) q [(length (rev ps), r)]) as (x' & new & -> & Ox & Vx' & Fn & En); auto.
    { rewrite rev_involutive. intros i u E. apply PO'. rewrite nth_error_app1; auto. apply nth_error_Some. congruence. }
    { rewrite rev_length, app_length. lia. }
    { rewrite rev_length, Vq. split; [apply Z.div_le_lower_bound; lia|apply Z.div_lt_upper_bound; lia]. }
    cbn [bind]. rewrite rev_length. rewrite cpow_0 in Vx'.
    destruct (npm_new_spec be radix ri Hr Eri NI x' Ox Vx') as (top & ds & E & Wd & Em & R & H).
    rewrite E. cbn [bind].
    set (chunks := (length ps, r) :: new). change ([(length ps, r)] ++ new) with chunks.
    assert (Fc : Forall (chunk_ok ri (length (ps ++ [p]))) chunks).
    { constructor; auto. split; cbn [fst snd]; [rewrite app_length; lia|]. split; auto. rewrite Vr. apply Z.mod_pos_bound. lia. }
    destruct (npl_write_loop_spec be radix ri Hr Eri NI (ps ++ [p]) (rev chunks) PO') as (es & Em2 & R2 & L2).
    { apply Forall_rev. exact Fc. }
    rewrite csize_rev in L2.
    assert (Ev : uval x = uval x' * radix ^ Z.of_nat (length es) + cval radix ri (rev chunks)).
    { unfold chunks. cbn [rev]. rewrite (cval_snoc radix ri Hr Eri NI). rewrite L2. unfold chunks. cbn [csize].
      pose proof (Z.div_mod (uval x) (cpow ri (length ps)) ltac:(lia)) as DM. rewrite <- Vr, <- Vq, En in DM. rewrite DM.
      pose proof (csize_nonneg new). assert (0 < 2 ^ Z.of_nat (length ps)) by (apply Z.pow_pos_nonneg; lia).
      rewrite (Z.mul_add_distr_l (CD ri)), Z.pow_add_r by (unfold CD; apply Z.mul_nonneg_nonneg; lia). rewrite <- (cpow_CD radix ri Hr Eri NI). ring. }
    assert (RA : reads radix (uval x) (ds ++ es)) by (rewrite Ev; apply reads_app; auto; lia).
    assert (HA : hd 0 (ds ++ es) <> 0) by (destruct ds; [cbn in H; congruence|exact H]).
    exists (mkNpLarge top (ps ++ [p]) chunks radix), (ds ++ es). split; [reflexivity|]. split; [|split; [|auto]].
    + unfold npl_width. cbn [npl_top npl_radix npl_chunks]. rewrite Wd. cbn [bind]. rewrite Eri. cbn [bind].
      pose proof (digits_count radix _ _ ltac:(lia) RA HA (proj2 Vx)) as DC. rewrite app_length, Nat2Z.inj_add, L2 in DC.
      rewrite width_loop_spec by lia. rewrite app_length, Nat2Z.inj_add, L2. reflexivity.
    + eapply emits_ext; [|eapply emits_bind; [exact Em|exact Em2]]. reflexivity.
Qed.

End NonPower.

(** ** Power-of-two radix *)

Fixpoint digs (r : Z) (n : nat) (v : Z) : list Z :=
  match n with O => [] | S n => v mod r :: digs r n (v / r) end.

Lemma digs_length r n : forall v, length (digs r n v) = n.
Proof. induction n; intros; cbn [digs length]; auto. Qed.
Lemma digs_ok r n : 0 < r -> forall v, digits_ok r (digs r n v).
Proof. intros Hr. induction n; intros; cbn [digs]; constructor; [apply Z.mod_pos_bound; lia|apply IHn]. Qed.
Lemma digs_num r n : 0 < r -> forall v, 0 <= v < r ^ Z.of_nat n -> num r (digs r n v) = v.
Proof.
  intros Hr. induction n as [|n IH]; intros v Hv; cbn [digs num].
  - cbn in Hv. lia.
  - rewrite Nat2Z.inj_succ, Z.pow_succ_r in Hv by lia. rewrite IH.
    + pose proof (Z.div_mod v r). lia.
    + split; [apply Z.div_pos; lia|apply Z.div_lt_upper_bound; lia].
Qed.
Lemma digs_reads r n v : 0 < r -> 0 <= v < r ^ Z.of_nat n -> reads r v (rev (digs r n v)).
Proof. intros Hr Hv. split; [apply digits_ok_rev, digs_ok; auto|]. rewrite rev_involutive. apply digs_num; auto. Qed.
Lemma digs_snoc r n : 0 < r -> forall v, digs r (S n) v = digs r n v ++ [(v / r ^ Z.of_nat n) mod r].
Proof.
  intros Hr. induction n as [|n IH]; intros v.
  - cbn [digs app]. rewrite Z.pow_0_r, Z.div_1_r. reflexivity.
  - change (digs r (S (S n)) v) with (v mod r :: digs r (S n) (v / r)). rewrite IH. cbn [digs app].
    rewrite Z.div_div by (try apply Z.pow_pos_nonneg; lia). rewrite <- Z.pow_succ_r, <- Nat2Z.inj_succ by lia. reflexivity.
Qed.
Lemma digs_mod r n : 0 < r -> forall v, digs r n (v mod r ^ Z.of_nat n) = digs r n v.
Proof.
  intros Hr. induction n as [|n IH]; intros v; [reflexivity|]. cbn [digs].
  assert (0 < r ^ Z.of_nat n) by (apply Z.pow_pos_nonneg; lia).
  rewrite Nat2Z.inj_succ, Z.pow_succ_r, Z.rem_mul_r by lia. f_equal.
  - rewrite (Z.mul_comm r), Z.mod_add, Z.mod_mod by lia. reflexivity.
  - rewrite <- (IH (v / r)). f_equal. rewrite (Z.mul_comm r), Z.div_add by lia.
    rewrite (Z.div_small (v mod r)) by (apply Z.mod_pos_bound; lia). lia.
Qed.
Lemma digs_hd r n v : 0 < r -> (0 < n)%nat -> 0 <= v < r ^ Z.of_nat n -> r ^ (Z.of_nat n - 1) <= v -> hd 0 (rev (digs r n v)) <> 0.
Proof.
  intros Hr Hn Hv Hl. destruct n as [|n]; [lia|]. rewrite digs_snoc, rev_app_distr by auto. cbn [rev app hd].
  replace (Z.of_nat (S n) - 1) with (Z.of_nat n) in Hl by lia. rewrite Nat2Z.inj_succ, Z.pow_succ_r in Hv by lia.
  assert (0 < r ^ Z.of_nat n) by (apply Z.pow_pos_nonneg; lia).
  assert (1 <= v / r ^ Z.of_nat n) by (apply Z.div_le_lower_bound; lia).
  assert (v / r ^ Z.of_nat n < r) by (apply Z.div_lt_upper_bound; lia). rewrite Z.mod_small; lia.
Qed.

Section Power.
Context (radix lg : Z) (Hlg : 1 <= lg <= 5) (El : radix = 2 ^ lg) (Etz : z_tz radix = lg).

Lemma p2_radix : 2 <= radix <= 32.
Proof.
  rewrite El. assert (lg = 1 \/ lg = 2 \/ lg = 3 \/ lg = 4 \/ lg = 5) as [-> | [-> | [-> | [-> | ->]]]] by lia; lia.
Qed.
Lemma p2_valid : is_radix_valid radix && is_pow2 radix = true.
Proof.
  rewrite El. assert (lg = 1 \/ lg = 2 \/ lg = 3 \/ lg = 4 \/ lg = 5) as [-> | [-> | [-> | [-> | ->]]]] by lia; reflexivity.
Qed.
Lemma radix_pow n : 0 <= n -> radix ^ n = 2 ^ (lg * n).
Proof. intros H. rewrite El, <- Z.pow_mul_r by lia. reflexivity. Qed.

Lemma mask_digit v : 0 <= v -> Z.land v (ones_w lg) mod 256 = v mod radix.
Proof.
  intros Hv. pose proof wbits_ge. rewrite ones_w_eq, Z.land_ones, <- El by lia. pose proof p2_radix.
  apply Z.mod_small. pose proof (Z.mod_pos_bound v radix). lia.
Qed.

(** The width computed from the bit length. *)
Lemma width_bits v : 0 < v -> let n := Z.max (ceil_div (bitlen v) lg) 1 in
  1 <= n /\ radix ^ (n - 1) <= v < radix ^ n /\ bitlen v <= lg * n < bitlen v + lg.
Proof.
  intros Hv n. destruct (bitlen_bounds v Hv) as (L & P).
  assert (En : n = (bitlen v - 1) / lg + 1).
  { unfold n, ceil_div. rewrite (proj2 (Z.eqb_neq _ _)) by lia. assert (0 <= (bitlen v - 1) / lg) by (apply Z.div_pos; lia). lia. }
  pose proof (Z.div_mod (bitlen v - 1) lg ltac:(lia)) as DM. pose proof (Z.mod_pos_bound (bitlen v - 1) lg ltac:(lia)) as MB.
  assert (0 <= (bitlen v - 1) / lg) by (apply Z.div_pos; lia). clearbody n. subst n.
  set (k := (bitlen v - 1) / lg) in *. set (m := (bitlen v - 1) mod lg) in *. clearbody k m.
  split; [lia|]. split.
  - rewrite !radix_pow by lia. split.
    + apply Z.le_trans with (2 ^ (bitlen v - 1)); [apply Z.pow_le_mono_r; lia|lia].
    + apply Z.lt_le_trans with (2 ^ bitlen v); [lia|apply Z.pow_le_mono_r; lia].
  - lia.
Qed.

Lemma p2w_digits_spec p : p2w_log_radix p = lg -> 0 <= p2w_word p < B -> 0 <= p2w_width p <= wbits ->
  lg * (p2w_width p - 1) < wbits ->
  forall n idx a b, length a = n -> 0 <= idx -> idx + Z.of_nat n = p2w_width p ->
  p2w_digits n idx p (a ++ b) = Ok (rev (digs radix n (p2w_word p / radix ^ idx)) ++ b).
Proof.
  intros Elg Hw Hwd Hsh. assert (W64 : wbits <= 64) by (destruct wbits_cases as [-> | [-> | ->]]; lia).
  induction n as [|n IH]; intros idx a b La Hi Hn.
  - destruct a; [|discriminate]. reflexivity.
  - cbn [p2w_digits]. rewrite Elg.
    unfold checked. rewrite (proj2 (Z.leb_le _ _)), (proj2 (Z.ltb_lt _ _)) by nia. cbn [andb bind].
    rewrite check_true by (apply Z.ltb_lt; nia). cbn zeta.
    unfold shr_w. rewrite mask_digit by (apply Z.shiftr_nonneg; lia). rewrite Z.shiftr_div_pow2 by nia.
    rewrite (Z.mul_comm idx), <- radix_pow by lia.
    rewrite usize_small by lia. cbn [bind].
    destruct a as [|x a _] using rev_ind; [discriminate|]. rewrite app_length in La. cbn [length] in La.
    unfold set. rewrite <- app_assoc, app_length. cbn [app length]. rewrite (proj2 (Nat.ltb_lt _ _)) by lia. cbn [bind].
    replace (Z.to_nat (p2w_width p - 1 - idx)) with (length a) by lia.
    assert (UP : forall (v : Z), upd (length a) v (a ++ x :: b) = a ++ v :: b).
    { clear. intros v. induction a as [|y t IH]; cbn [app length upd]; congruence. }
    rewrite UP, IH by lia. f_equal. cbn [digs rev]. rewrite <- app_assoc. cbn [app]. pose proof p2_radix.
    rewrite Z.pow_add_r, Z.pow_1_r, <- Z.div_div by (try apply Z.pow_pos_nonneg; lia). reflexivity.
Qed.

Lemma p2w_spec word : 0 <= word < B ->
  exists p ds, p2w_new word radix = Ok p /\ p2w_width p = Z.of_nat (length ds) /\ emits (p2w_write be p) ds /\ canonical radix word ds.
Proof.
  intros Hw. unfold p2w_new. rewrite check_true by apply p2_valid. cbn zeta. rewrite Etz. unfold bit_len_w, bit_len_n, leading_zeros_n.
  replace (wbits - (wbits - bitlen word)) with (bitlen word) by lia. pose proof p2_radix as R2. pose proof wbits_ge as WG.
  set (n := Z.max (ceil_div (bitlen word) lg) 1).
  assert (F : 1 <= n <= wbits /\ lg * (n - 1) < wbits /\ 0 <= word < radix ^ n /\ (word = 0 /\ n = 1 \/ radix ^ (n - 1) <= word)).
  { destruct (Z.eq_dec word 0) as [->|N].
    - unfold n. change (Z.max (ceil_div (bitlen 0) lg) 1) with 1. rewrite Z.pow_1_r. repeat split; lia.
    - destruct (width_bits word ltac:(lia)) as (F1 & F2 & F3). fold n in F1, F2, F3.
      assert (bitlen word <= wbits) by (apply bitlen_le; [lia|exact Hw]). repeat split; try lia; nia. }
  destruct F as (F1 & F2 & F3 & F4).
  exists (mkP2Word word lg n), (rev (digs radix (Z.to_nat n) word)). split; [reflexivity|].
  rewrite rev_length, digs_length. cbn [p2w_width]. split; [lia|]. split.
  - eapply emits_ext; [|apply emits_write]. intros w. unfold p2w_write. cbn [p2w_width].
    assert (Er : repeat 0 (Z.to_nat wbits) = repeat 0 (Z.to_nat n) ++ repeat 0 (Z.to_nat wbits - Z.to_nat n)).
    { rewrite <- repeat_app. f_equal. lia. }
    rewrite Er. rewrite p2w_digits_spec; cbn [p2w_log_radix p2w_word p2w_width]; auto; try lia; [|rewrite repeat_length; lia].
    cbn [bind]. rewrite Z.pow_0_r, Z.div_1_r. unfold slice_to. rewrite app_length, rev_length, digs_length.
    rewrite (proj2 (Nat.leb_le _ _)) by lia. cbn [bind].
    rewrite firstn_app, rev_length, digs_length, Nat.sub_diag, firstn_O, app_nil_r.
    rewrite firstn_all2 by (rewrite rev_length, digs_length; lia). reflexivity.
  - destruct (digs_reads radix (Z.to_nat n) word) as [R1 R3]; [lia|rewrite Z2Nat.id; lia|].
    split; [exact R1|]. split; [exact R3|]. destruct F4 as [[-> ->]|F4].
    + left. reflexivity.
    + right. apply digs_hd; rewrite ?Z2Nat.id by lia; try lia.
Qed.

(** What remains to be written of a large number. *)
Definition rest (it : list Z) (word bits : Z) : Z := (word mod 2 ^ bits) * Bn (length it) + val (rev it).

Lemma p2l_loop_spec : forall k fuel it word bits, (k < fuel)%nat -> wf it -> 0 <= word < B -> 0 <= bits < wbits + lg ->
  bits + wbits * Z.of_nat (length it) = lg * Z.of_nat k ->
  emits (p2l_loop be fuel it word bits lg) (rev (digs radix k (rest it word bits))).
Proof.
  pose proof p2_radix as R2. pose proof wbits_ge as WG. assert (W64 : wbits <= 64) by (destruct wbits_cases as [-> | [-> | ->]]; lia).
  induction k as [|k IH]; intros fuel it word bits F W Hw Hb E; (destruct fuel as [|fuel]; [lia|]).
  - assert (bits = 0) by nia. assert (length it = 0)%nat by nia. destruct it; [|discriminate]. subst bits.
    eapply emits_ext; [|exact emits_nil]. intros w. cbn [p2l_loop]. rewrite (proj2 (Z.ltb_lt _ _)) by lia. reflexivity.
  - rewrite digs_snoc, rev_app_distr by lia. cbn [rev app].
    rewrite <- (digs_mod radix k) by lia.
    assert (VB : 0 <= val (rev it) < Bn (length it)).
    { pose proof (val_bound (rev it)) as H. rewrite rev_length in H. apply H. apply Forall_rev. exact W. }
    assert (MB : 0 <= word mod 2 ^ bits < 2 ^ bits) by (apply Z.mod_pos_bound, Z.pow_pos_nonneg; lia).
    destruct (Z.ltb_spec bits lg) as [G|G].
    + destruct it as [|x it].
      { cbn [length] in E. exfalso. rewrite Z.mul_0_r, Z.add_0_r in E. nia. }
      set (extra := lg - bits). assert (X : 1 <= extra <= 5) by (unfold extra; lia).
      apply wf_cons in W as [Hx W].
      set (nb := wbits - extra) in *.
      assert (PX : 0 < 2 ^ extra) by (apply Z.pow_pos_nonneg; lia). assert (PN : 0 < 2 ^ nb) by (apply Z.pow_pos_nonneg; unfold nb; lia).
      assert (BN : B = 2 ^ extra * 2 ^ nb). { unfold B. rewrite <- Z.pow_add_r by (unfold nb; lia). f_equal. unfold nb. lia. }
      assert (Pb : 0 < 2 ^ bits) by (apply Z.pow_pos_nonneg; lia).
      assert (HR : radix = 2 ^ bits * 2 ^ extra). { rewrite El, <- Z.pow_add_r by lia. f_equal. unfold extra. lia. }
      assert (XB : 0 <= x / 2 ^ nb < 2 ^ extra). { split; [apply Z.div_pos; lia|]. apply Z.div_lt_upper_bound; lia. }
      assert (DG : (Z.land (Z.lor (shl_w word extra) (shr_w x nb)) (ones_w lg)) mod 256 = (word mod 2 ^ bits) * 2 ^ extra + x / 2 ^ nb).
      { unfold shl_w, shr_w. rewrite Z.shiftl_mul_pow2, Z.shiftr_div_pow2 by (unfold nb; lia).
        rewrite BN, (Z.mul_comm word), Z.mul_mod_distr_l by lia. rewrite (Z.mul_comm (2 ^ extra)), Z.lor_comm.
        rewrite lor_disjoint by lia.
        assert (0 <= word mod 2 ^ nb) by (apply Z.mod_pos_bound; lia).
        rewrite mask_digit by nia. rewrite HR, (Z.mul_comm (2 ^ bits)), Z.rem_mul_r by lia.
        rewrite (Z.mod_add (x / 2 ^ nb)), (Z.mod_small (x / 2 ^ nb)) by lia. rewrite Z.div_add, (Z.div_small (x / 2 ^ nb)) by lia.
        rewrite Z.add_0_l. assert (WB : 2 ^ nb = 2 ^ bits * 2 ^ (nb - bits)). { rewrite <- Z.pow_add_r by (unfold nb; lia). f_equal. lia. }
        rewrite <- (Znumtheory.Zmod_div_mod (2 ^ bits) (2 ^ nb) word Pb PN) by (exists (2 ^ (nb - bits)); rewrite WB; ring).
        ring. }
      cbn [length] in E. rewrite Nat2Z.inj_succ in E.
      assert (KE : nb + wbits * Z.of_nat (length it) = lg * Z.of_nat k) by (unfold nb, extra; lia).
      assert (RK : radix ^ Z.of_nat k = 2 ^ nb * Bn (length it)).
      { rewrite radix_pow, <- KE, Z.pow_add_r by (unfold nb; lia). rewrite Bn_pow2. reflexivity. }
      assert (VB2 : 0 <= val (rev it) < Bn (length it)).
      { pose proof (val_bound (rev it)) as H. rewrite rev_length in H. apply H. apply Forall_rev. exact W. }
      assert (RE : rest (x :: it) word bits = ((word mod 2 ^ bits) * 2 ^ extra + x / 2 ^ nb) * radix ^ Z.of_nat k + rest it x nb).
      { unfold rest. cbn [length rev]. rewrite RK, Bn_S, val_app, rev_length, val_single, BN.
        pose proof (Z.div_mod x (2 ^ nb) ltac:(lia)) as DM. rewrite DM at 1. ring. }
      assert (RB : 0 <= rest it x nb < radix ^ Z.of_nat k).
      { unfold rest. rewrite RK. pose proof (Z.mod_pos_bound x (2 ^ nb) PN) as Q1. clear - Q1 VB2. nia. }
      rewrite RE. rewrite Z.add_comm, Z.div_add, Z.mod_add by lia. rewrite (Z.div_small (rest it x nb)), (Z.mod_small (rest it x nb)) by lia.
      rewrite Z.add_0_l, (Z.mod_small (_ + _)) by (rewrite HR; clear - MB XB; nia).
      eapply emits_ext; [|apply (emits_bind (fun w => dw_write be w [(word mod 2 ^ bits) * 2 ^ extra + x / 2 ^ nb]) (p2l_loop be fuel it x nb lg) [(word mod 2 ^ bits) * 2 ^ extra + x / 2 ^ nb]); [apply emits_write|apply IH; auto; unfold nb; lia]].
      intros w. cbn [p2l_loop]. rewrite (proj2 (Z.ltb_lt bits lg)) by lia. fold extra. fold nb.
      unfold checked. rewrite (proj2 (Z.leb_le 0 nb)), (proj2 (Z.ltb_lt nb (2 ^ 32))) by (unfold nb; lia). cbn [andb bind].
      rewrite (proj2 (Z.ltb_lt extra wbits)), (proj2 (Z.ltb_lt nb wbits)) by (unfold nb; lia). cbn [andb].
      rewrite check_true by reflexivity. rewrite DG. reflexivity.
    + set (nb := bits - lg).
      assert (PN : 0 < 2 ^ nb) by (apply Z.pow_pos_nonneg; unfold nb; lia).
      assert (HB : 2 ^ bits = 2 ^ nb * radix). { rewrite El, <- Z.pow_add_r by (unfold nb; lia). f_equal. unfold nb. lia. }
      assert (KE : nb + wbits * Z.of_nat (length it) = lg * Z.of_nat k) by (unfold nb; lia).
      assert (RK : radix ^ Z.of_nat k = 2 ^ nb * Bn (length it)).
      { rewrite radix_pow, <- KE, Z.pow_add_r by (unfold nb; lia). rewrite Bn_pow2. reflexivity. }
      assert (RE : rest it word bits = (word / 2 ^ nb mod radix) * radix ^ Z.of_nat k + rest it word nb).
      { unfold rest. rewrite RK, HB, Z.rem_mul_r by lia. ring. }
      assert (RB : 0 <= rest it word nb < radix ^ Z.of_nat k).
      { unfold rest. rewrite RK. pose proof (Z.mod_pos_bound word (2 ^ nb) PN) as Q1. clear - Q1 VB. nia. }
      rewrite RE. rewrite Z.add_comm, Z.div_add, Z.mod_add by lia. rewrite (Z.div_small (rest it word nb)), (Z.mod_small (rest it word nb)) by lia.
      rewrite Z.add_0_l, Z.mod_mod by lia.
      eapply emits_ext; [|apply (emits_bind (fun w => dw_write be w [(word / 2 ^ nb) mod radix]) (p2l_loop be fuel it word nb lg) [(word / 2 ^ nb) mod radix]); [apply emits_write|apply IH; auto; unfold nb; lia]].
      intros w. cbn [p2l_loop]. rewrite (proj2 (Z.ltb_ge bits lg)) by lia. fold nb.
      rewrite check_true by (apply Z.ltb_lt; unfold nb; lia).
      unfold shr_w. rewrite mask_digit, Z.shiftr_div_pow2 by (try apply Z.shiftr_nonneg; unfold nb; lia). reflexivity.
Qed.

Lemma p2l_spec b : ubig_ok (Large b) ->
  exists p ds, p2l_new (words b) radix = Ok p /\ p2l_width p = Z.of_nat (length ds) /\ emits (p2l_write be p) ds /\
    canonical radix (val (words b)) ds.
Proof.
  intros Hb. pose proof p2_radix as R2. pose proof wbits_ge as WG. pose proof MAX_BIT_LEN_usize as MB.
  pose proof (ubig_ok_val _ Hb) as UV. pose proof (Large_ge _ Hb) as LG. pose proof B_ge as BG. cbn [uval] in UV, LG.
  assert (W64 : wbits <= 64) by (destruct wbits_cases as [-> | [-> | ->]]; lia).
  destruct Hb as (W & L & T & LM & _). unfold len in LM.
  destruct (words b) as [|last t _] eqn:Ew using rev_ind; [cbn in L; lia|]. clear Ew. rewrite last_last in T.
  unfold p2l_new. rewrite check_true by apply p2_valid. cbn zeta. rewrite Etz, rev_app_distr. cbn [rev app].
  pose proof W as W'. apply wf_app in W' as [Wt Wl]. apply wf_cons in Wl as [Hl _].
  rewrite app_length in *. cbn [length] in *. rewrite Nat2Z.inj_add in *. change (Z.of_nat 1) with 1 in *.
  pose proof (bitlen_bounds last ltac:(lia)) as (BL1 & BL2).
  assert (BLW : bitlen last <= wbits) by (apply bitlen_le; [lia|exact Hl]).
  rewrite usize_room by nia. cbn [bind]. unfold leading_zeros_w, leading_zeros_n. rewrite usize_room by nia. cbn [bind].
  set (v := val (t ++ [last])) in *.
  assert (Ev : v = last * Bn (length t) + val t). { unfold v. rewrite val_app, val_single. ring. }
  assert (BV : bitlen v = wbits * Z.of_nat (length t) + bitlen last).
  { apply bitlen_unique; [nia|]. rewrite Ev. pose proof (val_bound t Wt) as VT. rewrite Bn_pow2 in *.
    assert (0 <= wbits * Z.of_nat (length t)) by nia.
    replace (wbits * Z.of_nat (length t) + bitlen last - 1) with (bitlen last - 1 + wbits * Z.of_nat (length t)) by lia.
    rewrite !Z.pow_add_r by lia. set (P := 2 ^ (wbits * Z.of_nat (length t))) in *. clearbody P. nia. }
  replace ((Z.of_nat (length t) + 1) * wbits - (wbits - bitlen last)) with (bitlen v) by lia.
  destruct (width_bits v ltac:(lia)) as (F1 & F2 & F3). set (n := Z.max (ceil_div (bitlen v) lg) 1) in *.
  exists (mkP2Large (t ++ [last]) lg n), (rev (digs radix (Z.to_nat n) v)). split; [reflexivity|].
  rewrite rev_length, digs_length. cbn [p2l_width]. split; [lia|]. split.
  - assert (EE : forall w, p2l_loop be (S (Z.to_nat n)) (rev t) last (lg * n - wbits * Z.of_nat (length t)) lg w = p2l_write be (mkP2Large (t ++ [last]) lg n) w).
    { intros w. unfold p2l_write. cbn [p2l_words p2l_width p2l_log_radix]. rewrite rev_app_distr. cbn [rev app].
      rewrite app_length. cbn [length]. rewrite Nat2Z.inj_add. change (Z.of_nat 1) with 1.
      assert (Q1 : wbits * Z.of_nat (length t) + wbits <= wbits * MAX_LEN) by (clear - LM WG; nia).
      assert (Q2 : 0 <= wbits * Z.of_nat (length t)) by (clear - WG; nia).
      replace ((Z.of_nat (length t) + 1 - 1) * wbits) with (wbits * Z.of_nat (length t)) by ring.
      rewrite (Z.mul_comm n). clear - Q1 Q2 F3 BV BL2 BLW Hlg W64 AOK WG.
      rewrite usize_room by lia. cbn [bind]. rewrite usize_room by lia. cbn [bind]. rewrite usize_room by lia. cbn [bind].
      rewrite Z.mod_small by lia. reflexivity. }
    eapply emits_ext; [exact EE|].
    replace v with (rest (rev t) last (lg * n - wbits * Z.of_nat (length t))).
    + apply p2l_loop_spec; [lia|apply Forall_rev; exact Wt|exact Hl|lia|]. rewrite rev_length. lia.
    + unfold rest. rewrite rev_length, rev_involutive, Ev. f_equal. f_equal. apply Z.mod_small. split; [lia|].
      apply Z.lt_le_trans with (2 ^ bitlen last); [lia|apply Z.pow_le_mono_r; lia].
  - destruct (digs_reads radix (Z.to_nat n) v) as [R1 R3]; [lia|rewrite Z2Nat.id; lia|].
    split; [exact R1|]. split; [exact R3|]. right. apply digs_hd; rewrite ?Z2Nat.id by lia; try lia.
Qed.

End Power.

(** ** Width, sign, prefix and filling *)

(** The letter case can show all digits of the radix. *)
Definition case_fits (case : digit_case) (radix : Z) : Prop :=
  match case with NoLetters => radix <= 10 | _ => radix <= 36 end.

Lemma case_fits_vdig case radix ds : case_fits case radix -> digits_ok radix ds -> Forall (vdig case) ds.
Proof.
  intros F D. eapply Forall_impl; [|exact D]. intros d Hd. cbn in Hd. unfold vdig. destruct case; cbn in F; lia.
Qed.

Definition is_negative (s : sign) : bool := match s with Negative => true | Positive => false end.

Lemma write_digits_spec self write ds out : emits write ds -> Forall (vdig (irf_case self)) ds ->
  write_digits be self write out = Ok (out ++ map (asc (irf_case self)) ds).
Proof.
  intros E V. unfold write_digits.
  destruct (E (irf_case self) out (dw_new out (irf_case self)) [] V (dw_new_inv _ _)) as (w & -> & I). cbn [bind app] in *.
  destruct (finish_spec be _ _ _ _ I) as (w' & -> & Eo). cbn [bind]. rewrite Eo. reflexivity.
Qed.

Lemma format_prepared_spec self f width write ds : emits write ds -> Forall (vdig (irf_case self)) ds ->
  width = Ok (Z.of_nat (length ds)) -> Z.of_nat (length ds) <= wbits * MAX_LEN -> (length (irf_prefix self) <= 2)%nat ->
  (forall w, f_width f = Some w -> 0 <= w) ->
  format_prepared be self f width write =
    Ok (padded f (sign_text (is_negative (irf_sign self)) (f_sign_plus f)) (irf_prefix self) (map (asc (irf_case self)) ds)).
Proof.
  intros E V -> D P FW. unfold format_prepared. cbn [bind].
  assert (ES : match irf_sign self with Negative => [45] | Positive => if f_sign_plus f then [43] else [] end =
    sign_text (is_negative (irf_sign self)) (f_sign_plus f)) by (destruct (irf_sign self); reflexivity).
  rewrite ES. set (sgn := sign_text _ _). set (pre := irf_prefix self) in *. set (txt := map (asc (irf_case self)) ds).
  assert (LS : (length sgn <= 1)%nat) by (unfold sgn, sign_text; destruct (is_negative _), (f_sign_plus f); cbn; lia).
  assert (0 <= wbits * MAX_LEN) by (pose proof MAX_LEN_ge; pose proof wbits_ge; nia).
  rewrite usize_room by lia. cbn [bind]. rewrite usize_room by lia. cbn [bind].
  assert (LT : length txt = length ds) by apply map_length.
  unfold padded. rewrite !app_length, LT.
  destruct (f_width f) as [mw|] eqn:Ef.
  2:{ rewrite write_digits_spec with (ds := ds) by auto. fold txt.
      destruct (f_zero_pad f); cbn [repeat app]; [rewrite <- app_assoc; reflexivity|].
      replace (left_fill (f_align f) 0) with 0%nat by (destruct (f_align f) as [[]|]; reflexivity).
      cbn [repeat app Nat.sub]. rewrite app_nil_r, <- app_assoc. reflexivity. }
  specialize (FW mw eq_refl).
  destruct (Z.leb_spec mw (Z.of_nat (length ds) + (Z.of_nat (length sgn) + Z.of_nat (length pre)))) as [G|G].
  - replace (Z.to_nat mw - (length sgn + (length pre + length ds)))%nat with 0%nat by lia.
    rewrite write_digits_spec with (ds := ds) by auto. fold txt.
    destruct (f_zero_pad f); cbn [repeat app]; [rewrite <- app_assoc; reflexivity|].
    replace (left_fill (f_align f) 0) with 0%nat by (destruct (f_align f) as [[]|]; reflexivity).
    cbn [repeat app Nat.sub]. rewrite app_nil_r, <- app_assoc. reflexivity.
  - cbn zeta. set (pad := mw - _).
    replace (Z.to_nat mw - (length sgn + (length pre + length ds)))%nat with (Z.to_nat pad) by (unfold pad; lia).
    assert (0 < pad) by (unfold pad; lia). clearbody pad.
    destruct (f_zero_pad f).
    + rewrite write_digits_spec with (ds := ds) by auto. fold txt. rewrite <- !app_assoc. reflexivity.
    + set (left := match f_align f with Some AlignLeft => 0 | Some AlignRight | None => pad | Some AlignCenter => pad / 2 end).
      assert (EL : Z.to_nat left = left_fill (f_align f) (Z.to_nat pad) /\ 0 <= left <= pad).
      { unfold left, left_fill. destruct (f_align f) as [[]|]; try lia. }
      destruct EL as [EL1 EL2]. rewrite write_digits_spec with (ds := ds) by auto. fold txt. cbn [bind].
      rewrite <- EL1. replace (Z.to_nat pad - Z.to_nat left)%nat with (Z.to_nat (pad - left)) by lia.
      rewrite <- !app_assoc. reflexivity.
Qed.

Lemma reads_canonical radix v ds : reads radix v ds -> hd 0 ds <> 0 -> canonical radix v ds.
Proof. intros [R1 R2] H. split; [exact R1|]. split; [exact R2|]. right. exact H. Qed.

Lemma canonical_count radix v ds : 2 <= radix -> canonical radix v ds -> v < MAXV -> Z.of_nat (length ds) <= wbits * MAX_LEN.
Proof.
  intros Hr (C1 & C2 & [->|C3]) V.
  - cbn. pose proof MAX_LEN_ge. pose proof wbits_ge. nia.
  - apply (digits_count radix v); auto. split; auto.
Qed.

Theorem fmt_full_spec self f : ubig_ok (irf_magnitude self) -> 2 <= irf_radix self <= 36 ->
  case_fits (irf_case self) (irf_radix self) -> (length (irf_prefix self) <= 2)%nat -> (forall w, f_width f = Some w -> 0 <= w) ->
  exists ds, canonical (irf_radix self) (uval (irf_magnitude self)) ds /\
    fmt_full be self f = Ok (padded f (sign_text (is_negative (irf_sign self)) (f_sign_plus f)) (irf_prefix self)
      (map (digit_text (is_upper (irf_case self))) ds)).
Proof.
  intros Hu Hr HC HP HW. set (radix := irf_radix self) in *. set (u := irf_magnitude self) in *.
  pose proof (ubig_ok_val u Hu) as UV.
  assert (FIN : forall width write ds, emits write ds -> width = Ok (Z.of_nat (length ds)) -> canonical radix (uval u) ds ->
    format_prepared be self f width write = Ok (padded f (sign_text (is_negative (irf_sign self)) (f_sign_plus f)) (irf_prefix self)
      (map (digit_text (is_upper (irf_case self))) ds))).
  { intros width write ds E W C. apply format_prepared_spec; auto.
    - eapply case_fits_vdig; [exact HC|apply C].
    - eapply canonical_count; [|exact C|apply UV]. lia. }
  unfold fmt_full. fold radix. destruct (radix_cases radix Hr) as [(E & lg & E1 & E2 & E3) | E]; rewrite E.
  - unfold fmt_power_two. fold radix u. rewrite check_true by (rewrite (proj2 (is_radix_valid_iff radix) Hr), E; reflexivity).
    destruct u as [w|b] eqn:Eu.
    + destruct (p2w_spec radix lg E2 E1 E3 w Hu) as (p & ds & -> & Wd & Em & C). cbn [bind].
      exists ds. split; [exact C|]. apply FIN; auto. f_equal. exact Wd.
    + destruct (p2l_spec radix lg E2 E1 E3 b Hu) as (p & ds & -> & Wd & Em & C). cbn [bind].
      exists ds. split; [exact C|]. apply FIN; auto. f_equal. exact Wd.
  - destruct (radix_info_np radix Hr E) as (ri & Eri & NI). destruct (dpw_facts radix ri Hr Eri NI) as (D1 & D2 & D3 & D4).
    unfold fmt_non_power_two. fold radix u. rewrite check_true by (rewrite (proj2 (is_radix_valid_iff radix) Hr), E; reflexivity).
    destruct u as [w|b] eqn:Eu.
    + destruct (npw_new_spec be radix ri Hr Eri NI w 1 Hu) as (p & ds & -> & Wd & Em & R & L & H); [lia|]. cbn [bind].
      exists ds. assert (C : canonical radix w ds).
      { destruct H as [H|H]; [|apply reads_canonical; auto]. destruct ds as [|d [|e t]]; cbn [length] in H; try lia.
        destruct R as [R1 R2]. split; [exact R1|]. split; [exact R2|]. cbn [rev app num] in R2. cbn [hd].
        destruct (Z.eq_dec d 0); [left; subst; reflexivity|right; auto]. }
      split; [exact C|]. apply FIN; auto.
    + rewrite Eri. cbn [bind]. pose proof (Large_ge _ Hu) as LG. pose proof B_ge as BG. pose proof wbits_ge as WG.
      assert (W64 : wbits <= 64) by (destruct wbits_cases as [-> | [-> | ->]]; lia).
      assert (BL : 0 <= blen b <= MAX_LEN) by (destruct Hu as (_ & _ & _ & LM & _); unfold blen; unfold len in *; lia).
      rewrite usize_small by lia. cbn [bind]. rewrite usize_room by nia. cbn [bind].
      change (Z.of_nat CHUNK_LEN) with 16. rewrite usize_small by lia. cbn [bind].
      destruct (Z.leb_spec (blen b * (digits_per_word ri + 1)) (16 * digits_per_word ri)) as [G|G].
      * destruct (npm_new_spec be radix ri Hr Eri NI (Large b) Hu) as (p & ds & -> & Wd & Em & R & H).
        { cbn [uval]. split; [lia|]. destruct Hu as (W & _). pose proof (val_bound _ W) as VB. unfold blen, len in *.
          eapply Z.lt_le_trans; [apply VB|]. unfold Bn.
          apply Z.le_trans with ((radix ^ (digits_per_word ri + 1)) ^ Z.of_nat (length (words b))).
          - apply Z.pow_le_mono_l. split; [lia|]. rewrite Z.pow_add_r, Z.pow_1_r, <- D2 by lia. lia.
          - rewrite <- Z.pow_mul_r by lia. rewrite <- (range_pow radix ri Hr Eri NI) by lia. apply Z.pow_le_mono_r; lia. }
        cbn [bind]. exists ds. pose proof (reads_canonical _ _ _ R H) as C. split; [exact C|]. apply FIN; auto.
      * destruct (npl_new_spec radix ri Hr Eri NI (Large b) Hu) as (p & ds & -> & Wd & Em & R & H); [cbn [uval]; lia|].
        cbn [bind]. exists ds. pose proof (reads_canonical _ _ _ R H) as C. split; [exact C|]. apply FIN; auto.
Qed.

End FmtApi.
