(** Formatting produces the digits of the number. *)
From Verif Require Import Model.Base Model.Words Model.Memory Model.FastDivide Model.DivWord Model.Buffer Model.UBig Model.IBig
  Model.Convert Model.MulOps Model.DivOps Model.Gcd Model.Pow Model.Radix Model.Fmt
  Spec.Val Spec.Num Spec.Digits Spec.FmtText
  Proofs.Basics Proofs.FastDivideProofs Proofs.DivWordProofs Proofs.BufferProofs Proofs.DigitsProofs Proofs.ConvertProofs
  Proofs.MulOpsProofs Proofs.DivOpsProofs Proofs.BitCountProofs Proofs.Bounds Proofs.GcdProofs Proofs.PowProofs
  Proofs.RadixProofs Proofs.ParseProofs Proofs.DigitWriterProofs.
From Coq Require Import Lia.

Section FmtProofs.
Context {A : Arch} {AOK : ArchOk A} (be : bool).

(** Digits [ds], most significant first, of the number [v]. *)
Definition reads (radix v : Z) (ds : list Z) : Prop := digits_ok radix ds /\ num radix (rev ds) = v.

Definition emits (write : DigitWriter -> res DigitWriter) (ds : list Z) : Prop :=
  forall case out w raw, Forall (vdig case) ds -> dw_inv case out w raw ->
  exists w', write w = Ok w' /\ dw_inv case out w' (raw ++ ds).

Lemma emits_write ds : emits (fun w => dw_write be w ds) ds.
Proof. intros case out w raw V I. apply write_spec; auto. Qed.

Lemma emits_bind f g ds es : emits f ds -> emits g es -> emits (fun w => w <- f w ;; g w) (ds ++ es).
Proof.
  intros F G case out w raw V I. apply Forall_app in V as [V1 V2].
  destruct (F case out w raw V1 I) as (w1 & -> & I1). cbn [bind].
  destruct (G case out w1 _ V2 I1) as (w2 & -> & I2). exists w2. rewrite app_assoc. auto.
Qed.
Lemma emits_ext f g ds : (forall w, f w = g w) -> emits f ds -> emits g ds.
Proof. intros E F case out w raw V I. rewrite <- E. apply F; auto. Qed.
Lemma emits_nil : emits (fun w => Ok w) [].
Proof. intros case out w raw _ I. exists w. rewrite app_nil_r. auto. Qed.

Lemma reads_app radix u v ds es : 0 < radix -> reads radix u ds -> reads radix v es ->
  reads radix (u * radix ^ Z.of_nat (length es) + v) (ds ++ es).
Proof.
  intros Hr [D1 E1] [D2 E2]. split; [apply digits_ok_app; auto|].
  rewrite rev_app_distr, num_app, rev_length, E1, E2. ring.
Qed.
Lemma reads_bound radix v ds : 0 < radix -> reads radix v ds -> 0 <= v < radix ^ Z.of_nat (length ds).
Proof. intros Hr [D E]. rewrite <- E, <- rev_length. apply num_bound; auto. apply digits_ok_rev; auto. Qed.
Lemma reads_lead radix v ds : 0 < radix -> reads radix v ds -> hd 0 ds <> 0 -> radix ^ (Z.of_nat (length ds) - 1) <= v.
Proof.
  intros Hr [D E] H. rewrite <- E. destruct ds as [|d t]; [cbn in H; lia|].
  pose proof (num_top radix (rev (d :: t)) Hr (digits_ok_rev _ _ D)) as P. rewrite rev_length in P.
  replace (Z.of_nat (length (d :: t)) - 1) with (Z.of_nat (length (d :: t) - 1)) by (cbn [length]; lia).
  apply P. cbn [rev]. rewrite last_last. exact H.
Qed.

(** ** Radix not a power of two *)

Lemma max_digits_spec : exists md, MAX_WORD_DIGITS_NON_POW_2 = Ok md /\ 1 <= md <= wbits /\ B <= 3 ^ md.
Proof.
  destruct (radix_info_np 3) as (ri & E & _ & D & R1 & R2 & _); [lia|reflexivity|].
  unfold radix_info in E. rewrite check_true in E by reflexivity. unfold MAX_WORD_DIGITS_NON_POW_2. rewrite E. cbn [bind].
  exists (digits_per_word ri + 1). rewrite usize_small by (destruct wbits_cases as [H | [H | H]]; rewrite H in D; lia).
  split; [reflexivity|]. split; [lia|]. rewrite Z.pow_add_r, <- R1 by lia. lia.
Qed.

Section NonPower.
Context (radix : Z) (ri : RadixInfo) (Hr : 2 <= radix <= 36) (Eri : radix_info radix = Ok ri) (NI : np_info radix ri).

Notation dpw := (digits_per_word ri).
Notation range := (range_per_word ri).

Lemma np_valid : is_radix_valid radix && negb (is_pow2 radix) = true.
Proof. rewrite (proj2 (is_radix_valid_iff radix) Hr). destruct NI as [-> _]. reflexivity. Qed.
Lemma radix_3 : 3 <= radix.
Proof. destruct NI as [E _]. destruct (Z.eq_dec radix 2) as [->|]; [discriminate E|lia]. Qed.
Lemma dpw_facts : 1 <= dpw < wbits /\ range = radix ^ dpw /\ range < B <= range * radix /\ 3 <= range.
Proof.
  destruct NI as (_ & D & R & R2 & _). repeat split; auto; try lia. rewrite R. pose proof radix_3.
  apply Z.le_trans with (radix ^ 1); [lia|apply Z.pow_le_mono_r; lia].
Qed.

Lemma npw_loop_spec md mn word0 : 1 <= mn -> mn <= Z.of_nat md -> 0 <= word0 < B -> B <= radix ^ Z.of_nat md ->
  forall fuel word digits start, length digits = md -> (start <= md)%nat -> (start <= fuel)%nat ->
  0 <= word < B -> digits_ok radix (skipn start digits) ->
  word0 = word * radix ^ Z.of_nat (md - start) + num radix (rev (skipn start digits)) ->
  (Z.of_nat (md - start) <= mn \/ word <> 0 \/ hd 0 (skipn start digits) <> 0) ->
  exists p, npw_loop fuel (fast_div_radix ri) (Z.to_nat (Z.of_nat md - mn)) word digits start = Ok p /\
    length (npw_digits p) = md /\ (npw_start p <= md)%nat /\ reads radix word0 (skipn (npw_start p) (npw_digits p)) /\
    mn <= Z.of_nat (md - npw_start p) /\ (Z.of_nat (md - npw_start p) = mn \/ hd 0 (skipn (npw_start p) (npw_digits p)) <> 0).
Proof.
  intros Hmn Hmd Hw0 HB. destruct NI as (_ & _ & _ & _ & Fd & _).
  induction fuel as [|fuel IH]; intros word digits start L Sm F W D E J.
  - cbn [npw_loop]. replace start with 0%nat in * by lia.
    assert (word = 0). { rewrite Nat.sub_0_r in E. destruct (Z.eq_dec word 0); auto.
      pose proof (num_bound radix _ ltac:(lia) (digits_ok_rev _ _ D)). nia. }
    subst word. rewrite (proj2 (Nat.ltb_ge _ _)) by lia. cbn [negb orb Z.eqb].
    eexists. split; [reflexivity|]. cbn [npw_digits npw_start]. repeat split; auto; try lia.
  - cbn [npw_loop]. destruct ((Z.to_nat (Z.of_nat md - mn) <? start)%nat || negb (word =? 0)) eqn:Q.
    + rewrite (fds_div_rem_spec _ _ word Fd) by lia. cbn [bind].
      assert (Hs : (0 < start)%nat).
      { destruct start; [|lia]. exfalso. rewrite Nat.sub_0_r in E.
        assert (word = 0). { destruct (Z.eq_dec word 0); auto. pose proof (num_bound radix _ ltac:(lia) (digits_ok_rev _ _ D)). nia. }
        subst word. discriminate Q. }
      rewrite check_true by (apply Nat.ltb_lt; auto). cbn zeta.
      assert (Hm : 0 <= word mod radix < radix) by (apply Z.mod_pos_bound; lia).
      rewrite (Z.mod_small (word mod radix) 256) by lia.
      unfold set. rewrite (proj2 (Nat.ltb_lt _ _)) by lia. cbn [bind].
      assert (SK : skipn (start - 1) (upd (start - 1) (word mod radix) digits) = word mod radix :: skipn start digits).
      { destruct start as [|s]; [lia|]. replace (S s - 1)%nat with s by lia. assert (s < length digits)%nat by lia. revert H. clear.
        revert digits. induction s as [|s IH]; intros [|x t] H; cbn [length] in H; try lia; [reflexivity|].
        cbn [upd skipn]. rewrite IH by lia. reflexivity. }
      assert (LU : length (upd (start - 1) (word mod radix) digits) = md).
      { rewrite <- L. clear. generalize (start - 1)%nat. intros s. revert s. induction digits as [|x t IH]; intros [|s]; cbn; auto. }
      pose proof (Z.div_mod word radix ltac:(lia)) as DM.
      apply IH; auto.
      * clear - Sm; lia.
      * clear - F; lia.
      * split; [apply Z.div_pos; clear - W Hr; lia|]. apply Z.div_lt_upper_bound; clear - W Hr; nia.
      * rewrite SK. constructor; auto.
      * rewrite SK. cbn [rev]. rewrite num_app, rev_length, skipn_length, L, num_single, E.
        replace (md - (start - 1))%nat with (1 + (md - start))%nat by (clear - Hs Sm; lia).
        rewrite Nat2Z.inj_add, Z.pow_add_r by lia. change (Z.of_nat 1) with 1. rewrite Z.pow_1_r.
        rewrite DM at 1. ring.
      * rewrite SK. cbn [hd]. destruct (Z.eq_dec word 0) as [->|N].
        { left. rewrite orb_false_r in Q. apply Nat.ltb_lt in Q. lia. }
        right. destruct (Z.eq_dec (word / radix) 0) as [Z0|]; [right|left; auto]. rewrite Z0 in DM. lia.
    + apply orb_false_iff in Q as [Q1 Q2]. apply Nat.ltb_ge in Q1. apply negb_false_iff, Z.eqb_eq in Q2. subst word.
      eexists. split; [reflexivity|]. cbn [npw_digits npw_start]. repeat split; auto; try lia.
Qed.

Lemma npw_new_spec word mn : 0 <= word < B -> 1 <= mn <= dpw ->
  exists p ds, npw_new word radix mn = Ok p /\ npw_width p = Ok (Z.of_nat (length ds)) /\ emits (npw_write be p) ds /\
    reads radix word ds /\ mn <= Z.of_nat (length ds) <= wbits /\ (Z.of_nat (length ds) = mn \/ hd 0 ds <> 0).
Proof.
  intros Hw Hm. unfold npw_new. rewrite check_true by apply np_valid. rewrite Eri. cbn [bind].
  destruct max_digits_spec as (md & Emd & Hmd & Bmd). rewrite Emd. cbn [bind].
  pose proof radix_3 as R3. destruct dpw_facts as (D1 & D2 & D3 & D4).
  assert (Bm : B <= radix ^ md). { eapply Z.le_trans; [apply Bmd|]. apply Z.pow_le_mono_l; lia. }
  assert (dpw < md). { apply Z.nle_gt. intros H. assert (radix ^ md <= radix ^ dpw) by (apply Z.pow_le_mono_r; lia). lia. }
  assert (wbits <= 64) by (destruct wbits_cases as [-> | [-> | ->]]; lia).
  rewrite usize_small by lia. cbn [bind].
  assert (LR : length (repeat 0 (Z.to_nat md)) = Z.to_nat md) by apply repeat_length.
  assert (SK : skipn (Z.to_nat md) (repeat 0 (Z.to_nat md)) = []) by (rewrite <- LR at 1; apply skipn_all).
  destruct (npw_loop_spec (Z.to_nat md) mn word ltac:(lia) ltac:(lia) ltac:(lia)) with
    (fuel := Z.to_nat md) (word := word) (digits := repeat 0 (Z.to_nat md)) (start := Z.to_nat md) as (p & E & L & Sm & RD & M1 & M2);
    auto.
  - rewrite Z2Nat.id by lia. auto.
  - rewrite SK. constructor.
  - rewrite SK, Nat.sub_diag. cbn [rev num Z.of_nat]. rewrite Z.pow_0_r. lia.
  - left. lia.
  - rewrite Z2Nat.id in E by lia. rewrite E.
    exists p, (skipn (npw_start p) (npw_digits p)). split; [reflexivity|]. rewrite skipn_length, L.
    split. { unfold npw_width. rewrite Emd. cbn [bind]. rewrite usize_small by lia. f_equal. lia. }
    split. { eapply emits_ext; [|apply emits_write]. intros w. unfold npw_write, slice_from.
      rewrite (proj2 (Nat.leb_le _ _)) by lia. reflexivity. }
    split; [exact RD|]. split; [lia|exact M2].
Qed.

(** A group has exactly [dpw] digits. *)
Lemma npw_group g : 0 <= g < range ->
  exists p ds, npw_new g radix dpw = Ok p /\ emits (npw_write be p) ds /\ reads radix g ds /\ Z.of_nat (length ds) = dpw.
Proof.
  intros Hg. destruct dpw_facts as (D1 & D2 & D3 & D4).
  destruct (npw_new_spec g dpw) as (p & ds & E & _ & Em & R & L & H); [lia|lia|].
  exists p, ds. split; [exact E|]. split; [exact Em|]. split; [exact R|].
  destruct H as [H|H]; auto. pose proof (reads_lead radix g ds ltac:(lia) R H) as P.
  destruct (Z.eq_dec (Z.of_nat (length ds)) dpw); auto.
  assert (radix ^ dpw <= radix ^ (Z.of_nat (length ds) - 1)) by (apply Z.pow_le_mono_r; lia). lia.
Qed.

Lemma range_pow n : 0 <= n -> radix ^ (dpw * n) = range ^ n.
Proof. intros H. destruct dpw_facts as (D1 & D2 & _). rewrite D2, <- Z.pow_mul_r by lia. reflexivity. Qed.

Lemma write_groups_spec gs : digits_ok range gs ->
  exists ds, emits (write_groups be gs radix dpw) ds /\ reads radix (num range (rev gs)) ds /\
    Z.of_nat (length ds) = dpw * Z.of_nat (length gs).
Proof.
  destruct dpw_facts as (D1 & D2 & D3 & D4).
  induction 1 as [|g t Hg Ht IH].
  - exists []. split; [exact emits_nil|]. split; [split; [constructor|reflexivity]|cbn; lia].
  - destruct (npw_group g Hg) as (p & ds & E & Em & R & L). destruct IH as (es & Em2 & R2 & L2).
    exists (ds ++ es). split; [|split].
    + eapply emits_ext; [|eapply emits_bind; [exact Em|exact Em2]]. intros w. cbn [write_groups]. rewrite E. reflexivity.
    + cbn [rev]. rewrite num_app, rev_length, num_single.
      replace (num range (rev t) + range ^ Z.of_nat (length t) * g) with (g * radix ^ Z.of_nat (length es) + num range (rev t)).
      * apply reads_app; auto; lia.
      * rewrite L2, range_pow by lia. ring.
    + rewrite app_length. cbn [length]. lia.
Qed.

Lemma range_div ws : wf ws -> exists ws', fast_div_by_word_in_place ws range (fast_div_range_per_word ri) = Ok (ws', val ws mod range) /\
  wf ws' /\ val ws' = val ws / range /\ length ws' = length ws.
Proof.
  intros W. destruct dpw_facts as (D1 & D2 & D3 & D4). destruct NI as (_ & _ & _ & _ & _ & F).
  destruct (fast_div_by_word_spec ws range (fast_div_range_per_word ri) W ltac:(lia) F) as (ws' & H). exists ws'. tauto.
Qed.

Lemma trim_spec ws : wf ws -> let t := rev (drop_zeros (rev ws)) in
  wf t /\ val t = val ws /\ (t = [] \/ last t 0 <> 0) /\ (length t <= length ws)%nat.
Proof.
  intros W t. destruct (pop_zeros_spec ws) as (z & E & H). fold t in E, H.
  assert (W2 : wf (t ++ repeat 0 z)) by (rewrite <- E; auto). apply wf_app in W2 as [W2 _].
  split; [auto|]. split; [|split; [auto|]].
  - rewrite E at 1. rewrite val_app, val_repeat0. lia.
  - rewrite E at 1. rewrite app_length. lia.
Qed.

Lemma npm_loop_spec : forall fuel buffer lg m, wf buffer -> buffer <> [] -> last buffer 0 <> 0 -> val buffer < range ^ Z.of_nat m ->
  (m <= fuel)%nat -> (length lg + m <= 16)%nat ->
  exists w gs, npm_loop fuel ri buffer lg = Ok ([w], lg ++ gs) /\ 0 < w < B /\ digits_ok range gs /\
    val buffer = num range gs + range ^ Z.of_nat (length gs) * w.
Proof.
  destruct dpw_facts as (D1 & D2 & D3 & D4).
  induction fuel as [|fuel IH]; intros buffer lg m W N T V F M.
  - replace m with 0%nat in * by lia. exfalso. rewrite Z.pow_0_r in V.
    pose proof (val_top buffer W T). assert (0 < Bn (length buffer - 1)) by apply Bn_pos. lia.
  - cbn [npm_loop]. destruct (1 <? length buffer)%nat eqn:Q.
    + apply Nat.ltb_lt in Q. destruct (range_div buffer W) as (b1 & -> & W1 & V1 & L1). cbn [bind].
      pose proof (val_top buffer W T) as P.
      assert (PB : B <= val buffer). { eapply Z.le_trans; [|exact P]. rewrite <- Bn_1 at 1. apply Bn_le. lia. }
      assert (Hm : (2 <= m)%nat).
      { destruct m as [|[|m]]; [rewrite Z.pow_0_r in V; lia|change (Z.of_nat 1) with 1 in V; rewrite Z.pow_1_r in V; lia|lia]. }
      rewrite check_true by (unfold CHUNK_LEN; apply Nat.ltb_lt; lia). cbn zeta.
      destruct (trim_spec b1 W1) as (W2 & V2 & T2 & L2). cbn zeta in *. set (b2 := rev (drop_zeros (rev b1))) in *.
      assert (Pv : 1 <= val buffer / range) by (apply Z.div_le_lower_bound; lia).
      assert (N2 : b2 <> []). { intros E. rewrite E in V2. cbn [val] in V2. lia. }
      rewrite check_true by (apply Nat.ltb_lt; destruct b2; cbn [length]; [congruence|lia]).
      destruct (IH b2 (lg ++ [val buffer mod range]) (m - 1)%nat) as (w & gs & E & Hw & Hg & Ev); auto.
      * destruct T2; [congruence|auto].
      * rewrite V2, V1. apply Z.div_lt_upper_bound; [lia|]. rewrite <- Z.pow_succ_r by lia.
        replace (Z.succ (Z.of_nat (m - 1))) with (Z.of_nat m) by lia. exact V.
      * lia.
      * rewrite app_length. cbn [length]. lia.
      * exists w, (val buffer mod range :: gs). rewrite E. rewrite <- app_assoc. split; [reflexivity|]. split; [auto|].
        split; [constructor; auto; apply Z.mod_pos_bound; lia|].
        cbn [num length]. rewrite Nat2Z.inj_succ, Z.pow_succ_r by lia. rewrite V2, V1 in Ev.
        rewrite (Z.div_mod (val buffer) range) at 1 by lia. rewrite Ev. ring.
    + apply Nat.ltb_ge in Q. destruct buffer as [|w [|y t]]; [congruence| |cbn in Q; lia].
      exists w, []. rewrite app_nil_r. split; [reflexivity|]. cbn [last] in T. apply wf_cons in W as [Hw _].
      split; [lia|]. split; [constructor|]. cbn. lia.
Qed.

Lemma as_words_facts x : ubig_ok x -> 1 <= uval x ->
  wf (as_words x) /\ val (as_words x) = uval x /\ as_words x <> [] /\ last (as_words x) 0 <> 0 /\
  (forall n, uval x < Bn n -> (length (as_words x) <= n)%nat).
Proof.
  intros H P.
  assert (G : wf (as_words x) /\ val (as_words x) = uval x /\ as_words x <> [] /\ last (as_words x) 0 <> 0).
  { destruct x as [w|b]; cbn [as_words uval ubig_ok] in *.
    - destruct (Z.eqb_spec w 0); [lia|]. repeat split; [repeat constructor; lia|cbn; lia|discriminate|cbn; lia].
    - destruct H as (W & L & T & _). repeat split; auto. intros E. rewrite E in T. cbn in T. lia. }
  destruct G as (G1 & G2 & G3 & G4). repeat split; auto. intros n Hn.
  pose proof (val_top _ G1 G4). destruct (Nat.le_gt_cases (length (as_words x)) n) as [|C]; auto. exfalso.
  assert (Bn n <= Bn (length (as_words x) - 1)) by (apply Bn_le; lia). lia.
Qed.

Lemma range_Bn n : range ^ Z.of_nat n <= Bn n.
Proof. destruct dpw_facts as (D1 & D2 & D3 & D4). unfold Bn. apply Z.pow_le_mono_l. lia. Qed.

Lemma npm_new_spec x : ubig_ok x -> 1 <= uval x < range ^ 16 ->
  exists p ds, npm_new x radix = Ok p /\ npm_width p = Ok (Z.of_nat (length ds)) /\ emits (npm_write be p) ds /\
    reads radix (uval x) ds /\ hd 0 ds <> 0.
Proof.
  intros Hx Hv. destruct dpw_facts as (D1 & D2 & D3 & D4).
  destruct (as_words_facts x Hx) as (W & V & N & T & L); [lia|].
  unfold npm_new. rewrite check_true by apply np_valid. rewrite Eri. cbn [bind]. unfold ubig_to_chunk_buffer.
  pose proof (range_Bn 16) as RB. change (Z.of_nat 16) with 16 in RB.
  rewrite check_true by (unfold CHUNK_LEN; apply Nat.leb_le; apply L; lia). cbn [bind].
  destruct (npm_loop_spec (S CHUNK_LEN) (as_words x) [] 16) as (w & gs & E & Hw & Hg & Ev);
    [exact W|exact N|exact T|rewrite V; apply Hv|unfold CHUNK_LEN; lia|cbn [length]; lia|].
  rewrite E. cbn [bind app]. destruct (npw_new_spec w 1) as (p & ds & Ep & Wp & Em & R & Ld & H); [lia|lia|].
  rewrite Ep. cbn [bind]. destruct (write_groups_spec (rev gs)) as (es & Em2 & R2 & L2); [apply digits_ok_rev; auto|].
  rewrite rev_involutive in R2. rewrite rev_length in L2.
  exists (mkNpMedium p gs radix), (ds ++ es). split; [reflexivity|]. split; [|split; [|split]].
  - unfold npm_width. cbn [npm_radix npm_top npm_low]. rewrite Eri. cbn [bind]. rewrite Wp. cbn [bind].
    assert (Lg : Z.of_nat (length gs) <= 16).
    { apply Z.nlt_ge. intros C. assert (range ^ 16 <= range ^ Z.of_nat (length gs)) by (apply Z.pow_le_mono_r; lia).
      pose proof (num_bound range gs ltac:(lia) Hg). rewrite V in Ev. nia. }
    assert (wbits <= 64) by (destruct wbits_cases as [-> | [-> | ->]]; lia).
    rewrite !usize_small by nia. cbn [bind]. rewrite usize_small by nia. rewrite app_length. f_equal. lia.
  - eapply emits_ext; [|eapply emits_bind; [exact Em|exact Em2]]. intros v. unfold npm_write. cbn [npm_radix npm_top npm_low].
    rewrite Eri. reflexivity.
  - rewrite <- V, Ev. replace (num range gs + range ^ Z.of_nat (length gs) * w) with (w * radix ^ Z.of_nat (length es) + num range gs).
    + apply reads_app; auto; lia.
    + rewrite L2, range_pow by lia. ring.
  - destruct ds as [|d t]; [cbn [length] in Ld; lia|]. cbn [app hd]. destruct H as [H|H]; [|exact H].
    destruct t; [|cbn [length] in H; lia]. destruct R as [_ R]. cbn in R. lia.
Qed.

Lemma chunk_groups_spec : forall n buffer, wf buffer ->
  exists gs b, chunk_groups n ri buffer = Ok (gs, b) /\ digits_ok range gs /\ length gs = n /\ wf b /\
    val buffer = num range gs + range ^ Z.of_nat n * val b /\ (n = 0%nat \/ b = [] \/ last b 0 <> 0).
Proof.
  destruct dpw_facts as (D1 & D2 & D3 & D4).
  induction n as [|n IH]; intros buffer W.
  - exists [], buffer. cbn [chunk_groups num length Z.of_nat]. rewrite Z.pow_0_r. repeat split; auto; [constructor|lia].
  - cbn [chunk_groups]. destruct (range_div buffer W) as (b1 & -> & W1 & V1 & L1). cbn [bind].
    destruct (trim_spec b1 W1) as (W2 & V2 & T2 & L2). cbn zeta in *. set (b2 := rev (drop_zeros (rev b1))) in *.
    destruct (IH b2 W2) as (gs & b & E & Hg & Lg & Wb & Ev & T). rewrite E. cbn [bind].
    eexists _, b. split; [reflexivity|]. split; [constructor; auto; apply Z.mod_pos_bound; lia|].
    split; [cbn [length]; lia|]. split; [auto|]. split.
    + cbn [num]. rewrite Nat2Z.inj_succ, Z.pow_succ_r by lia. rewrite V2, V1 in Ev.
      rewrite (Z.div_mod (val buffer) range) at 1 by lia. rewrite Ev. ring.
    + right. destruct T as [T|T]; auto. destruct n; [|discriminate]. cbn [chunk_groups] in E. injection E as <- <-. exact T2.
Qed.

Lemma as_words_wf x : ubig_ok x -> wf (as_words x) /\ val (as_words x) = uval x.
Proof.
  intros H. destruct (Z.eq_dec (uval x) 0) as [E|E].
  - destruct x as [w|b]; cbn [uval as_words ubig_ok] in *; [subst; cbn; split; [constructor|reflexivity]|].
    split; [apply H|reflexivity].
  - pose proof (uval_nonneg x H). destruct (as_words_facts x H) as (W & V & _); [lia|auto].
Qed.
Lemma as_words_length x n : ubig_ok x -> uval x < Bn n -> (length (as_words x) <= n)%nat.
Proof.
  intros H P. destruct (Z.eq_dec (uval x) 0) as [E|E].
  - destruct x as [w|b]; cbn [uval as_words] in *; [rewrite E; apply Nat.le_0_l|]. pose proof (Large_ge _ H). pose proof B_ge. cbn [uval] in *. lia.
  - pose proof (uval_nonneg x H). destruct (as_words_facts x H) as (_ & _ & _ & _ & L); [lia|auto].
Qed.

Definition CD : Z := dpw * 16.
Lemma CD_pow n : 0 <= n -> radix ^ (CD * n) = range ^ (16 * n).
Proof. intros H. unfold CD. rewrite <- Z.mul_assoc. apply range_pow. lia. Qed.

Lemma write_chunk_spec x : ubig_ok x -> uval x < range ^ 16 ->
  exists ds, emits (fun w => npl_write_chunk be radix w x) ds /\ reads radix (uval x) ds /\ Z.of_nat (length ds) = CD.
Proof.
  intros Hx Hv. destruct dpw_facts as (D1 & D2 & D3 & D4). destruct (as_words_wf x Hx) as (W & V).
  pose proof (range_Bn 16) as RB. change (Z.of_nat 16) with 16 in RB.
  destruct (chunk_groups_spec CHUNK_LEN (as_words x) W) as (gs & b & E & Hg & Lg & Wb & Ev & T).
  rewrite V in Ev. unfold CHUNK_LEN in Ev, Lg, T. change (Z.of_nat 16) with 16 in Ev.
  assert (b = []).
  { destruct T as [T|[T|T]]; [discriminate|auto|]. exfalso. pose proof (val_top b Wb T). pose proof (Bn_pos (length b - 1)).
    pose proof (num_bound range gs ltac:(lia) Hg). assert (0 < range ^ 16) by (apply Z.pow_pos_nonneg; lia). nia. }
  subst b. cbn [val] in Ev. rewrite Z.mul_0_r, Z.add_0_r in Ev.
  destruct (write_groups_spec (rev gs)) as (ds & Em & R & L); [apply digits_ok_rev; auto|].
  rewrite rev_involutive in R. rewrite rev_length, Lg in L.
  exists ds. split; [|split].
  - eapply emits_ext; [|exact Em]. intros w. unfold npl_write_chunk. rewrite Eri. cbn [bind]. unfold ubig_to_chunk_buffer.
    rewrite check_true by (unfold CHUNK_LEN; apply Nat.leb_le; apply as_words_length; auto; lia). cbn [bind].
    rewrite E. reflexivity.
  - rewrite Ev. exact R.
  - unfold CD. lia.
Qed.

(** The powers [range^(16 * 2^i)]. *)
Definition cpow (i : nat) : Z := range ^ (16 * 2 ^ Z.of_nat i).
Definition powers_ok (ps : list ubig) : Prop :=
  forall i p, nth_error ps i = Some p -> ubig_ok p /\ uval p = cpow i.

Lemma cpow_S i : cpow (S i) = cpow i * cpow i.
Proof.
  unfold cpow. rewrite <- Z.pow_add_r by lia. f_equal. rewrite Nat2Z.inj_succ, Z.pow_succ_r by lia. ring.
Qed.
Lemma cpow_0 : cpow 0 = range ^ 16. Proof. reflexivity. Qed.
Lemma cpow_pos i : 1 < cpow i.
Proof. destruct dpw_facts as (D1 & D2 & D3 & D4). unfold cpow. apply Z.pow_gt_1; [lia|]. assert (0 < 2 ^ Z.of_nat i) by (apply Z.pow_pos_nonneg; lia). lia. Qed.
Lemma cpow_CD i : cpow i = radix ^ (CD * 2 ^ Z.of_nat i).
Proof. rewrite CD_pow; [reflexivity|]. apply Z.pow_nonneg. lia. Qed.

Lemma big_chunk_spec ps : powers_ok ps -> forall i x, (i <= length ps)%nat -> ubig_ok x -> uval x < cpow i ->
  exists ds, emits (fun w => npl_write_big_chunk be ps radix w i x) ds /\ reads radix (uval x) ds /\
    Z.of_nat (length ds) = CD * 2 ^ Z.of_nat i.
Proof.
  intros Hp. destruct dpw_facts as (D1 & D2 & D3 & D4). induction i as [|i IH]; intros x Hi Hx Hv.
  - destruct (write_chunk_spec x Hx Hv) as (ds & H1 & H2 & H3). exists ds. cbn [npl_write_big_chunk]. split; [exact H1|].
    split; [exact H2|]. cbn. lia.
  - destruct (nth_error ps i) as [p|] eqn:E. 2:{ apply nth_error_None in E. lia. }
    destruct (Hp i p E) as [Op Vp]. pose proof (cpow_pos i) as PP. pose proof (uval_nonneg x Hx) as NN.
    destruct (ubig_div_rem_vr_yields x p Hx Op) as [_ Y]. rewrite Vp in Y. destruct Y as (q & r & Ed & Hq & Hr' & Vq & Vr); [lia|].
    rewrite cpow_S in Hv.
    destruct (IH q) as (ds & M1 & R1 & L1); [lia|auto|rewrite Vq; apply Z.div_lt_upper_bound; lia|].
    destruct (IH r) as (es & M2 & R2 & L2); [lia|auto|rewrite Vr; apply Z.mod_pos_bound; lia|].
    exists (ds ++ es). split; [|split].
    + eapply emits_ext; [|eapply emits_bind; [exact M1|exact M2]]. intros w. cbn [npl_write_big_chunk]. unfold get. rewrite E. cbn [bind].
      rewrite Ed. reflexivity.
    + replace (uval x) with (uval q * radix ^ Z.of_nat (length es) + uval r).
      * apply reads_app; auto; lia.
      * rewrite L2, <- cpow_CD, Vq, Vr. pose proof (Z.div_mod (uval x) (cpow i)). lia.
    + rewrite app_length, Nat2Z.inj_succ, Z.pow_succ_r by lia. lia.
Qed.

(** A list of chunks in the order of writing. *)
Definition chunk_ok (m : nat) (c : nat * ubig) : Prop := (fst c <= m)%nat /\ ubig_ok (snd c) /\ uval (snd c) < cpow (fst c).
Fixpoint csize (l : list (nat * ubig)) : Z :=
  match l with [] => 0 | (i, _) :: t => 2 ^ Z.of_nat i + csize t end.
Fixpoint cval (l : list (nat * ubig)) : Z :=
  match l with [] => 0 | (i, x) :: t => uval x * radix ^ (CD * csize t) + cval t end.

Lemma csize_nonneg l : 0 <= csize l.
Proof. induction l as [|[i x] t IH]; cbn [csize]; [lia|]. assert (0 < 2 ^ Z.of_nat i) by (apply Z.pow_pos_nonneg; lia). lia. Qed.
Lemma csize_app l1 l2 : csize (l1 ++ l2) = csize l1 + csize l2.
Proof. induction l1 as [|[i x] t IH]; cbn [csize app]; lia. Qed.
Lemma csize_rev l : csize (rev l) = csize l.
Proof. induction l as [|[i x] t IH]; cbn [csize rev]; [reflexivity|]. rewrite csize_app, IH. cbn [csize]. lia. Qed.
Lemma cval_snoc l i x : cval (l ++ [(i, x)]) = cval l * cpow i + uval x.
Proof.
  destruct dpw_facts as (D1 & D2 & D3 & D4).
  assert (HCD : 0 < CD) by (unfold CD; lia).
  induction l as [|[j y] t IH]; cbn [cval app csize]; [rewrite Z.mul_0_r, Z.pow_0_r; lia|].
  rewrite IH, csize_app. cbn [csize]. rewrite Z.add_0_r, Z.mul_add_distr_l, Z.pow_add_r.
  - rewrite <- cpow_CD. ring.
  - pose proof (csize_nonneg t). nia.
  - assert (0 < 2 ^ Z.of_nat i) by (apply Z.pow_pos_nonneg; lia). nia.
Qed.

Lemma npl_write_loop_spec ps l : powers_ok ps -> Forall (chunk_ok (length ps)) l ->
  exists ds, emits (npl_write_loop be ps radix l) ds /\ reads radix (cval l) ds /\ Z.of_nat (length ds) = CD * csize l.
Proof.
  intros Hp. induction 1 as [|[i x] t Hc Ht IH].
  - exists []. split; [exact emits_nil|]. split; [split; [constructor|reflexivity]|]. cbn [csize length]. lia.
  - destruct Hc as (C1 & C2 & C3). cbn [fst snd] in *. destruct (big_chunk_spec ps Hp i x C1 C2 C3) as (ds & M1 & R1 & L1).
    destruct IH as (es & M2 & R2 & L2). exists (ds ++ es). split; [|split].
    + eapply emits_ext; [|eapply emits_bind; [exact M1|exact M2]]. reflexivity.
    + cbn [cval]. rewrite <- L2. apply reads_app; auto. lia.
    + rewrite app_length. cbn [csize]. lia.
Qed.

Lemma npl_split_spec m : forall ps x chunks, powers_ok (rev ps) -> (length ps <= m)%nat -> ubig_ok x -> 1 <= uval x < cpow (length ps) ->
  exists x' new, npl_split ps x chunks = Ok (x', chunks ++ new) /\ ubig_ok x' /\ 1 <= uval x' < cpow 0 /\
    Forall (chunk_ok m) new /\ uval x = uval x' * radix ^ (CD * csize new) + cval (rev new).
Proof.
  induction ps as [|p ps IH]; intros x chunks Hp Hm Hx Hv.
  - exists x, []. rewrite app_nil_r. cbn [npl_split rev cval csize]. rewrite Z.mul_0_r, Z.pow_0_r.
    split; [reflexivity|]. split; [exact Hx|]. split; [exact Hv|]. split; [constructor|lia].
  - cbn [npl_split]. cbn [rev] in Hp. cbn [length] in *.
    destruct (Hp (length ps) p) as [Op Vp].
    { rewrite nth_error_app2 by (rewrite rev_length; lia). rewrite rev_length, Nat.sub_diag. reflexivity. }
    assert (Hp' : powers_ok (rev ps)).
    { intros i q E. apply Hp. rewrite nth_error_app1; auto. apply nth_error_Some. congruence. }
    rewrite ubig_le_spec, Vp by auto. cbn [bind]. pose proof (cpow_pos (length ps)) as PP.
    destruct (Z.leb_spec (cpow (length ps)) (uval x)) as [G|G].
    + destruct (ubig_div_rem_vr_yields x p Hx Op) as [_ Y]. rewrite Vp in Y. destruct Y as (q & r & -> & Hq & Hr' & Vq & Vr); [lia|].
      cbn [bind]. rewrite cpow_S in Hv.
      destruct (IH q (chunks ++ [(length ps, r)])) as (x' & new & -> & Ox & Vx & Fn & En); auto; [lia| |].
      { rewrite Vq. split; [apply Z.div_le_lower_bound; lia|apply Z.div_lt_upper_bound; lia]. }
      exists x', ((length ps, r) :: new). rewrite <- app_assoc. split; [reflexivity|]. split; [auto|]. split; [auto|].
      split.
      { constructor; auto. split; cbn [fst snd]; [lia|]. split; auto. rewrite Vr. apply Z.mod_pos_bound. lia. }
      cbn [rev]. rewrite cval_snoc. cbn [csize]. pose proof (Z.div_mod (uval x) (cpow (length ps)) ltac:(lia)) as DM.
      rewrite <- Vr, <- Vq, En in DM. rewrite DM.
      destruct dpw_facts as (D1 & _). pose proof (csize_nonneg new). assert (0 < 2 ^ Z.of_nat (length ps)) by (apply Z.pow_pos_nonneg; lia).
      rewrite (Z.mul_add_distr_l CD), Z.pow_add_r by (unfold CD; nia). rewrite <- cpow_CD. ring.
    + apply IH; auto; lia.
Qed.

Lemma ulen_facts x : ubig_ok x -> 1 <= uval x -> 1 <= ulen x <= MAX_LEN /\ B ^ (ulen x - 1) <= uval x < B ^ ulen x.
Proof.
  intros H P. pose proof MAX_LEN_ge. pose proof B_ge. destruct x as [w|b]; cbn [ulen uval ubig_ok] in *.
  - rewrite Z.sub_diag, Z.pow_0_r, Z.pow_1_r. lia.
  - destruct H as (W & L & T & L2 & _). unfold blen, len in *. pose proof (val_top _ W T) as P1. pose proof (val_bound _ W) as P2.
    unfold Bn in *. rewrite Nat2Z.inj_sub in P1 by lia. split; [lia|]. split; [|apply P2]. exact P1.
Qed.

Lemma powers_ok_snoc ps p : powers_ok ps -> ubig_ok p -> uval p = cpow (length ps) -> powers_ok (ps ++ [p]).
Proof.
  intros H O V i q E. destruct (Nat.lt_ge_cases i (length ps)).
  - rewrite nth_error_app1 in E by auto. apply H; auto.
  - rewrite nth_error_app2 in E by auto. destruct (i - length ps)%nat as [|k] eqn:K; [|destruct k; discriminate].
    cbn in E. injection E as <-. replace i with (length ps) by lia. auto.
Qed.

Lemma range_sqrt : B <= range * range.
Proof.
  destruct dpw_facts as (D1 & D2 & D3 & D4). pose proof B_ge.
  assert (radix <= range). { rewrite D2. rewrite <- (Z.pow_1_r radix) at 1. apply Z.pow_le_mono_r; lia. }
  nia.
Qed.
Lemma cpow_B i : B ^ (2 ^ Z.of_nat i) <= cpow i.
Proof.
  pose proof range_sqrt as SQ. pose proof B_ge. destruct dpw_facts as (D1 & D2 & D3 & D4).
  assert (0 < 2 ^ Z.of_nat i) by (apply Z.pow_pos_nonneg; lia).
  apply Z.le_trans with ((range * range) ^ 2 ^ Z.of_nat i); [apply Z.pow_le_mono_l; lia|].
  replace (range * range) with (range ^ 2) by ring. rewrite <- Z.pow_mul_r by lia. unfold cpow. apply Z.pow_le_mono_r; lia.
Qed.

Lemma npl_powers_loop_spec number : ubig_ok number -> 1 <= uval number ->
  forall fuel prev ps, powers_ok (ps ++ [prev]) -> uval prev <= uval number ->
  (length (as_words number) < fuel + length ps)%nat ->
  exists ps' p, npl_powers_loop fuel number prev (ps ++ [prev]) = Ok (ps' ++ [p]) /\ powers_ok (ps' ++ [p]) /\
    uval p <= uval number < uval p * uval p.
Proof.
  intros On Pn. destruct (ulen_facts number On Pn) as (Ln & Lv). pose proof B_ge as HB.
  induction fuel as [|fuel IH]; intros prev ps Hp Hle F.
  - exfalso. destruct (Hp (length ps) prev) as [Op Vp].
    { rewrite nth_error_app2, Nat.sub_diag by lia. reflexivity. }
    destruct (as_words_wf number On) as (W & V). pose proof (val_bound _ W) as Hb. rewrite V in Hb.
    pose proof (cpow_B (length ps)) as CB. unfold Bn in Hb.
    assert (Z.of_nat (length (as_words number)) <= 2 ^ Z.of_nat (length ps)).
    { assert (Z.of_nat (length ps) < 2 ^ Z.of_nat (length ps)) by (apply Z.pow_gt_lin_r; lia). lia. }
    assert (B ^ Z.of_nat (length (as_words number)) <= B ^ 2 ^ Z.of_nat (length ps)) by (apply Z.pow_le_mono_r; lia). lia.
  - destruct (Hp (length ps) prev) as [Op Vp].
    { rewrite nth_error_app2, Nat.sub_diag by lia. reflexivity. }
    pose proof (cpow_pos (length ps)) as CP. destruct (ulen_facts prev Op ltac:(lia)) as (Lp & LVp).
    cbn [npl_powers_loop]. pose proof MAX_LEN_facts as ML.
    assert (U : 2 * MAX_LEN < 2 ^ ubits). { destruct wbits_cases as [W | [W | W]]; rewrite W in ML; lia. }
    rewrite usize_chk_ok by lia. cbn [bind]. rewrite usize_chk_ok by lia. cbn [bind].
    destruct (Z.ltb_spec (ulen number) (2 * ulen prev - 1)) as [G|G].
    + exists ps, prev. split; [reflexivity|]. split; [exact Hp|]. split; [exact Hle|].
      eapply Z.lt_le_trans; [apply Lv|]. apply Z.le_trans with (B ^ (ulen prev - 1) * B ^ (ulen prev - 1)).
      * rewrite <- Z.pow_add_r by lia. apply Z.pow_le_mono_r; lia.
      * assert (0 <= B ^ (ulen prev - 1)) by (apply Z.pow_nonneg; lia). apply Z.mul_le_mono_nonneg; lia.
    + assert (EV : exists k, MAX_LEN = 2 * k).
      { exists (MAX_LEN / 2). pose proof (Z.div_mod MAX_LEN 2). lia. }
      destruct EV as (k & EV).
      destruct (yields_returns _ _ (ubig_mul_rr_yields prev prev Op Op)) as (new & -> & On' & Vn).
      { apply Z.lt_le_trans with (B ^ ulen prev * B ^ ulen prev).
        - assert (0 <= uval prev) by lia. apply Z.mul_lt_mono_nonneg; lia.
        - rewrite <- Z.pow_add_r by lia. unfold MAXV. rewrite Z.pow_mul_r by (pose proof wbits_ge; lia). fold B. apply Z.pow_le_mono_r; lia. }
      cbn [bind]. rewrite ubig_lt_spec by auto. cbn [bind]. rewrite Vn.
      destruct (Z.ltb_spec (uval number) (uval prev * uval prev)) as [G2|G2].
      * exists ps, prev. split; [reflexivity|]. split; [exact Hp|]. lia.
      * apply (IH new (ps ++ [prev])).
        { apply powers_ok_snoc; auto. rewrite Vn, app_length. cbn [length]. rewrite Nat.add_1_r, cpow_S, Vp. reflexivity. }
        { lia. }
        { rewrite app_length. cbn [length]. lia. }
Qed.

End NonPower.
End FmtProofs.
