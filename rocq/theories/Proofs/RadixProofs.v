(** Radix tables and digit characters (src/radix.rs). *)
From Verif Require Import Model.Base Model.Words Model.FastDivide Model.Radix Spec.Val Spec.Digits Spec.Text
  Proofs.Basics Proofs.FastDivideProofs Proofs.DivWordProofs Proofs.BufferProofs.
From Coq Require Import Lia.

Section Radix.
Context {A : Arch} {AOK : ArchOk A}.

Lemma usize_small z : 0 <= z < 65536 -> usize_chk z = Ok z.
Proof.
  intros H. unfold usize_chk, checked. rewrite (proj2 (Z.leb_le _ _)), (proj2 (Z.ltb_lt _ _)); [reflexivity| |lia].
  apply Z.lt_le_trans with (2 ^ 16); [lia|]. apply Z.pow_le_mono_r; [lia|]. destruct ubits_cases as [-> | [-> | ->]]; lia.
Qed.

Lemma range_loop_spec radix : 2 <= radix -> forall fuel d r, 0 <= d -> r = radix ^ d -> r < B -> wbits < d + Z.of_nat fuel ->
  exists d', range_loop fuel radix d r = Ok (d', radix ^ d') /\ d <= d' < wbits /\ radix ^ d' < B <= radix ^ d' * radix.
Proof.
  intros Hr. pose proof wbits_cases as Wc.
  assert (P : forall d, 0 <= d -> radix ^ d < B -> d < wbits).
  { intros d Hd H. apply Z.nle_gt. intros H1. apply (Z.lt_irrefl B). eapply Z.le_lt_trans; [|apply H]. unfold B.
    apply Z.le_trans with (2 ^ d); [apply Z.pow_le_mono_r; lia|apply Z.pow_le_mono_l; lia]. }
  induction fuel as [|fuel IH]; intros d r Hd -> Hb Hf.
  - specialize (P d Hd Hb). lia.
  - cbn [range_loop]. pose proof (P d Hd Hb). destruct (Z.ltb_spec (radix ^ d * radix) B) as [C|C].
    + rewrite usize_small by lia. cbn [bind].
      destruct (IH (d + 1) (radix ^ d * radix)) as (d' & -> & H1 & H2); [lia| |auto|lia|].
      { rewrite Z.pow_add_r, Z.pow_1_r by lia. reflexivity. }
      exists d'. split; [auto|]. split; [lia|auto].
    + exists d. repeat split; auto; lia.
Qed.

(** What the table holds for a power of two. *)
Definition p2_info (radix lg : Z) (ri : RadixInfo) : Prop :=
  is_pow2 radix = true /\ radix = 2 ^ lg /\ 1 <= lg <= 5 /\ z_tz radix = lg /\ digits_per_word ri = wbits / lg /\
  fds_ok (fast_div_radix ri) radix.

(** And for the other radixes. *)
Definition np_info (radix : Z) (ri : RadixInfo) : Prop :=
  is_pow2 radix = false /\ 1 <= digits_per_word ri < wbits /\
  range_per_word ri = radix ^ digits_per_word ri /\ range_per_word ri < B <= range_per_word ri * radix /\
  fds_ok (fast_div_radix ri) radix /\
  fdn_ok (fast_div_range_per_word ri) (range_per_word ri * 2 ^ leading_zeros_w (range_per_word ri)).

Lemma is_radix_valid_iff r : is_radix_valid r = true <-> 2 <= r <= 36.
Proof. unfold is_radix_valid, MAX_RADIX. rewrite andb_true_iff, !Z.leb_le. tauto. Qed.
Lemma is_radix_invalid r : ~ 2 <= r <= 36 -> is_radix_valid r = false.
Proof. intros H. destruct (is_radix_valid r) eqn:E; auto. apply is_radix_valid_iff in E. tauto. Qed.

Lemma radix_cases r : 2 <= r <= 36 ->
  (is_pow2 r = true /\ exists lg, r = 2 ^ lg /\ 1 <= lg <= 5 /\ z_tz r = lg) \/ is_pow2 r = false.
Proof.
  intros H. destruct (is_pow2 r) eqn:E; [left; split; [auto|]|right; auto].
  assert (r = 2 \/ r = 4 \/ r = 8 \/ r = 16 \/ r = 32) as [-> | [-> | [-> | [-> | ->]]]].
  { assert (In r (map Z.of_nat (seq 2 35))) as I.
    { apply in_map_iff. exists (Z.to_nat r). split; [lia|]. apply in_seq. lia. }
    cbn in I. repeat (destruct I as [<-|I]; [first [discriminate|lia]|]). destruct I. }
  1: exists 1. 2: exists 2. 3: exists 3. 4: exists 4. 5: exists 5. all: repeat split; lia.
Qed.

Lemma radix_info_spec r : 2 <= r <= 36 ->
  exists ri, radix_info r = Ok ri /\ ((exists lg, p2_info r lg ri) \/ np_info r ri).
Proof.
  intros H. unfold radix_info. rewrite check_true by (apply is_radix_valid_iff; auto). unfold for_radix. pose proof B_ge.
  destruct (fds_new_spec r) as (f & -> & Hf); [lia|]. cbn [bind].
  destruct (radix_cases r H) as [(E & lg & E1 & E2 & E3) | E]; rewrite E.
  - eexists. split; [reflexivity|]. left. exists lg. unfold p2_info. cbn [digits_per_word fast_div_radix]. rewrite E3. auto 10.
  - destruct (range_loop_spec r ltac:(lia) (S (Z.to_nat wbits)) 0 1) as (d & -> & D1 & D2); [lia|reflexivity|lia| |].
    { pose proof wbits_ge. lia. }
    cbn [bind]. destruct (fdn_new_norm (r ^ d)) as (g & -> & Hg); [split; [apply Z.pow_pos_nonneg; lia|lia]|].
    cbn [bind]. eexists. split; [reflexivity|]. right. unfold np_info. cbn [digits_per_word range_per_word fast_div_radix fast_div_range_per_word].
    split; [auto|]. split; [|auto 10]. destruct (Z.eq_dec d 0) as [->|]; [|lia]. rewrite Z.pow_0_r in D2. lia.
Qed.

Lemma radix_info_np r : 2 <= r <= 36 -> is_pow2 r = false -> exists ri, radix_info r = Ok ri /\ np_info r ri.
Proof.
  intros H E. destruct (radix_info_spec r H) as (ri & H1 & [(lg & H2)|H2]); [|eauto]. destruct H2 as [H2 _]. congruence.
Qed.
Lemma radix_info_p2 r : 2 <= r <= 36 -> is_pow2 r = true -> exists ri lg, radix_info r = Ok ri /\ p2_info r lg ri.
Proof.
  intros H E. destruct (radix_info_spec r H) as (ri & H1 & [(lg & H2)|H2]); [eauto|]. destruct H2 as [H2 _]. congruence.
Qed.

Lemma digit_from_spec c r d : 2 <= r <= 36 -> (digit_from_utf8_byte c r = Some d <-> digit_char c d /\ 0 <= d < r).
Proof.
  intros Hr. unfold digit_from_utf8_byte, digit_char.
  destruct (Z.leb_spec 48 c), (Z.leb_spec c 57), (Z.leb_spec 97 c), (Z.leb_spec c 122), (Z.leb_spec 65 c), (Z.leb_spec c 90);
    cbn [andb]; try (split; [discriminate|lia]); try lia;
    match goal with |- context[?x <? r] => destruct (Z.ltb_spec x r) end;
    (split; [first [discriminate | intros E; injection E as <-; lia]|]); intros; try (f_equal; lia); lia.
Qed.

End Radix.
