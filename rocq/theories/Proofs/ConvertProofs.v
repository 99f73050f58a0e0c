(** Conversions from and to bytes and primitive integers. *)
From Verif Require Import Model.Base Model.Words Model.Memory Model.Buffer Model.UBig Model.IBig
  Model.Convert Spec.Val Spec.Num Spec.Prim Spec.Digits Proofs.Basics Proofs.FastDivideProofs Proofs.DivProofs Proofs.BufferProofs
  Proofs.AddOpsProofs Proofs.DigitsProofs.
From Coq Require Import Lia.

Section ConvertProofs.
Context {A : Arch} {AOK : ArchOk A}.

Lemma WORD_BYTES_facts : (2 <= WORD_BYTES <= 8)%nat /\ wbits = 8 * Z.of_nat WORD_BYTES.
Proof. unfold WORD_BYTES. destruct wbits_cases as [-> | [-> | ->]]; vm_compute; repeat split; lia. Qed.
Lemma WORD_BYTES_ge : (2 <= WORD_BYTES)%nat. Proof. apply WORD_BYTES_facts. Qed.

Lemma pow256 n : 256 ^ Z.of_nat n = 2 ^ (8 * Z.of_nat n).
Proof. change 256 with (2 ^ 8). rewrite <- Z.pow_mul_r by lia. reflexivity. Qed.
Lemma B_256 : B = 256 ^ Z.of_nat WORD_BYTES.
Proof. rewrite pow256, B_is_pow. f_equal. apply WORD_BYTES_facts. Qed.

Lemma from_le_num bs : prim_from_le_bytes bs = num 256 bs.
Proof. induction bs as [|b t IH]; cbn [prim_from_le_bytes num]; [|rewrite IH]; reflexivity. Qed.
Lemma from_be_num bs : prim_from_be_bytes bs = num 256 (rev bs).
Proof. apply from_le_num. Qed.

Lemma to_le_length n x : length (prim_to_le_bytes n x) = n.
Proof. revert x; induction n as [|n IH]; intros x; cbn [prim_to_le_bytes length]; auto. Qed.
Lemma to_le_ok n x : digits_ok 256 (prim_to_le_bytes n x).
Proof.
  revert x; induction n as [|n IH]; intros x; cbn [prim_to_le_bytes]; constructor; [|apply IH].
  apply Z.mod_pos_bound; lia.
Qed.
Lemma to_le_num n x : 0 <= x < 256 ^ Z.of_nat n -> num 256 (prim_to_le_bytes n x) = x.
Proof.
  revert x; induction n as [|n IH]; intros x H; cbn [prim_to_le_bytes num].
  - rewrite Z.pow_0_r in H. lia.
  - rewrite Nat2Z.inj_succ, Z.pow_succ_r in H by lia. rewrite IH; dlia.
Qed.
Lemma to_le_num_word w : 0 <= w < B -> num 256 (prim_to_le_bytes WORD_BYTES w) = w.
Proof. rewrite B_256. apply to_le_num. Qed.

Lemma num_word bs : digits_ok 256 bs -> (length bs <= WORD_BYTES)%nat -> 0 <= num 256 bs < B.
Proof.
  intros H L. pose proof (num_bound 256 bs ltac:(lia) H) as Hb. rewrite B_256.
  assert (256 ^ Z.of_nat (length bs) <= 256 ^ Z.of_nat WORD_BYTES) by (apply Z.pow_le_mono_r; lia). lia.
Qed.

Lemma partial_le_spec bs : (length bs <= WORD_BYTES)%nat -> word_from_le_bytes_partial bs = Ok (num 256 bs).
Proof.
  intros L. unfold word_from_le_bytes_partial. rewrite check_true by (apply Nat.leb_le; auto).
  rewrite from_le_num, num_app, num_repeat0. f_equal. lia.
Qed.
Lemma partial_be_spec bs : (length bs <= WORD_BYTES)%nat -> word_from_be_bytes_partial bs = Ok (num 256 (rev bs)).
Proof.
  intros L. unfold word_from_be_bytes_partial. rewrite check_true by (apply Nat.leb_le; auto).
  rewrite from_be_num, rev_app_distr, rev_repeat, num_app, num_repeat0. f_equal. lia.
Qed.

Lemma le_chunks_spec fuel : forall bs ws c k, digits_ok 256 bs -> (length bs <= fuel)%nat ->
  (length bs <= k * WORD_BYTES)%nat -> len ws + Z.of_nat k <= c ->
  exists ws', le_chunks fuel bs (mkBuffer ws c) = Ok (mkBuffer (ws ++ ws') c) /\ wf ws' /\
    val ws' = num 256 bs /\ (length ws' <= k)%nat.
Proof.
  pose proof WORD_BYTES_ge as H2.
  induction fuel as [|fuel IH]; intros bs ws c k Hb Lf Lk Hc; cbn [le_chunks].
  - assert (bs = []) as -> by (apply length_zero_iff_nil; lia). simpl length.
    rewrite (proj2 (Nat.ltb_lt _ _)) by lia. exists []. rewrite app_nil_r. repeat split; auto using wf_nil; simpl; lia.
  - destruct (Nat.ltb_spec (length bs) WORD_BYTES) as [C|C].
    + destruct bs as [|b t]; [exists []; rewrite app_nil_r; repeat split; auto using wf_nil; simpl; lia|].
      assert (1 <= k)%nat as Hk by (simpl in Lk; lia).
      rewrite partial_le_spec by lia. cbn [bind]. rewrite push_spec by lia.
      exists [num 256 (b :: t)]. split; [reflexivity|]. rewrite val_single. repeat split; auto.
      constructor; [apply num_word; auto; lia|constructor].
    + assert (1 <= k)%nat as Hk by (destruct k; simpl in Lk; lia).
      destruct k as [|k]; [lia|]. 
      destruct (list_split WORD_BYTES bs C) as (x & y & -> & Lx & Ly & -> & ->).
      apply digits_ok_app in Hb as [Hx Hy]. rewrite app_length in *.
      rewrite from_le_num, push_spec by lia. cbn [bind].
      destruct (IH y (ws ++ [num 256 x]) c k) as (ws' & E & W' & V' & L'); auto; [lia|lia| |].
      { rewrite len_app. change (len [num 256 x]) with 1. lia. }
      exists (num 256 x :: ws'). rewrite E, <- app_assoc. split; [reflexivity|].
      split; [apply wf_cons; split; [apply num_word; auto; lia|auto]|]. split; [|simpl; lia].
      rewrite num_app, Lx, <- B_256. cbn [val]. rewrite V'. reflexivity.
Qed.

Lemma be_chunks_spec fuel : forall bs ws c k, digits_ok 256 bs -> (length bs <= fuel)%nat ->
  (length bs <= k * WORD_BYTES)%nat -> len ws + Z.of_nat k <= c ->
  exists ws', be_chunks fuel bs (mkBuffer ws c) = Ok (mkBuffer (ws ++ ws') c) /\ wf ws' /\
    val ws' = num 256 (rev bs) /\ (length ws' <= k)%nat.
Proof.
  pose proof WORD_BYTES_ge as H2.
  induction fuel as [|fuel IH]; intros bs ws c k Hb Lf Lk Hc; cbn [be_chunks].
  - assert (bs = []) as -> by (apply length_zero_iff_nil; lia). simpl length.
    rewrite (proj2 (Nat.ltb_lt _ _)) by lia. exists []. rewrite app_nil_r. repeat split; auto using wf_nil; simpl; lia.
  - destruct (Nat.ltb_spec (length bs) WORD_BYTES) as [C|C].
    + destruct bs as [|b t]; [exists []; rewrite app_nil_r; repeat split; auto using wf_nil; simpl; lia|].
      assert (1 <= k)%nat as Hk by (simpl in Lk; lia).
      rewrite partial_be_spec by lia. cbn [bind]. rewrite push_spec by lia.
      exists [num 256 (rev (b :: t))]. split; [reflexivity|]. rewrite val_single. repeat split; auto.
      constructor; [|constructor]. apply num_word; [apply digits_ok_rev; auto|rewrite rev_length; lia].
    + assert (1 <= k)%nat as Hk by (destruct k; simpl in Lk; lia).
      destruct k as [|k]; [lia|]. 
      destruct (list_split (length bs - WORD_BYTES) bs ltac:(lia)) as (y & x & E0 & Ly & Lx & -> & ->).
      rewrite E0 in *. apply digits_ok_app in Hb as [Hy Hx]. rewrite app_length in *.
      rewrite from_be_num, push_spec by lia. cbn [bind].
      destruct (IH y (ws ++ [num 256 (rev x)]) c k) as (ws' & E & W' & V' & L'); auto; [lia|lia| |].
      { rewrite len_app. change (len [num 256 (rev x)]) with 1. lia. }
      exists (num 256 (rev x) :: ws'). rewrite E, <- app_assoc. split; [reflexivity|].
      split; [apply wf_cons; split; [apply num_word; [apply digits_ok_rev; auto|rewrite rev_length; lia]|auto]|].
      split; [|simpl; lia].
      rewrite rev_app_distr, num_app, rev_length. replace (length x) with WORD_BYTES by lia.
      rewrite <- B_256. cbn [val]. rewrite V'. reflexivity.
Qed.

Lemma bytes_words n : (WORD_BYTES < n)%nat -> (n <= ((n - 1) / WORD_BYTES + 1) * WORD_BYTES)%nat.
Proof.
  intros H. pose proof WORD_BYTES_ge. pose proof (Nat.div_mod (n - 1) WORD_BYTES ltac:(lia)).
  pose proof (Nat.mod_upper_bound (n - 1) WORD_BYTES ltac:(lia)). nia.
Qed.

(** The largest number of bytes accepted, see [from_le_bytes_large]. *)
Lemma bytes_cap n : (WORD_BYTES < n)%nat ->
  (Z.of_nat ((n - 1) / WORD_BYTES + 1) <= MAX_CAPACITY <-> Z.of_nat n <= MAX_CAPACITY * Z.of_nat WORD_BYTES).
Proof.
  intros H. pose proof WORD_BYTES_ge. pose proof (Nat.div_mod (n - 1) WORD_BYTES ltac:(lia)) as D.
  pose proof (Nat.mod_upper_bound (n - 1) WORD_BYTES ltac:(lia)).
  set (q := ((n - 1) / WORD_BYTES)%nat) in *. set (r := ((n - 1) mod WORD_BYTES)%nat) in *. clearbody q r.
  split; intros; nia.
Qed.

Lemma from_le_bytes_yields bs : digits_ok 256 bs -> Z.of_nat (length bs) <= MAX_CAPACITY * Z.of_nat WORD_BYTES ->
  yields (from_le_bytes bs) (num 256 bs).
Proof.
  intros Hb HL. unfold from_le_bytes. destruct (Nat.leb_spec (length bs) WORD_BYTES) as [C|C].
  - rewrite partial_le_spec by auto. cbn [bind]. apply yields_word. apply num_word; auto.
  - unfold from_le_bytes_large. rewrite check_true by (apply Nat.ltb_lt; auto).
    apply bytes_cap in HL; auto. pose proof (bytes_words _ C) as HW.
    destruct (allocate_spec (Z.of_nat ((length bs - 1) / WORD_BYTES + 1))) as (c & -> & Hc & _); [lia|].
    set (k := ((length bs - 1) / WORD_BYTES + 1)%nat) in *. clearbody k. cbn [bind].
    destruct (le_chunks_spec (length bs) bs [] c k) as (ws & -> & W & V & L); auto; try (unfold len; simpl; lia).
    cbn [bind app]. eapply yields_eq; [apply from_buffer_yields|auto].
    split; cbn [words cap]; auto. unfold blen, len. cbn [words]. lia.
Qed.

Lemma from_le_bytes_too_long bs : MAX_CAPACITY * Z.of_nat WORD_BYTES < Z.of_nat (length bs) ->
  from_le_bytes bs = Panic NumberTooLarge.
Proof.
  intros HL. pose proof MAX_LEN_ge. rewrite MAX_CAPACITY_eq in HL. pose proof WORD_BYTES_ge.
  assert (WORD_BYTES < length bs)%nat as C by nia.
  unfold from_le_bytes. rewrite (proj2 (Nat.leb_gt _ _)) by auto.
  unfold from_le_bytes_large. rewrite check_true by (apply Nat.ltb_lt; auto).
  rewrite allocate_too_large; [reflexivity|]. pose proof (bytes_cap _ C). rewrite MAX_CAPACITY_eq in *. lia.
Qed.

Lemma from_be_bytes_yields bs : digits_ok 256 bs -> Z.of_nat (length bs) <= MAX_CAPACITY * Z.of_nat WORD_BYTES ->
  yields (from_be_bytes bs) (num 256 (rev bs)).
Proof.
  intros Hb HL. unfold from_be_bytes. destruct (Nat.leb_spec (length bs) WORD_BYTES) as [C|C].
  - rewrite partial_be_spec by auto. cbn [bind]. apply yields_word.
    apply num_word; [apply digits_ok_rev; auto|rewrite rev_length; auto].
  - unfold from_be_bytes_large. rewrite check_true by (apply Nat.ltb_lt; auto).
    apply bytes_cap in HL; auto. pose proof (bytes_words _ C) as HW.
    destruct (allocate_spec (Z.of_nat ((length bs - 1) / WORD_BYTES + 1))) as (c & -> & Hc & _); [lia|].
    set (k := ((length bs - 1) / WORD_BYTES + 1)%nat) in *. clearbody k. cbn [bind].
    destruct (be_chunks_spec (length bs) bs [] c k) as (ws & -> & W & V & L); auto; try (unfold len; simpl; lia).
    cbn [bind app]. eapply yields_eq; [apply from_buffer_yields|auto].
    split; cbn [words cap]; auto. unfold blen, len. cbn [words]. lia.
Qed.

Lemma from_be_bytes_too_long bs : MAX_CAPACITY * Z.of_nat WORD_BYTES < Z.of_nat (length bs) ->
  from_be_bytes bs = Panic NumberTooLarge.
Proof.
  intros HL. pose proof MAX_LEN_ge. rewrite MAX_CAPACITY_eq in HL. pose proof WORD_BYTES_ge.
  assert (WORD_BYTES < length bs)%nat as C by nia.
  unfold from_be_bytes. rewrite (proj2 (Nat.leb_gt _ _)) by auto.
  unfold from_be_bytes_large. rewrite check_true by (apply Nat.ltb_lt; auto).
  rewrite allocate_too_large; [reflexivity|]. pose proof (bytes_cap _ C). rewrite MAX_CAPACITY_eq in *. lia.
Qed.

(** * To bytes *)
(** The bytes of a word up to its highest nonzero byte. *)
Lemma word_bytes_spec w : 0 <= w < B ->
  (skip_bytes w <= WORD_BYTES)%nat /\
  exists bs, prim_to_le_bytes WORD_BYTES w = bs ++ repeat 0 (skip_bytes w) /\
    length bs = (WORD_BYTES - skip_bytes w)%nat /\ digits_ok 256 bs /\ num 256 bs = w /\
    (w <> 0 -> last bs 0 <> 0).
Proof.
  intros Hw. pose proof WORD_BYTES_facts as [_ EW].
  assert (0 <= leading_zeros_w w <= wbits /\ w < 2 ^ (wbits - leading_zeros_w w) /\
          (w <> 0 -> 2 ^ (wbits - leading_zeros_w w) <= 2 * w)) as (R & U & Lo).
  { unfold leading_zeros_w, leading_zeros_n. destruct (Z.eq_dec w 0) as [->|N].
    - change (bitlen 0) with 0. pose proof wbits_ge. rewrite Z.sub_0_r, Z.sub_diag. repeat split; try lia.
    - destruct (bitlen_bounds w ltac:(lia)) as [S P].
      replace (wbits - (wbits - bitlen w)) with (bitlen w) by lia.
      assert (bitlen w <= wbits) by (pose proof wbits_ge; apply bitlen_le; [lia|rewrite <- B_is_pow; auto]).
      assert (2 ^ bitlen w = 2 * 2 ^ (bitlen w - 1)) as E2
        by (rewrite <- Z.pow_succ_r by lia; f_equal; lia).
      repeat split; try lia. }
  unfold skip_bytes. set (lz := leading_zeros_w w) in *. clearbody lz.
  set (s := Z.to_nat (lz / 8)).
  assert (Z.of_nat s = lz / 8) as Es by (unfold s; rewrite Z2Nat.id; [reflexivity|]; apply Z.div_pos; lia).
  clearbody s. assert (8 * Z.of_nat s <= lz < 8 * Z.of_nat s + 8) as Rs by (rewrite Es; dlia).
  assert (s <= WORD_BYTES)%nat as Hs by lia. split; [auto|].
  assert (exists m, m = WORD_BYTES - s)%nat as (m & Em) by eauto.
  assert (0 <= w < 256 ^ Z.of_nat m) as Hm.
  { rewrite pow256. split; [lia|]. eapply Z.lt_le_trans; [exact U|]. apply Z.pow_le_mono_r; lia. }
  exists (prim_to_le_bytes m w). rewrite <- Em, to_le_length.
  assert (prim_to_le_bytes WORD_BYTES w = prim_to_le_bytes m w ++ repeat 0 s) as E.
  { apply (num_inj 256); [lia|apply to_le_ok| | |].
    - apply digits_ok_app; split; [apply to_le_ok|apply digits_ok_repeat0; lia].
    - rewrite app_length, repeat_length, !to_le_length. lia.
    - rewrite num_app, num_repeat0, to_le_num_word, to_le_num by auto. lia. }
  split; [exact E|]. split; [auto|]. split; [apply to_le_ok|]. split; [apply to_le_num; auto|].
  intros N. specialize (Lo N). destruct m as [|m].
  - exfalso. rewrite Z.pow_0_r in Hm. lia.
  - destruct (snoc_split (prim_to_le_bytes (S m) w) m (to_le_length (S m) w)) as (r & d & E1 & Lr).
    rewrite E1, last_last. intros ->.
    pose proof (to_le_num (S m) w Hm) as V. rewrite E1, num_app, num_single in V.
    pose proof (to_le_ok (S m) w) as D. rewrite E1 in D. apply digits_ok_app in D as [D _].
    pose proof (num_bound 256 r ltac:(lia) D) as Br. rewrite Lr in Br.
    assert (2 ^ (wbits - lz) <= 2 * w) by auto.
    assert (2 * 256 ^ Z.of_nat m <= 2 ^ (wbits - lz)); [|lia].
    rewrite pow256, <- Z.pow_succ_r by lia. apply Z.pow_le_mono_r; lia.
Qed.

Lemma flat_bytes_num ws : wf ws -> digits_ok 256 (flat_map (prim_to_le_bytes WORD_BYTES) ws) /\
  num 256 (flat_map (prim_to_le_bytes WORD_BYTES) ws) = val ws /\
  length (flat_map (prim_to_le_bytes WORD_BYTES) ws) = (length ws * WORD_BYTES)%nat.
Proof.
  induction ws as [|w t IH]; intros W; cbn [flat_map].
  - repeat split; constructor.
  - apply wf_cons in W as [Hw Ht]. destruct (IH Ht) as (I1 & I2 & I3). repeat split.
    + apply digits_ok_app; split; [apply to_le_ok|auto].
    + rewrite num_app, to_le_num_word, to_le_length, I2, <- B_256 by auto. reflexivity.
    + rewrite app_length, to_le_length, I3. reflexivity.
Qed.

Lemma flat_le_pow (ws : list Z) : 256 ^ Z.of_nat (length ws * WORD_BYTES) = Bn (length ws).
Proof.
  unfold Bn. rewrite B_256, <- Z.pow_mul_r by lia. f_equal. lia.
Qed.

Lemma to_le_bytes_spec u : ubig_ok u -> exists bs, to_le_bytes u = Ok bs /\ digits_ok 256 bs /\
  num 256 bs = uval u /\ (bs = [] \/ last bs 0 <> 0).
Proof.
  destruct u as [w|b]; cbn [ubig_ok uval to_le_bytes].
  - intros Hw. destruct (word_bytes_spec w Hw) as (Hs & bs & E & L & D & V & T).
    rewrite slice_to_Ok by (rewrite to_le_length; lia). rewrite E.
    rewrite firstn_app, L, Nat.sub_diag, <- L, firstn_all. cbn [firstn]. rewrite app_nil_r.
    exists bs. repeat split; auto. destruct (Z.eq_dec w 0) as [->|N]; auto.
    left. destruct (word_bytes_spec 0 Hw) as (_ & bs' & _). clear -L Hs. 
    assert (skip_bytes 0 = WORD_BYTES) as Es.
    { unfold skip_bytes, leading_zeros_w, leading_zeros_n. change (bitlen 0) with 0. rewrite Z.sub_0_r. reflexivity. }
    rewrite Es, Nat.sub_diag in L. apply length_zero_iff_nil; auto.
  - intros (W & L2 & T & _). destruct (words b) as [|w0 t0] eqn:Ew using rev_ind; [simpl in L2; lia|]. clear IHt0.
    rewrite last_last in T. set (w := w0) in *. rename t0 into t.
    assert (wf t /\ 0 <= w < B) as [Wt Hw].
    { apply wf_app in W as [W1 W2]. apply wf_cons in W2. tauto. }
    rewrite app_length in *. simpl length in *. replace (length t + 1 - 1)%nat with (length t) by lia.
    unfold get. rewrite nth_error_app2, Nat.sub_diag by lia. cbn [nth_error bind].
    rewrite slice_to_Ok by (rewrite app_length; lia).
    rewrite firstn_app, Nat.sub_diag, firstn_all. cbn [firstn bind]. rewrite app_nil_r.
    destruct (word_bytes_spec w Hw) as (Hs & bs & E & L & D & V & Tb).
    rewrite slice_to_Ok by (rewrite to_le_length; lia). rewrite E.
    rewrite firstn_app, L, Nat.sub_diag, <- L, firstn_all. cbn [firstn bind]. rewrite app_nil_r.
    destruct (flat_bytes_num t Wt) as (F1 & F2 & F3).
    eexists; split; [reflexivity|]. split; [apply digits_ok_app; auto|]. split.
    + rewrite num_app, F2, F3, V, flat_le_pow, val_app, val_single. reflexivity.
    + right. specialize (Tb T). destruct bs as [|d bs] using rev_ind; [simpl in Tb; lia|].
      rewrite app_assoc, last_last. rewrite last_last in Tb. auto.
Qed.

Lemma rev_flat_map (f : Z -> list Z) ws : rev (flat_map f ws) = flat_map (fun x => rev (f x)) (rev ws).
Proof.
  induction ws as [|w t IH]; [reflexivity|]. cbn [flat_map rev]. rewrite rev_app_distr, IH, flat_map_app.
  cbn [flat_map]. rewrite app_nil_r. reflexivity.
Qed.

Lemma to_be_bytes_rev u bs : ubig_ok u -> to_le_bytes u = Ok bs -> to_be_bytes u = Ok (rev bs).
Proof.
  destruct u as [w|b]; cbn [ubig_ok to_le_bytes to_be_bytes].
  - intros Hw. destruct (word_bytes_spec w Hw) as (Hs & bs' & E & L & _).
    rewrite slice_to_Ok by (rewrite to_le_length; lia). rewrite E.
    rewrite firstn_app, L, Nat.sub_diag, <- L, firstn_all. cbn [firstn]. rewrite app_nil_r. intros [= <-].
    unfold prim_to_be_bytes. rewrite slice_from_Ok by (rewrite rev_length, to_le_length; lia).
    rewrite E, rev_app_distr, rev_repeat, skipn_app, skipn_all2 by (rewrite repeat_length; lia).
    rewrite repeat_length, Nat.sub_diag. reflexivity.
  - intros (W & L2 & T & _). destruct (words b) as [|w0 t0] eqn:Ew using rev_ind; [simpl in L2; lia|]. clear IHt0.
    rename t0 into t, w0 into w.
    assert (wf t /\ 0 <= w < B) as [Wt Hw].
    { apply wf_app in W as [W1 W2]. apply wf_cons in W2. tauto. }
    rewrite app_length in *. simpl length in *. replace (length t + 1 - 1)%nat with (length t) by lia.
    unfold get. rewrite nth_error_app2, Nat.sub_diag by lia. cbn [nth_error bind].
    rewrite slice_to_Ok by (rewrite app_length; lia).
    rewrite firstn_app, Nat.sub_diag, firstn_all. cbn [firstn bind]. rewrite app_nil_r.
    destruct (word_bytes_spec w Hw) as (Hs & bs' & E & L & _).
    rewrite slice_to_Ok by (rewrite to_le_length; lia). rewrite E.
    rewrite firstn_app, L, Nat.sub_diag, <- L, firstn_all. cbn [firstn bind]. rewrite app_nil_r. intros [= <-].
    unfold prim_to_be_bytes. rewrite slice_from_Ok by (rewrite rev_length, to_le_length; lia).
    rewrite E, rev_app_distr, rev_repeat, skipn_app, skipn_all2 by (rewrite repeat_length; lia).
    rewrite repeat_length, Nat.sub_diag. cbn [skipn app bind]. rewrite rev_app_distr, rev_flat_map. reflexivity.
Qed.

(** * Primitive integers *)
Lemma prim_bits_cases tb : prim_bits tb -> tb = 8 \/ tb = 16 \/ tb = 32 \/ tb = 64 \/ tb = 128.
Proof. unfold prim_bits. destruct ubits_cases as [-> | [-> | ->]]; tauto. Qed.

Lemma prim_lt_MAXV tb : prim_bits tb -> 2 ^ tb < MAXV.
Proof.
  intros H. unfold MAXV. pose proof MAX_LEN_ge. pose proof wbits_ge.
  apply Z.pow_lt_mono_r; [lia|nia|]. apply prim_bits_cases in H. nia.
Qed.

Lemma prim_bits_ge tb : prim_bits tb -> 8 <= tb <= 128.
Proof. intros H. apply prim_bits_cases in H. lia. Qed.

Lemma pow256_prim tb : prim_bits tb -> 256 ^ Z.of_nat (Z.to_nat (tb / 8)) = 2 ^ tb.
Proof.
  intros H. rewrite pow256. f_equal. apply prim_bits_cases in H.
  destruct H as [-> | [-> | [-> | [-> | ->]]]]; reflexivity.
Qed.

Lemma ubig_from_unsigned_spec tb x : prim_bits tb -> 0 <= x < 2 ^ tb ->
  exists u, ubig_from_unsigned tb x = Ok u /\ ubig_ok u /\ uval u = x.
Proof.
  intros Ht Hx. unfold ubig_from_unsigned. destruct (Z.ltb_spec x B).
  - exists (Small x). repeat split; cbn; lia.
  - pose proof (prim_lt_MAXV tb Ht). pose proof (prim_bits_ge tb Ht).
    destruct (from_le_bytes_yields (prim_to_le_bytes (Z.to_nat (tb / 8)) x)) as [Y _].
    + apply to_le_ok.
    + rewrite to_le_length, MAX_CAPACITY_eq. pose proof WORD_BYTES_ge. pose proof MAX_LEN_ge.
      rewrite Z2Nat.id by (apply Z.div_pos; lia). assert (tb / 8 <= 16) by dlia. nia.
    + rewrite to_le_num in Y by (rewrite pow256_prim; auto). apply Y. lia.
Qed.

Lemma words_into_bytes_spec ws : forall idx P k, wf ws -> length P = (idx * WORD_BYTES)%nat ->
  (length ws * WORD_BYTES <= k)%nat ->
  exists Q, words_into_bytes idx ws (P ++ repeat 0 k) = Ok (P ++ Q) /\ num 256 Q = val ws.
Proof.
  induction ws as [|w t IH]; intros idx P k W LP LK; cbn [words_into_bytes].
  - exists (repeat 0 k). split; [reflexivity|]. apply num_repeat0.
  - apply wf_cons in W as [Hw Ht]. cbn [length] in LK.
    unfold copy_into. rewrite to_le_length, app_length, repeat_length, LP.
    rewrite (proj2 (Nat.leb_le _ _)) by lia. cbn [bind]. rewrite <- LP.
    rewrite firstn_app, Nat.sub_diag, firstn_all. cbn [firstn]. rewrite app_nil_r.
    rewrite skipn_app, skipn_all2 by lia. cbn [app].
    replace (length P + WORD_BYTES - length P)%nat with WORD_BYTES by lia.
    replace (skipn WORD_BYTES (repeat 0 k)) with (repeat 0 (k - WORD_BYTES)).
    2:{ replace k with (WORD_BYTES + (k - WORD_BYTES))%nat at 2 by lia. rewrite repeat_app, skipn_app, skipn_all2, repeat_length, Nat.sub_diag by (rewrite repeat_length; lia). reflexivity. }
    rewrite app_assoc.
    destruct (IH (S idx) (P ++ prim_to_le_bytes WORD_BYTES w) (k - WORD_BYTES)%nat) as (Q & -> & V); auto.
    + rewrite app_length, to_le_length. lia.
    + lia.
    + exists (prim_to_le_bytes WORD_BYTES w ++ Q). rewrite <- app_assoc. split; [reflexivity|].
      rewrite num_app, to_le_num_word, to_le_length, V, <- B_256 by auto. reflexivity.
Qed.

Lemma unsigned_from_words_spec tb b : prim_bits tb -> ubig_ok (Large b) ->
  unsigned_from_words tb (words b) = Ok (if val (words b) <? 2 ^ tb then Some (val (words b)) else None).
Proof.
  intros Ht Hb. pose proof Hb as (W & L2 & T & _). pose proof (Large_ge b Hb) as HG.
  unfold unsigned_from_words. rewrite check_true by (apply Nat.leb_le; auto).
  set (t_bytes := Z.to_nat (tb / 8)). set (t_words := (t_bytes / WORD_BYTES)%nat).
  assert ((t_words <= 1)%nat /\ tb <= wbits \/
     (2 <= t_words)%nat /\ tb mod wbits = 0 /\ 2 ^ tb = Bn t_words /\ t_bytes = (t_words * WORD_BYTES)%nat) as H.
  { apply prim_bits_cases in Ht. unfold t_words, t_bytes, WORD_BYTES, Bn, B.
    destruct wbits_cases as [E|[E|E]]; destruct Ht as [-> | [-> | [-> | [-> | ->]]]]; rewrite E; clear;
      vm_compute; first [left; split; [repeat constructor|discriminate]|right; repeat split; repeat constructor]. }
  clearbody t_words t_bytes. destruct H as [[H1 H2]|(H1 & H2 & H3 & H4)].
  - rewrite (proj2 (Nat.leb_le t_words 1)) by auto. cbn [orb].
    assert (2 ^ tb <= B) by (unfold B; apply Z.pow_le_mono_r; lia).
    rewrite (proj2 (Z.ltb_ge _ _)) by lia. reflexivity.
  - rewrite (proj2 (Nat.leb_gt t_words 1)) by lia. cbn [orb].
    destruct (Nat.ltb_spec t_words (length (words b))) as [C|C].
    + pose proof (val_top _ W T). pose proof (Bn_le t_words (length (words b) - 1) ltac:(lia)).
      rewrite (proj2 (Z.ltb_ge _ _)) by lia. reflexivity.
    + rewrite check_true by lia. 
      destruct (words_into_bytes_spec (words b) 0 [] t_bytes) as (Q & E & V); auto; [nia|].
      cbn [app] in E. rewrite E. cbn [bind]. rewrite from_le_num, V.
      pose proof (val_bound _ W). pose proof (Bn_le (length (words b)) t_words C).
      rewrite (proj2 (Z.ltb_lt _ _)) by lia. reflexivity.
Qed.

Lemma ubig_try_to_unsigned_spec tb u : prim_bits tb -> ubig_ok u ->
  ubig_try_to_unsigned tb u = Ok (if uval u <? 2 ^ tb then Some (uval u) else None).
Proof.
  intros Ht Hu. destruct u as [w|b]; cbn [ubig_try_to_unsigned uval]; [reflexivity|].
  apply unsigned_from_words_spec; auto.
Qed.

Lemma pow_half tb : 8 <= tb -> 2 ^ tb = 2 * 2 ^ (tb - 1).
Proof. intros H. rewrite <- Z.pow_succ_r by lia. f_equal. lia. Qed.

Lemma ubig_try_to_signed_spec tb u : prim_bits tb -> ubig_ok u ->
  ubig_try_to_signed tb u = Ok (if uval u <? 2 ^ (tb - 1) then Some (uval u) else None).
Proof.
  intros Ht Hu. destruct u as [w|b]; cbn [ubig_try_to_signed uval]; [reflexivity|].
  rewrite unsigned_from_words_spec by auto. cbn [bind]. pose proof (prim_bits_ge tb Ht).
  pose proof (pow_half tb ltac:(lia)). assert (0 < 2 ^ (tb - 1)) by (apply Z.pow_pos_nonneg; lia).
  unfold unsigned_to_signed. destruct (Z.ltb_spec (val (words b)) (2 ^ tb)); [reflexivity|].
  rewrite (proj2 (Z.ltb_ge _ _)) by lia. reflexivity.
Qed.

Lemma to_sign_magnitude_spec tb x : prim_bits tb -> - 2 ^ (tb - 1) <= x < 2 ^ (tb - 1) ->
  to_sign_magnitude tb x = (if 0 <=? x then Positive else Negative, Z.abs x) /\ 0 <= Z.abs x < 2 ^ tb.
Proof.
  intros Ht Hx. pose proof (prim_bits_ge tb Ht). pose proof (pow_half tb ltac:(lia)).
  assert (0 < 2 ^ (tb - 1)) by (apply Z.pow_pos_nonneg; lia).
  unfold to_sign_magnitude, as_unsigned. split; [|lia]. destruct (Z.leb_spec 0 x).
  - rewrite Z.mod_small, Z.abs_eq by lia. reflexivity.
  - rewrite (mod_eq (x + 2 ^ tb) x (2 ^ tb) (-1)) by lia.
    rewrite (mod_eq (- x) (- (x + 2 ^ tb)) (2 ^ tb) (-1)) by lia.
    rewrite Z.abs_neq by lia. reflexivity.
Qed.

Lemma ibig_from_unsigned_spec tb x : prim_bits tb -> 0 <= x < 2 ^ tb ->
  exists u, ibig_from_unsigned tb x = Ok u /\ ibig_ok u /\ ival u = x.
Proof.
  intros Ht Hx. unfold ibig_from_unsigned. destruct (ubig_from_unsigned_spec tb x Ht Hx) as (u & -> & H1 & H2).
  cbn [bind]. destruct (ibig_from_ubig_spec u H1). eexists; split; [reflexivity|]. split; [auto|congruence].
Qed.

Lemma ibig_from_signed_spec tb x : prim_bits tb -> - 2 ^ (tb - 1) <= x < 2 ^ (tb - 1) ->
  exists u, ibig_from_signed tb x = Ok u /\ ibig_ok u /\ ival u = x.
Proof.
  intros Ht Hx. unfold ibig_from_signed. destruct (to_sign_magnitude_spec tb x Ht Hx) as [-> H0].
  destruct (ubig_from_unsigned_spec tb (Z.abs x) Ht H0) as (u & -> & H1 & H2). cbn [bind].
  destruct (from_sign_magnitude_spec (if 0 <=? x then Positive else Negative) u H1) as [H3 H4].
  eexists; split; [reflexivity|]. split; [auto|]. rewrite H4, H2. destruct (Z.leb_spec 0 x); cbn [sign_val]; lia.
Qed.

Lemma ibig_try_to_unsigned_spec tb x : prim_bits tb -> ibig_ok x ->
  ibig_try_to_unsigned tb x = Ok (if (0 <=? ival x) && (ival x <? 2 ^ tb) then Some (ival x) else None).
Proof.
  intros Ht [Hm Hz]. unfold ibig_try_to_unsigned, ival. pose proof (uval_nonneg _ Hm).
  destruct (isign x); cbn [sign_val].
  - rewrite ubig_try_to_unsigned_spec, Z.mul_1_l by auto. rewrite (proj2 (Z.leb_le _ _)) by lia. reflexivity.
  - rewrite (proj2 (Z.leb_gt _ _)); [reflexivity|].
    assert (uval (imag x) <> 0) by (intros E; specialize (Hz E); discriminate). lia.
Qed.

Lemma ibig_try_to_signed_spec tb x : prim_bits tb -> ibig_ok x ->
  ibig_try_to_signed tb x =
  Ok (if (- 2 ^ (tb - 1) <=? ival x) && (ival x <? 2 ^ (tb - 1)) then Some (ival x) else None).
Proof.
  intros Ht [Hm Hz]. unfold ibig_try_to_signed, ival. pose proof (uval_nonneg _ Hm).
  pose proof (prim_bits_ge tb Ht). pose proof (pow_half tb ltac:(lia)) as E2.
  assert (0 < 2 ^ (tb - 1)) by (apply Z.pow_pos_nonneg; lia).
  rewrite ubig_try_to_unsigned_spec by auto. cbn [bind].
  set (v := uval (imag x)) in *. set (h := 2 ^ (tb - 1)) in *. unfold try_from_sign_magnitude, unsigned_to_signed, as_signed.
  fold h. rewrite E2. clearbody h v.
  destruct (isign x); cbn [sign_val].
  - rewrite Z.mul_1_l. rewrite (proj2 (Z.leb_le _ _)) by lia. cbn [andb].
    destruct (Z.ltb_spec v (2 * h)); [reflexivity|]. rewrite (proj2 (Z.ltb_ge _ _)) by lia. reflexivity.
  - assert (v <> 0) by (intros E; specialize (Hz E); discriminate).
    rewrite (proj2 (Z.ltb_lt (-1 * v) _)) by lia. rewrite andb_true_r.
    destruct (Z.ltb_spec v (2 * h)).
    + rewrite (mod_eq (2 * h - v) (- v) (2 * h) (-1)) by lia.
      destruct (Z.ltb_spec (2 * h - v) h).
      * rewrite (proj2 (Z.leb_gt _ _)), (proj2 (Z.leb_gt _ _)) by lia. reflexivity.
      * rewrite (proj2 (Z.leb_le _ _)), (proj2 (Z.leb_le _ _)) by lia. do 2 f_equal. lia.
    + rewrite (proj2 (Z.leb_gt _ _)) by lia. reflexivity.
Qed.

Lemma signum_spec x : ibig_ok x -> exists y, signum x = Ok y /\ ibig_ok y /\ ival y = Z.sgn (ival x).
Proof.
  intros Hx. pose proof Hx as [Hm Hz]. unfold signum. pose proof (uval_nonneg _ Hm). pose proof (ubig_is_zero _ Hm) as Z0.
  assert (prim_bits 8) as P8 by (left; reflexivity).
  unfold ival at 2. destruct (isign x); cbn [sign_val].
  - destruct (ubig_eqb (imag x) (from_word 0)).
    + destruct (ibig_from_unsigned_spec 8 0 P8 ltac:(lia)) as (y & -> & H1 & H2). exists y. repeat split; auto; try apply H1.
      rewrite H2. replace (uval (imag x)) with 0 by (symmetry; apply Z0; auto). reflexivity.
    + destruct (ibig_from_unsigned_spec 8 1 P8 ltac:(lia)) as (y & -> & H1 & H2). exists y. repeat split; auto; try apply H1.
      rewrite H2. assert (uval (imag x) <> 0) by (intros E; apply Z0 in E; discriminate). symmetry. apply Z.sgn_pos. lia.
  - destruct (ibig_from_signed_spec 8 (-1) P8 ltac:(lia)) as (y & -> & H1 & H2). exists y. repeat split; auto; try apply H1.
    rewrite H2. assert (uval (imag x) <> 0) by (intros E; specialize (Hz E); discriminate). symmetry. apply Z.sgn_neg. lia.
Qed.

End ConvertProofs.
