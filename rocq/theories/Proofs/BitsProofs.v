(** Bit operations of UBig and IBig. *)
From Verif Require Import Model.Base Model.Words Model.Shift Model.Memory Model.Buffer Model.UBig Model.IBig
  Model.Convert Model.AddOps Model.MulOps Model.ShiftOps Model.Bits Spec.Val Spec.Num Proofs.Basics Proofs.ShiftProofs
  Proofs.FastDivideProofs Proofs.DivProofs Proofs.BufferProofs Proofs.AddOpsProofs Proofs.ConvertProofs
  Proofs.MulOpsProofs Proofs.ShiftOpsProofs.
From Coq Require Import Lia.

(** * Bits of sums *)
Lemma testbit_split x w u n : 0 <= w -> 0 <= x < 2 ^ w -> 0 <= n ->
  Z.testbit (x + 2 ^ w * u) n = if n <? w then Z.testbit x n else Z.testbit u (n - w).
Proof.
  intros Hw Hx Hn. destruct (Z.ltb_spec n w) as [C|C].
  - rewrite <- (Z.mod_pow2_bits_low (x + 2 ^ w * u) w n) by lia.
    f_equal. apply mod_eq with u; lia.
  - replace n with ((n - w) + w) at 1 by lia. rewrite <- Z.div_pow2_bits by lia.
    f_equal. apply div_eq with x; lia.
Qed.

Lemma testbit_high x w n : 0 <= x < 2 ^ w -> w <= n -> Z.testbit x n = false.
Proof.
  intros Hx Hn. destruct (Z.le_gt_cases 0 w); [|rewrite Z.pow_neg_r in Hx by lia; lia].
  rewrite <- (Z.mod_small x (2 ^ w)) by lia. apply Z.mod_pow2_bits_high. lia.
Qed.

(** A bitwise operation. *)
Definition bitwise (f : Z -> Z -> Z) (g : bool -> bool -> bool) : Prop :=
  g false false = false /\ forall a b n, 0 <= n -> Z.testbit (f a b) n = g (Z.testbit a n) (Z.testbit b n).

Lemma land_bitwise : bitwise Z.land andb.
Proof. split; [reflexivity|]. intros. apply Z.land_spec. Qed.
Lemma lor_bitwise : bitwise Z.lor orb.
Proof. split; [reflexivity|]. intros. apply Z.lor_spec. Qed.
Lemma lxor_bitwise : bitwise Z.lxor xorb.
Proof. split; [reflexivity|]. intros. apply Z.lxor_spec. Qed.
Lemma ldiff_bitwise : bitwise Z.ldiff (fun a b => a && negb b).
Proof. split; [reflexivity|]. intros. apply Z.ldiff_spec. Qed.

Lemma bitwise_bound f g w a b : bitwise f g -> 0 <= w -> 0 <= a < 2 ^ w -> 0 <= b < 2 ^ w -> 0 <= f a b < 2 ^ w.
Proof.
  intros [G F] Hw Ha Hb. assert (f a b = f a b mod 2 ^ w) as ->.
  { apply Z.bits_inj'. intros n Hn. destruct (Z.lt_ge_cases n w) as [C|C].
    - rewrite Z.mod_pow2_bits_low; auto.
    - rewrite Z.mod_pow2_bits_high by lia. rewrite F by auto.
      rewrite (testbit_high a w n), (testbit_high b w n) by lia. auto. }
  apply Z.mod_pos_bound. apply Z.pow_pos_nonneg; lia.
Qed.

Lemma bitwise_split f g w a b u v : bitwise f g -> 0 <= w -> 0 <= a < 2 ^ w -> 0 <= b < 2 ^ w ->
  f (a + 2 ^ w * u) (b + 2 ^ w * v) = f a b + 2 ^ w * f u v.
Proof.
  intros H Hw Ha Hb. pose proof (bitwise_bound f g w a b H Hw Ha Hb) as Hf. destruct H as [G F].
  apply Z.bits_inj'. intros n Hn. rewrite F, !testbit_split by auto. destruct (Z.ltb_spec n w).
  - rewrite F by auto. reflexivity.
  - rewrite F by lia. reflexivity.
Qed.

Section BitsProofs.
Context {A : Arch} {AOK : ArchOk A}.

Lemma wbits_nonneg : 0 <= wbits. Proof. pose proof wbits_ge; lia. Qed.

Lemma B_bitwise f g a b : bitwise f g -> 0 <= a < B -> 0 <= b < B -> 0 <= f a b < B.
Proof. intros H Ha Hb. apply (bitwise_bound f g); auto. apply wbits_nonneg. Qed.

Lemma B_split_op f g a b u v : bitwise f g -> 0 <= a < B -> 0 <= b < B ->
  f (a + B * u) (b + B * v) = f a b + B * f u v.
Proof. intros H Ha Hb. apply (bitwise_split f g); auto. apply wbits_nonneg. Qed.

Lemma Bn_bitwise f g k a b : bitwise f g -> 0 <= a < Bn k -> 0 <= b < Bn k -> 0 <= f a b < Bn k.
Proof. intros H Ha Hb. rewrite Bn_pow2 in *. apply (bitwise_bound f g); auto. pose proof wbits_ge. nia. Qed.

Lemma Bn_split_op f g k a b u v : bitwise f g -> 0 <= a < Bn k -> 0 <= b < Bn k ->
  f (a + Bn k * u) (b + Bn k * v) = f a b + Bn k * f u v.
Proof. intros H Ha Hb. rewrite Bn_pow2 in *. apply (bitwise_split f g); auto. pose proof wbits_ge. nia. Qed.

(** The words of [h] agree with [f] on words. *)
Lemma zip_words_spec h f g : bitwise f g -> (forall x y, 0 <= x < B -> 0 <= y < B -> h x y = f x y) ->
  forall xs ys, wf xs -> wf ys ->
  length (zip_words h xs ys) = length xs /\ wf (zip_words h xs ys) /\
  ((length xs <= length ys)%nat -> val (zip_words h xs ys) = f (val xs) (val (firstn (length xs) ys))) /\
  ((forall a, f a 0 = a) -> (length ys <= length xs)%nat -> val (zip_words h xs ys) = f (val xs) (val ys)).
Proof.
  intros Hf Hh. assert (f 0 0 = 0) as F0.
  { apply Z.bits_inj'. intros n Hn. destruct Hf as [G F]. rewrite F, !Z.bits_0 by auto. auto. }
  induction xs as [|x xs IH]; intros ys Wx Wy.
  - cbn [zip_words]. split; [reflexivity|]. split; [auto|]. split; intros.
    + cbn [firstn length val]. auto.
    + destruct ys; [cbn [val]; auto|simpl in *; lia].
  - apply wf_cons in Wx as [Hx Wx]. destruct ys as [|y ys].
    + cbn [zip_words]. split; [reflexivity|]. split; [apply wf_cons; auto|]. split; intros.
      * simpl in *. lia.
      * change (val []) with 0. auto.
    + apply wf_cons in Wy as [Hy Wy]. destruct (IH ys Wx Wy) as (I1 & I2 & I3 & I4). cbn [zip_words length].
      rewrite I1, Hh by auto. split; [reflexivity|].
      split; [apply wf_cons; split; [apply (B_bitwise f g); auto|auto]|]. cbn [val firstn]. split.
      * intros L. rewrite (B_split_op f g), I3 by (auto; lia). reflexivity.
      * intros Fa L. rewrite (B_split_op f g), I4 by (auto; lia). reflexivity.
Qed.

Lemma not_w_land x y : 0 <= x < B -> 0 <= y < B -> Z.land x (not_w y) = Z.ldiff x y.
Proof.
  intros Hx Hy. unfold not_w. pose proof wbits_ge. apply Z.bits_inj'. intros n Hn.
  rewrite Z.land_spec, Z.ldiff_spec. destruct (Z.lt_ge_cases n wbits) as [C|C].
  - unfold B. rewrite Z.mod_pow2_bits_low, Z.lnot_spec by lia. reflexivity.
  - rewrite (testbit_high x wbits n) by auto. reflexivity.
Qed.

Lemma get_first b : ubig_ok (Large b) -> exists w t, words b = w :: t /\ get 0 (words b) = Ok w /\ 0 <= w < B /\ wf t /\
  val (words b) = w + B * val t.
Proof.
  intros (W & L & _). destruct (words b) as [|w t]; [simpl in L; lia|]. apply wf_cons in W as [Hw Wt].
  exists w, t. repeat split; auto; lia.
Qed.

Lemma word_split x : x = x + B * 0. Proof. lia. Qed.

(** * AND *)
Lemma and_first_yields w b : 0 <= w < B -> ubig_ok (Large b) -> yields (and_first w b) (Z.land w (val (words b))).
Proof.
  intros Hw Hb. unfold and_first. destruct (get_first b Hb) as (x & t & E & -> & Hx & Wt & ->). cbn [bind].
  rewrite (word_split w) at 2. rewrite (B_split_op _ _ _ _ _ _ land_bitwise), Z.land_0_l, Z.mul_0_r, Z.add_0_r by auto.
  apply yields_word. apply (B_bitwise _ _ _ _ land_bitwise); auto.
Qed.
Lemma first_and_yields w b : 0 <= w < B -> ubig_ok (Large b) -> yields (first_and b w) (Z.land (val (words b)) w).
Proof.
  intros Hw Hb. rewrite Z.land_comm. replace (first_and b w) with (and_first w b).
  - apply and_first_yields; auto.
  - unfold and_first, first_and. destruct (get 0 (words b)); cbn [bind]; [rewrite Z.land_comm|]; reflexivity.
Qed.

Lemma bitand_large_yields b rhs : buffer_ok b -> wf rhs -> yields (bitand_large b rhs) (Z.land (val (words b)) (val rhs)).
Proof.
  intros [W Hc] Wr. destruct b as [bw bc]. unfold blen in Hc. cbn [words cap] in *.
  assert (forall xs ys c, wf xs -> wf ys -> (length xs <= length ys)%nat -> len xs <= c ->
    yields (from_buffer (mkBuffer (zip_words Z.land xs ys) c)) (Z.land (val xs) (val ys))) as H.
  { intros xs ys c Wx Wy L C. destruct (zip_words_spec Z.land _ _ land_bitwise ltac:(auto) xs ys Wx Wy) as (L' & W' & V & _).
    eapply yields_eq; [apply from_buffer_yields|].
    - split; cbn [words cap]; auto. unfold blen, len in *. cbn [words]. lia.
    - cbn [words]. rewrite V by auto. rewrite (val_firstn_skipn (length xs) ys) by lia.
      pose proof (val_bound _ Wx). pose proof (val_bound _ (wf_firstn (length xs) ys Wy)) as Vf.
      rewrite firstn_length_le in Vf by lia.
      replace (val xs) with (val xs + Bn (length xs) * 0) at 2 by lia.
      rewrite (Bn_split_op _ _ _ _ _ _ _ land_bitwise), Z.land_0_l by auto. lia. }
  unfold bitand_large, truncate. cbn [words cap]. destruct (Nat.ltb_spec (length rhs) (length bw)) as [C|C].
  - rewrite check_true by (apply Nat.leb_le; lia). cbn [bind words cap].
    eapply yields_eq; [apply H; auto using wf_firstn|].
    + rewrite firstn_length_le by lia. lia.
    + unfold len in *. rewrite firstn_length_le by lia. lia.
    + rewrite (val_firstn_skipn (length rhs) bw) by lia.
      pose proof (val_bound _ Wr). pose proof (val_bound _ (wf_firstn (length rhs) bw W)) as Vf.
      rewrite firstn_length_le in Vf by lia.
      replace (val rhs) with (val rhs + Bn (length rhs) * 0) at 2 by lia.
      rewrite (Bn_split_op _ _ _ _ _ _ _ land_bitwise), Z.land_0_r by auto. lia.
  - cbn [bind words cap]. apply H; auto.
Qed.

Lemma big_buffer_ok b : big b -> buffer_ok b. Proof. intros [H _]; auto. Qed.
Hint Resolve big_buffer_ok Large_buffer_ok : large.

Ltac words4 Ha Hb := intros Ha Hb; cbn [uval].

Lemma ubig_and_vv_yields a b : ubig_ok a -> ubig_ok b -> yields (ubig_and_vv a b) (Z.land (uval a) (uval b)).
Proof.
  intros Ha Hb. destruct a as [x|x], b as [y|y]; cbn [ubig_and_vv uval].
  - apply yields_word. apply (B_bitwise _ _ _ _ land_bitwise); auto.
  - apply and_first_yields; auto.
  - apply first_and_yields; auto.
  - destruct (_ <=? _)%nat; [|rewrite Z.land_comm]; apply bitand_large_yields; auto with large.
Qed.
Lemma ubig_and_vr_yields a b : ubig_ok a -> ubig_ok b -> yields (ubig_and_vr a b) (Z.land (uval a) (uval b)).
Proof.
  intros Ha Hb. destruct a as [x|x], b as [y|y]; cbn [ubig_and_vr uval].
  - apply yields_word. apply (B_bitwise _ _ _ _ land_bitwise); auto.
  - apply and_first_yields; auto.
  - apply first_and_yields; auto.
  - apply bitand_large_yields; auto with large.
Qed.
Lemma ubig_and_rv_yields a b : ubig_ok a -> ubig_ok b -> yields (ubig_and_rv a b) (Z.land (uval a) (uval b)).
Proof. intros. rewrite Z.land_comm. apply ubig_and_vr_yields; auto. Qed.
Lemma ubig_and_rr_yields a b : ubig_ok a -> ubig_ok b -> yields (ubig_and_rr a b) (Z.land (uval a) (uval b)).
Proof.
  intros Ha Hb. destruct a as [x|x], b as [y|y]; cbn [ubig_and_rr uval].
  - apply yields_word. apply (B_bitwise _ _ _ _ land_bitwise); auto.
  - apply and_first_yields; auto.
  - apply first_and_yields; auto.
  - destruct (_ <=? _)%nat; [|rewrite Z.land_comm]; [clone Ha|clone Hb]; apply bitand_large_yields; auto with large.
Qed.

(** * OR and XOR *)
Definition keeps (f : Z -> Z -> Z) : Prop := (forall a, f a 0 = a) /\ (forall a, f 0 a = a) /\ (forall a b, f a b = f b a).
Lemma lor_keeps : keeps Z.lor.
Proof. split; [exact Z.lor_0_r|]. split; [exact Z.lor_0_l|exact Z.lor_comm]. Qed.
Lemma lxor_keeps : keeps Z.lxor.
Proof. split; [exact Z.lxor_0_r|]. split; [exact Z.lxor_0_l|exact Z.lxor_comm]. Qed.

Lemma set_first (w : Z) t x : set 0 x (w :: t) = Ok (x :: t). Proof. reflexivity. Qed.

Lemma first_op_yields f g b w : bitwise f g -> (forall a, f a 0 = a) -> big b -> 0 <= w < B ->
  yields (check (2 <=? length (words b))%nat ;; b <- on_first b (fun x => f x w) ;; from_buffer b)
    (f (val (words b)) w).
Proof.
  intros Hf Fa (Hb & L2 & LM) Hw. rewrite check_true by (apply Nat.leb_le; auto).
  destruct b as [bw bc]. destruct Hb as [W Hc]. unfold blen in Hc. cbn [words cap] in *.
  destruct bw as [|x t]; [simpl in L2; lia|]. unfold on_first. cbn [words]. change (get 0 (x :: t)) with (Ok x).
  cbn [bind]. rewrite set_first. cbn [bind cap]. apply wf_cons in W as [Hx Wt].
  eapply yields_eq; [apply from_buffer_yields|].
  - split; cbn [words cap]; [apply wf_cons; split; [apply (B_bitwise f g); auto|auto]|].
    unfold blen, len in *. cbn [words length] in *. lia.
  - cbn [words val]. rewrite (word_split w) at 2. rewrite (B_split_op f g), Fa by auto. reflexivity.
Qed.

Lemma or_large_yields f g b rhs : bitwise f g -> keeps f -> big b -> wf rhs -> len rhs <= MAX_LEN ->
  yields (let b := mkBuffer (zip_words f (words b) rhs) (cap b) in
  b <- (if (length (words b) <? length rhs)%nat then
          b <- ensure_capacity b (len rhs) ;;
          hi <- slice_from (length (words b)) rhs ;;
          extend b hi
        else Ok b) ;;
  from_buffer b) (f (val (words b)) (val rhs)).
Proof.
  intros Hf (Fa & Fb & _) (Hb & L2 & LM) Wr LR. destruct b as [bw bc]. pose proof Hb as [W Hc]. unfold blen in *. cbn [words cap] in *.
  destruct (zip_words_spec f f g Hf ltac:(auto) bw rhs W Wr) as (L' & W' & V1 & V2). cbn zeta. cbn [words cap].
  rewrite L'.
  assert (buffer_ok (mkBuffer (zip_words f bw rhs) bc)) as Hb' by (eapply buffer_ok_same; eauto).
  destruct (Nat.ltb_spec (length bw) (length rhs)) as [C|C].
  - destruct (ensure_capacity_spec (mkBuffer (zip_words f bw rhs) bc) (len rhs)) as (c & -> & H1 & H2 & H3); auto;
      [rewrite MAX_CAPACITY_eq; lia|]. cbn [bind words]. rewrite L', slice_from_Ok by lia. cbn [bind].
    assert (length (skipn (length bw) rhs) = length rhs - length bw)%nat as LS by apply skipn_length.
    rewrite extend_spec by (unfold len in *; lia). cbn [bind]. eapply yields_eq; [apply from_buffer_yields|].
    + split; cbn [words cap]; [apply wf_app; auto using wf_skipn|].
      unfold blen in *. cbn [words] in *. rewrite len_app. unfold len in *. lia.
    + cbn [words]. rewrite val_app, L', V1 by lia. rewrite (val_firstn_skipn (length bw) rhs) by lia.
      pose proof (val_bound _ W). pose proof (val_bound _ (wf_firstn (length bw) rhs Wr)) as Vf.
      rewrite firstn_length_le in Vf by lia.
      replace (val bw) with (val bw + Bn (length bw) * 0) at 2 by lia.
      rewrite (Bn_split_op f g), Fb by auto. reflexivity.
  - cbn [bind]. eapply yields_eq; [apply from_buffer_yields; auto|]. cbn [words]. auto.
Qed.

Lemma bitor_large_word_yields b w : big b -> 0 <= w < B -> yields (bitor_large_word b w) (Z.lor (val (words b)) w).
Proof. apply (first_op_yields _ _ _ _ lor_bitwise). apply lor_keeps. Qed.
Lemma bitxor_large_word_yields b w : big b -> 0 <= w < B -> yields (bitxor_large_word b w) (Z.lxor (val (words b)) w).
Proof. apply (first_op_yields _ _ _ _ lxor_bitwise). apply lxor_keeps. Qed.
Lemma bitor_large_yields b rhs : big b -> wf rhs -> len rhs <= MAX_LEN -> yields (bitor_large b rhs) (Z.lor (val (words b)) (val rhs)).
Proof. apply (or_large_yields _ _ _ _ lor_bitwise lor_keeps). Qed.
Lemma bitxor_large_yields b rhs : big b -> wf rhs -> len rhs <= MAX_LEN -> yields (bitxor_large b rhs) (Z.lxor (val (words b)) (val rhs)).
Proof. apply (or_large_yields _ _ _ _ lxor_bitwise lxor_keeps). Qed.

Lemma ubig_or_vv_yields a b : ubig_ok a -> ubig_ok b -> yields (ubig_or_vv a b) (Z.lor (uval a) (uval b)).
Proof.
  intros Ha Hb. destruct a as [x|x], b as [y|y]; cbn [ubig_or_vv uval].
  - apply yields_word. apply (B_bitwise _ _ _ _ lor_bitwise); auto.
  - rewrite Z.lor_comm. apply bitor_large_word_yields; auto with large.
  - apply bitor_large_word_yields; auto with large.
  - destruct (_ <=? _)%nat; [|rewrite Z.lor_comm]; apply bitor_large_yields; auto with large.
Qed.
Lemma ubig_or_vr_yields a b : ubig_ok a -> ubig_ok b -> yields (ubig_or_vr a b) (Z.lor (uval a) (uval b)).
Proof.
  intros Ha Hb. destruct a as [x|x], b as [y|y]; cbn [ubig_or_vr uval].
  - apply yields_word. apply (B_bitwise _ _ _ _ lor_bitwise); auto.
  - rewrite Z.lor_comm. clone Hb. apply bitor_large_word_yields; auto with large.
  - apply bitor_large_word_yields; auto with large.
  - apply bitor_large_yields; auto with large.
Qed.
Lemma ubig_or_rv_yields a b : ubig_ok a -> ubig_ok b -> yields (ubig_or_rv a b) (Z.lor (uval a) (uval b)).
Proof. intros. rewrite Z.lor_comm. apply ubig_or_vr_yields; auto. Qed.
Lemma ubig_or_rr_yields a b : ubig_ok a -> ubig_ok b -> yields (ubig_or_rr a b) (Z.lor (uval a) (uval b)).
Proof.
  intros Ha Hb. destruct a as [x|x], b as [y|y]; cbn [ubig_or_rr uval].
  - apply yields_word. apply (B_bitwise _ _ _ _ lor_bitwise); auto.
  - rewrite Z.lor_comm. clone Hb. apply bitor_large_word_yields; auto with large.
  - clone Ha. apply bitor_large_word_yields; auto with large.
  - destruct (_ <=? _)%nat; [|rewrite Z.lor_comm]; [clone Ha|clone Hb]; apply bitor_large_yields; auto with large.
Qed.

Lemma ubig_xor_vv_yields a b : ubig_ok a -> ubig_ok b -> yields (ubig_xor_vv a b) (Z.lxor (uval a) (uval b)).
Proof.
  intros Ha Hb. destruct a as [x|x], b as [y|y]; cbn [ubig_xor_vv uval].
  - apply yields_word. apply (B_bitwise _ _ _ _ lxor_bitwise); auto.
  - rewrite Z.lxor_comm. apply bitxor_large_word_yields; auto with large.
  - apply bitxor_large_word_yields; auto with large.
  - destruct (_ <=? _)%nat; [|rewrite Z.lxor_comm]; apply bitxor_large_yields; auto with large.
Qed.
Lemma ubig_xor_vr_yields a b : ubig_ok a -> ubig_ok b -> yields (ubig_xor_vr a b) (Z.lxor (uval a) (uval b)).
Proof.
  intros Ha Hb. destruct a as [x|x], b as [y|y]; cbn [ubig_xor_vr uval].
  - apply yields_word. apply (B_bitwise _ _ _ _ lxor_bitwise); auto.
  - rewrite Z.lxor_comm. clone Hb. apply bitxor_large_word_yields; auto with large.
  - apply bitxor_large_word_yields; auto with large.
  - apply bitxor_large_yields; auto with large.
Qed.
Lemma ubig_xor_rv_yields a b : ubig_ok a -> ubig_ok b -> yields (ubig_xor_rv a b) (Z.lxor (uval a) (uval b)).
Proof. intros. rewrite Z.lxor_comm. apply ubig_xor_vr_yields; auto. Qed.
Lemma ubig_xor_rr_yields a b : ubig_ok a -> ubig_ok b -> yields (ubig_xor_rr a b) (Z.lxor (uval a) (uval b)).
Proof.
  intros Ha Hb. destruct a as [x|x], b as [y|y]; cbn [ubig_xor_rr uval].
  - apply yields_word. apply (B_bitwise _ _ _ _ lxor_bitwise); auto.
  - rewrite Z.lxor_comm. clone Hb. apply bitxor_large_word_yields; auto with large.
  - clone Ha. apply bitxor_large_word_yields; auto with large.
  - destruct (_ <=? _)%nat; [|rewrite Z.lxor_comm]; [clone Ha|clone Hb]; apply bitxor_large_yields; auto with large.
Qed.

(** * AND NOT *)
Lemma and_not_word_yields x y : 0 <= x < B -> 0 <= y < B -> yields (Ok (from_word (Z.land x (not_w y)))) (Z.ldiff x y).
Proof.
  intros Hx Hy. rewrite not_w_land by auto. apply yields_word. apply (B_bitwise _ _ _ _ ldiff_bitwise); auto.
Qed.
Lemma and_not_first_yields w b : 0 <= w < B -> ubig_ok (Large b) -> yields (and_not_first w b) (Z.ldiff w (val (words b))).
Proof.
  intros Hw Hb. unfold and_not_first. destruct (get_first b Hb) as (x & t & E & -> & Hx & Wt & ->). cbn [bind].
  rewrite (word_split w) at 2. rewrite (B_split_op _ _ _ _ _ _ ldiff_bitwise), Z.ldiff_0_l, Z.mul_0_r, Z.add_0_r by auto.
  apply and_not_word_yields; auto.
Qed.
Lemma and_not_large_word_yields b w : big b -> 0 <= w < B -> yields (and_not_large_word b w) (Z.ldiff (val (words b)) w).
Proof.
  intros Hb Hw. pose proof (first_op_yields _ _ b w ldiff_bitwise Z.ldiff_0_r Hb Hw) as Y.
  replace (and_not_large_word b w) with
    (check (2 <=? length (words b))%nat ;; b <- on_first b (fun x => Z.ldiff x w) ;; from_buffer b); [exact Y|].
  unfold and_not_large_word, on_first. destruct Hb as [[W _] _]. destruct (words b) as [|x t]; [reflexivity|].
  apply wf_cons in W as [Hx _]. change (get 0 (x :: t)) with (Ok x). cbn [bind]. rewrite not_w_land by auto. reflexivity.
Qed.
Lemma and_not_large_yields b rhs : buffer_ok b -> wf rhs -> yields (and_not_large b rhs) (Z.ldiff (val (words b)) (val rhs)).
Proof.
  intros Hb Wr. destruct b as [bw bc]. pose proof Hb as [W Hc]. unfold and_not_large. cbn [words cap] in *.
  destruct (zip_words_spec (fun x y => Z.land x (not_w y)) _ _ ldiff_bitwise not_w_land bw rhs W Wr) as (L' & W' & V1 & V2).
  eapply yields_eq; [apply from_buffer_yields; eapply buffer_ok_same; eauto|]. cbn [words].
  destruct (Nat.le_ge_cases (length rhs) (length bw)) as [C|C].
  - apply V2; auto. apply Z.ldiff_0_r.
  - rewrite V1 by auto. rewrite (val_firstn_skipn (length bw) rhs) by lia.
    pose proof (val_bound _ W). pose proof (val_bound _ (wf_firstn (length bw) rhs Wr)) as Vf.
    rewrite firstn_length_le in Vf by lia.
    replace (val bw) with (val bw + Bn (length bw) * 0) at 2 by lia.
    rewrite (Bn_split_op _ _ _ _ _ _ _ ldiff_bitwise), Z.ldiff_0_l by auto. lia.
Qed.

Lemma ubig_and_not_vv_yields a b : ubig_ok a -> ubig_ok b -> yields (ubig_and_not_vv a b) (Z.ldiff (uval a) (uval b)).
Proof.
  intros Ha Hb. destruct a as [x|x], b as [y|y]; cbn [ubig_and_not_vv uval].
  - apply and_not_word_yields; auto.
  - apply and_not_first_yields; auto.
  - apply and_not_large_word_yields; auto with large.
  - apply and_not_large_yields; auto with large.
Qed.
Lemma ubig_and_not_vr_yields a b : ubig_ok a -> ubig_ok b -> yields (ubig_and_not_vr a b) (Z.ldiff (uval a) (uval b)).
Proof. exact (ubig_and_not_vv_yields a b). Qed.
Lemma ubig_and_not_rv_yields a b : ubig_ok a -> ubig_ok b -> yields (ubig_and_not_rv a b) (Z.ldiff (uval a) (uval b)).
Proof.
  intros Ha Hb. destruct a as [x|x], b as [y|y]; cbn [ubig_and_not_rv uval].
  - apply and_not_word_yields; auto.
  - apply and_not_first_yields; auto.
  - clone Ha. apply and_not_large_word_yields; auto with large.
  - clone Ha. apply and_not_large_yields; auto with large.
Qed.
Lemma ubig_and_not_rr_yields a b : ubig_ok a -> ubig_ok b -> yields (ubig_and_not_rr a b) (Z.ldiff (uval a) (uval b)).
Proof. exact (ubig_and_not_rv_yields a b). Qed.

(** * Signed bit operations *)
Lemma one_spec : exists one, ibig_from_unsigned 8 1 = Ok one /\ ibig_ok one /\ ival one = 1.
Proof. apply ibig_from_unsigned_spec; [left; reflexivity|lia]. Qed.

Lemma ibig_not_v_yields x : ibig_ok x -> iyields (ibig_not_v x) (Z.lnot (ival x)).
Proof.
  intros Hx. unfold ibig_not_v. destruct one_spec as (one & -> & H1 & H2). cbn [bind].
  eapply iyields_eq; [apply iyields_neg, ibig_add_vv_yields; auto|]. unfold Z.lnot. lia.
Qed.
Lemma ibig_not_r_yields x : ibig_ok x -> iyields (ibig_not_r x) (Z.lnot (ival x)).
Proof.
  intros Hx. unfold ibig_not_r. destruct one_spec as (one & -> & H1 & H2). cbn [bind].
  eapply iyields_eq; [apply iyields_neg, ibig_add_rv_yields; auto|]. unfold Z.lnot. lia.
Qed.

Lemma not_mag_spec (f : ibig -> res ibig) x : (forall x, ibig_ok x -> iyields (f x) (Z.lnot (ival x))) ->
  ibig_ok x -> isign x = Negative ->
  exists u, (y <- f x ;; Ok (unsigned_abs y)) = Ok u /\ ubig_ok u /\ uval u = Z.lnot (ival x) /\ 0 <= uval u.
Proof.
  intros Hf Hx S. pose proof Hx as [Hm Hz]. pose proof (ubig_ok_val _ Hm) as Hv.
  assert (uval (imag x) <> 0) by (intros E; specialize (Hz E); congruence).
  assert (0 <= Z.lnot (ival x) < MAXV) as HL.
  { unfold ival, Z.lnot. rewrite S. cbn [sign_val]. lia. }
  destruct (Hf x Hx) as [Y _]. destruct Y as (y & -> & Hy & E); [lia|]. cbn [bind].
  exists (imag y). split; [reflexivity|]. split; [apply Hy|].
  assert (uval (imag y) = Z.lnot (ival x)); [|split; lia].
  rewrite <- E, <- ibig_abs_val by auto. lia.
Qed.
Lemma not_mag_v_spec x : ibig_ok x -> isign x = Negative ->
  exists u, not_mag_v x = Ok u /\ ubig_ok u /\ uval u = Z.lnot (ival x) /\ 0 <= uval u.
Proof. apply not_mag_spec. apply ibig_not_v_yields. Qed.
Lemma not_mag_r_spec x : ibig_ok x -> isign x = Negative ->
  exists u, not_mag_r x = Ok u /\ ubig_ok u /\ uval u = Z.lnot (ival x) /\ 0 <= uval u.
Proof. apply not_mag_spec. apply ibig_not_r_yields. Qed.

Lemma not_of_yields r z : 0 <= z < MAXV -> yields r z -> iyields (not_of r) (Z.lnot z).
Proof.
  intros Hz Y. unfold not_of. destruct (iyields_of r z ltac:(lia) Y) as [Y1 _].
  destruct Y1 as (x & -> & Hx & E); [lia|]. cbn [bind]. rewrite <- E. apply ibig_not_v_yields; auto.
Qed.

Lemma bitwise_MAXV f g u v : bitwise f g -> ubig_ok u -> ubig_ok v -> 0 <= f (uval u) (uval v) < MAXV.
Proof.
  intros H Hu Hv. apply ubig_ok_val in Hu, Hv. unfold MAXV in *. apply (bitwise_bound f g); auto.
  pose proof wbits_ge. pose proof MAX_LEN_ge. nia.
Qed.

Lemma pos_val x : isign x = Positive -> ival x = uval (imag x).
Proof. intros E. unfold ival. rewrite E. cbn [sign_val]. lia. Qed.

Ltac zbits := apply Z.bits_inj'; intros n Hn;
  repeat rewrite ?Z.lnot_spec, ?Z.land_spec, ?Z.lor_spec, ?Z.lxor_spec, ?Z.ldiff_spec by auto;
  repeat match goal with |- context [Z.testbit ?a n] => destruct (Z.testbit a n) end; reflexivity.

Ltac ubits := match goal with
  | |- yields (ubig_and_vv _ _) _ => eapply ubig_and_vv_yields; assumption
  | |- yields (ubig_and_vr _ _) _ => eapply ubig_and_vr_yields; assumption
  | |- yields (ubig_and_rv _ _) _ => eapply ubig_and_rv_yields; assumption
  | |- yields (ubig_and_rr _ _) _ => eapply ubig_and_rr_yields; assumption
  | |- yields (ubig_or_vv _ _) _ => eapply ubig_or_vv_yields; assumption
  | |- yields (ubig_or_vr _ _) _ => eapply ubig_or_vr_yields; assumption
  | |- yields (ubig_or_rv _ _) _ => eapply ubig_or_rv_yields; assumption
  | |- yields (ubig_or_rr _ _) _ => eapply ubig_or_rr_yields; assumption
  | |- yields (ubig_xor_vv _ _) _ => eapply ubig_xor_vv_yields; assumption
  | |- yields (ubig_xor_vr _ _) _ => eapply ubig_xor_vr_yields; assumption
  | |- yields (ubig_xor_rv _ _) _ => eapply ubig_xor_rv_yields; assumption
  | |- yields (ubig_xor_rr _ _) _ => eapply ubig_xor_rr_yields; assumption
  | |- yields (ubig_and_not_vv _ _) _ => eapply ubig_and_not_vv_yields; assumption
  | |- yields (ubig_and_not_vr _ _) _ => eapply ubig_and_not_vr_yields; assumption
  | |- yields (ubig_and_not_rv _ _) _ => eapply ubig_and_not_rv_yields; assumption
  | |- yields (ubig_and_not_rr _ _) _ => eapply ubig_and_not_rr_yields; assumption
  end.

Ltac urange := first [eapply (bitwise_MAXV _ _ _ _ land_bitwise)|eapply (bitwise_MAXV _ _ _ _ lor_bitwise)
  |eapply (bitwise_MAXV _ _ _ _ lxor_bitwise)|eapply (bitwise_MAXV _ _ _ _ ldiff_bitwise)]; solve [auto].

Ltac elim_not := repeat match goal with
  | H : isign ?x = Negative |- context [not_mag_v ?x] =>
      let u := fresh "u" in let Hu := fresh "Hu" in let Vu := fresh "Vu" in
      destruct (not_mag_v_spec x ltac:(assumption) H) as (u & -> & Hu & Vu & _); cbn [bind]
  | H : isign ?x = Negative |- context [not_mag_r ?x] =>
      let u := fresh "u" in let Hu := fresh "Hu" in let Vu := fresh "Vu" in
      destruct (not_mag_r_spec x ltac:(assumption) H) as (u & -> & Hu & Vu & _); cbn [bind]
  end.

Ltac ibits x y := let Hx := fresh "Hx" in let Hy := fresh "Hy" in intros Hx Hy;
  let Mx := fresh "Mx" in let My := fresh "My" in
  pose proof (proj1 Hx) as Mx; pose proof (proj1 Hy) as My;
  let Sx := fresh "Sx" in let Sy := fresh "Sy" in
  destruct (isign x) eqn:Sx; destruct (isign y) eqn:Sy; elim_not;
  repeat match goal with H : isign ?z = Positive |- _ => apply pos_val in H end;
  (eapply iyields_eq;
   [first [eapply iyields_of; [|solve [ubits]]; eapply proj1; urange
          |eapply not_of_yields; [|solve [ubits]]; urange]
   |]);
  repeat match goal with H : uval ?u = Z.lnot _ |- _ => rewrite H end;
  repeat match goal with H : ival ?u = uval _ |- _ => rewrite <- H end;
  zbits.

Lemma ibig_and_vv_yields x y : ibig_ok x -> ibig_ok y -> iyields (ibig_and_vv x y) (Z.land (ival x) (ival y)).
Proof. unfold ibig_and_vv. ibits x y. Qed.
Lemma ibig_and_vr_yields x y : ibig_ok x -> ibig_ok y -> iyields (ibig_and_vr x y) (Z.land (ival x) (ival y)).
Proof. unfold ibig_and_vr. ibits x y. Qed.
Lemma ibig_and_rv_yields x y : ibig_ok x -> ibig_ok y -> iyields (ibig_and_rv x y) (Z.land (ival x) (ival y)).
Proof. intros. rewrite Z.land_comm. apply ibig_and_vr_yields; auto. Qed.
Lemma ibig_and_rr_yields x y : ibig_ok x -> ibig_ok y -> iyields (ibig_and_rr x y) (Z.land (ival x) (ival y)).
Proof. unfold ibig_and_rr. ibits x y. Qed.

Lemma ibig_or_vv_yields x y : ibig_ok x -> ibig_ok y -> iyields (ibig_or_vv x y) (Z.lor (ival x) (ival y)).
Proof. unfold ibig_or_vv. ibits x y. Qed.
Lemma ibig_or_vr_yields x y : ibig_ok x -> ibig_ok y -> iyields (ibig_or_vr x y) (Z.lor (ival x) (ival y)).
Proof. unfold ibig_or_vr. ibits x y. Qed.
Lemma ibig_or_rv_yields x y : ibig_ok x -> ibig_ok y -> iyields (ibig_or_rv x y) (Z.lor (ival x) (ival y)).
Proof. intros. rewrite Z.lor_comm. apply ibig_or_vr_yields; auto. Qed.
Lemma ibig_or_rr_yields x y : ibig_ok x -> ibig_ok y -> iyields (ibig_or_rr x y) (Z.lor (ival x) (ival y)).
Proof. unfold ibig_or_rr. ibits x y. Qed.

Lemma ibig_xor_vv_yields x y : ibig_ok x -> ibig_ok y -> iyields (ibig_xor_vv x y) (Z.lxor (ival x) (ival y)).
Proof. unfold ibig_xor_vv. ibits x y. Qed.
Lemma ibig_xor_vr_yields x y : ibig_ok x -> ibig_ok y -> iyields (ibig_xor_vr x y) (Z.lxor (ival x) (ival y)).
Proof. unfold ibig_xor_vr. ibits x y. Qed.
Lemma ibig_xor_rv_yields x y : ibig_ok x -> ibig_ok y -> iyields (ibig_xor_rv x y) (Z.lxor (ival x) (ival y)).
Proof. intros. rewrite Z.lxor_comm. apply ibig_xor_vr_yields; auto. Qed.
Lemma ibig_xor_rr_yields x y : ibig_ok x -> ibig_ok y -> iyields (ibig_xor_rr x y) (Z.lxor (ival x) (ival y)).
Proof. unfold ibig_xor_rr. ibits x y. Qed.

Lemma ibig_and_not_vv_yields x y : ibig_ok x -> ibig_ok y -> iyields (ibig_and_not_vv x y) (Z.ldiff (ival x) (ival y)).
Proof. unfold ibig_and_not_vv. ibits x y. Qed.
Lemma ibig_and_not_vr_yields x y : ibig_ok x -> ibig_ok y -> iyields (ibig_and_not_vr x y) (Z.ldiff (ival x) (ival y)).
Proof. unfold ibig_and_not_vr. ibits x y. Qed.
Lemma ibig_and_not_rv_yields x y : ibig_ok x -> ibig_ok y -> iyields (ibig_and_not_rv x y) (Z.ldiff (ival x) (ival y)).
Proof. unfold ibig_and_not_rv. ibits x y. Qed.
Lemma ibig_and_not_rr_yields x y : ibig_ok x -> ibig_ok y -> iyields (ibig_and_not_rr x y) (Z.ldiff (ival x) (ival y)).
Proof. unfold ibig_and_not_rr. ibits x y. Qed.

End BitsProofs.
