(** Parsing (src/parse) accepts exactly the numerals and returns their value. *)
From Verif Require Import Model.Base Model.Words Model.Mul Model.Buffer Model.UBig Model.IBig Model.AddOps
  Model.MulOps Model.Pow Model.Radix Model.Parse Spec.Val Spec.Num Spec.Digits Spec.Text
  Proofs.Basics Proofs.BufferProofs Proofs.AddOpsProofs Proofs.DigitsProofs Proofs.MulWordProofs Proofs.MulOpsProofs
  Proofs.ShiftOpsProofs Proofs.PowProofs Proofs.RadixProofs.
From Coq Require Import Lia.

Section Parse.
Context {A : Arch} {AOK : ArchOk A}.

Definition isd (r c d : Z) : Prop := digit_char c d /\ 0 <= d < r.
Definition dig (r : Z) (s ds : list Z) : Prop := Forall2 (isd r) s ds.
Definition bad (r : Z) (s : list Z) : Prop := forall ds, ~ dig r s ds.

Lemma dig_numeral r s v : numeral r s v <-> s <> [] /\ exists ds, dig r s ds /\ v = num r (rev ds).
Proof.
  assert (E : forall s ds, dig r s ds <-> Forall2 digit_char s ds /\ digits_ok r ds).
  { clear. induction s as [|c s IH]; intros ds; split; intros H.
    - inversion H; subst. split; constructor.
    - destruct H as [H _]. inversion H; subst. constructor.
    - inversion H as [|? d ? t [H1 H2] H3]; subst. apply IH in H3 as [H3 H4]. split; constructor; auto.
    - destruct H as [H H']. inversion H; subst. inversion H'; subst. constructor; [split; auto|]. apply IH. auto. }
  unfold numeral. split; intros [H (ds & H1)]; (split; [auto|]); exists ds; [|destruct H1 as [H1 H2]].
  - rewrite E. tauto.
  - apply E in H1. tauto.
Qed.

Lemma dig_ok r s ds : dig r s ds -> digits_ok r ds.
Proof. induction 1 as [|? ? ? ? [_ H]]; constructor; auto. Qed.
Lemma dig_len r s ds : dig r s ds -> length s = length ds.
Proof. induction 1; cbn [length]; auto. Qed.
Lemma dig_app r s1 s2 ds1 ds2 : dig r s1 ds1 -> dig r s2 ds2 -> dig r (s1 ++ s2) (ds1 ++ ds2).
Proof. apply Forall2_app. Qed.
Lemma dig_app_inv r s1 s2 ds : dig r (s1 ++ s2) ds -> exists d1 d2, ds = d1 ++ d2 /\ dig r s1 d1 /\ dig r s2 d2.
Proof. intros H. apply Forall2_app_inv_l in H as (d1 & d2 & H1 & H2 & E). exists d1, d2. auto. Qed.
Lemma dig_rev r s ds : dig r s ds -> dig r (rev s) (rev ds).
Proof.
  induction 1; cbn [rev]; [constructor|]. apply dig_app; [auto|]. constructor; [auto|constructor].
Qed.
Lemma bad_rev r s : bad r (rev s) <-> bad r s.
Proof. split; intros H ds D; apply dig_rev in D; [|rewrite rev_involutive in D]; eapply H; eauto. Qed.
Lemma bad_hd r c s : (forall d, ~ isd r c d) -> bad r (c :: s).
Proof. intros H ds D. inversion D; subst. eapply H; eauto. Qed.
Lemma bad_cons r c s : bad r s -> bad r (c :: s).
Proof. intros H ds D. inversion D; subst. eapply H; eauto. Qed.
Lemma bad_app_l r s t : bad r s -> bad r (s ++ t).
Proof. intros H ds D. apply dig_app_inv in D as (d1 & d2 & _ & D & _). eapply H; eauto. Qed.
Lemma bad_app_r r s t : bad r t -> bad r (s ++ t).
Proof. intros H ds D. apply dig_app_inv in D as (d1 & d2 & _ & _ & D). eapply H; eauto. Qed.

(** The canonical way a parser treats one piece of text. *)
Definition outcome {T} (r : Z) (s : list Z) (m : res (presult T)) (P : list Z -> T -> Prop) : Prop :=
  (exists ds x, dig r s ds /\ m = Ok (POk x) /\ P ds x) \/ (bad r s /\ m = Ok (PErr InvalidDigit)).

Context (r : Z) (Hr : 2 <= r <= 36).

Lemma digit_of_cases c :
  (exists d, isd r c d /\ digit_of c r = Ok (POk d)) \/
  ((forall d, ~ isd r c d) /\ digit_of c r = Ok (PErr InvalidDigit)).
Proof.
  unfold digit_of. destruct (digit_from_utf8_byte c r) as [d|] eqn:E.
  - left. exists d. split; [apply digit_from_spec; auto|reflexivity].
  - right. split; [|reflexivity]. intros d H. apply (digit_from_spec c r d Hr) in H. congruence.
Qed.

Lemma dig_dec s : (exists ds, dig r s ds) \/ bad r s.
Proof.
  induction s as [|c s [(ds & IH)|IH]]; [left; exists []; constructor| |right; apply bad_cons; auto].
  destruct (digit_of_cases c) as [(d & Hd & _)|[Hd _]]; [left; exists (d :: ds); constructor; auto|right; apply bad_hd; auto].
Qed.

Lemma digit_char_inj c d e : digit_char c d -> digit_char c e -> d = e.
Proof. unfold digit_char. lia. Qed.
Lemma dig_inj s x y : dig r s x -> dig r s y -> x = y.
Proof.
  intros H. revert y. induction H as [|c d s x [H1 _] H2 IH]; intros y H'; inversion H' as [|? e ? t [H3 _] H4]; subst; auto.
  f_equal; [eapply digit_char_inj; eauto|auto].
Qed.

(** ** Single words *)

Lemma shl_w_fit d bits : 0 <= bits -> 0 <= d -> d * 2 ^ bits < B -> shl_w d bits = d * 2 ^ bits.
Proof.
  intros Hb Hd H. unfold shl_w. rewrite Z.shiftl_mul_pow2 by auto. apply Z.mod_small. split; [|auto].
  apply Z.mul_nonneg_nonneg; [auto|]. apply Z.pow_nonneg. lia.
Qed.

Lemma checked32 z : 0 <= z < 2 ^ 32 -> checked 32 z = Ok z.
Proof. intros H. unfold checked. rewrite (proj2 (Z.leb_le _ _)), (proj2 (Z.ltb_lt _ _)) by lia. reflexivity. Qed.

Lemma p2_word_loop_spec lg : r = 2 ^ lg -> 1 <= lg <= 5 -> forall s word bits, 0 <= bits ->
  bits + lg * len s <= wbits -> 0 <= word < 2 ^ bits ->
  outcome r s (p2_word_loop r lg s word bits) (fun ds x => x = word + 2 ^ bits * num r ds).
Proof.
  intros Er Hl. pose proof wbits_cases as Wc. induction s as [|c s IH]; intros word bits Hb Hn Hw; cbn [p2_word_loop].
  - left. exists [], word. repeat split; [constructor|]. cbn [num]. lia.
  - unfold len in Hn. cbn [length] in Hn. rewrite Nat2Z.inj_succ in Hn.
    destruct (digit_of_cases c) as [(d & Hd & ->)|[Hd ->]]; cbn [pbind]; [|right; split; [apply bad_hd; auto|auto]].
    pose proof Hd as [_ Rd]. rewrite check_true by (apply Z.ltb_lt; nia). cbn [bind].
    assert (Rd' : d * 2 ^ bits < 2 ^ (bits + lg)).
    { rewrite Z.pow_add_r by lia. rewrite (Z.mul_comm (2 ^ bits)). apply Z.mul_lt_mono_pos_r; [apply Z.pow_pos_nonneg; lia|lia]. }
    assert (2 ^ (bits + lg) <= B) by (apply Z.pow_le_mono_r; nia).
    rewrite shl_w_fit by lia. rewrite lor_disjoint by auto. rewrite checked32 by nia. cbn [bind].
    assert (Hs : 2 ^ (bits + lg) = r * 2 ^ bits) by (rewrite Z.pow_add_r by lia; rewrite Er; ring).
    destruct (IH (word + d * 2 ^ bits) (bits + lg)) as [(ds & x & H1 & H2 & H3)|[H1 H2]]; [lia|unfold len; nia| | |].
    + assert (0 < 2 ^ bits) by (apply Z.pow_pos_nonneg; lia). nia.
    + left. exists (d :: ds), x. split; [constructor; auto|]. split; [auto|]. rewrite H3, Hs. cbn [num]. ring.
    + right. split; [apply bad_cons; auto|auto].
Qed.

Lemma np_word_loop_spec : forall s word n, 0 <= n -> 0 <= word < r ^ n -> r ^ (n + len s) <= B ->
  outcome r s (np_word_loop r s word) (fun ds x => x = word * r ^ len s + num r (rev ds)).
Proof.
  induction s as [|c s IH]; intros word n Hn Hw Hb; cbn [np_word_loop].
  - left. exists [], word. repeat split; [constructor|]. unfold len. cbn [num rev length]. change (Z.of_nat 0) with 0. rewrite Z.pow_0_r. lia.
  - unfold len in Hb |- *. cbn [length] in Hb |- *. rewrite Nat2Z.inj_succ in *.
    destruct (digit_of_cases c) as [(d & Hd & ->)|[Hd ->]]; cbn [pbind]; [|right; split; [apply bad_hd; auto|auto]].
    pose proof Hd as [_ Rd]. fold (len s) in *. pose proof (len_nonneg s) as Ls.
    assert (Hs : r ^ (n + 1) = r ^ n * r) by (rewrite Z.pow_add_r, Z.pow_1_r by lia; reflexivity).
    assert (r ^ (n + 1) <= B) by (eapply Z.le_trans; [|apply Hb]; apply Z.pow_le_mono_r; lia).
    assert (word * r + d < r ^ (n + 1)) by (rewrite Hs; nia).
    assert (0 <= word * r) by nia.
    unfold word_chk, checked. fold B. rewrite (proj2 (Z.leb_le _ _)), (proj2 (Z.ltb_lt _ _)) by lia. cbn [andb bind].
    rewrite (proj2 (Z.leb_le _ _)), (proj2 (Z.ltb_lt _ _)) by lia. cbn [andb bind].
    destruct (IH (word * r + d) (n + 1)) as [(ds & x & D1 & D2 & D3)|[D1 D2]]; [lia|lia| | |].
    + replace (n + 1 + len s) with (n + Z.succ (len s)) by lia. auto.
    + left. exists (d :: ds), x. split; [constructor; auto|]. split; [auto|]. rewrite D3. cbn [rev].
      rewrite num_app, num_single, rev_length, <- (dig_len _ _ _ D1). fold (len s). rewrite Z.pow_succ_r by lia. ring.
    + right. split; [apply bad_cons; auto|auto].
Qed.

Lemma np_parse_word_spec ri s : radix_info r = Ok ri -> np_info r ri -> len s <= digits_per_word ri ->
  outcome r s (np_parse_word s r) (fun ds x => x = num r (rev ds)).
Proof.
  intros Ei (N1 & N2 & N3 & N4 & _) Hl. unfold np_parse_word.
  rewrite check_true by (rewrite N1, (proj2 (is_radix_valid_iff r)) by auto; reflexivity). rewrite Ei. cbn [bind].
  rewrite check_true by (apply Z.leb_le; lia). cbn [bind].
  destruct (np_word_loop_spec s 0 0) as [H|H]; [lia|rewrite Z.pow_0_r; lia| | |right; auto].
  - rewrite Z.add_0_l. rewrite N3 in N4. apply Z.le_trans with (r ^ digits_per_word ri); [|lia]. apply Z.pow_le_mono_r; lia.
  - left. destruct H as (ds & x & H1 & H2 & H3). exists ds, x. repeat split; auto; lia.
Qed.

(** ** Whole numbers *)

(** The outcome for a string without a leading zero digit; the parser may give up
    on an over-long string before it finds the invalid digit. *)
Definition parses (m : res (presult ubig)) (v : Z) : Prop :=
  (v < MAXV -> exists u, m = Ok (POk u) /\ ubig_ok u /\ uval u = v) /\
  (MAXV <= v -> m = Panic NumberTooLarge).
Definition fails (s : list Z) (m : res (presult ubig)) : Prop :=
  (m = Ok (PErr InvalidDigit) \/ m = Panic NumberTooLarge) /\
  (r ^ (len s - 1) < MAXV -> m = Ok (PErr InvalidDigit)).
Definition full (s : list Z) (m : res (presult ubig)) : Prop :=
  (forall ds, dig r s ds -> parses m (num r (rev ds))) /\ (bad r s -> fails s m).

Lemma yields_parses m v : yields m v -> parses (pok m) v.
Proof.
  intros [Y1 Y2]. split; intros H.
  - destruct (Y1 H) as (u & -> & Hu). exists u. auto.
  - rewrite (Y2 H). reflexivity.
Qed.

Lemma dig_not_bad s ds : dig r s ds -> bad r s -> False.
Proof. intros H1 H2. eapply H2; eauto. Qed.

Lemma outcome_full s m (P : list Z -> ubig -> Prop) : outcome r s m P ->
  (forall ds u, dig r s ds -> P ds u -> ubig_ok u /\ uval u = num r (rev ds) /\ uval u < MAXV) -> full s m.
Proof.
  intros [(ds & x & H1 & -> & H3)|[H1 ->]] K.
  - destruct (K ds x H1 H3) as (K1 & K2 & K3). split; [|intros H; exfalso; eapply dig_not_bad; eauto].
    intros ds' H'. rewrite (dig_inj _ _ _ H' H1). split; intros; [exists x; auto|lia].
  - split; [intros ds H; exfalso; eapply dig_not_bad; eauto|]. intros _. split; auto.
Qed.

(** ** Powers of two *)

Lemma p2_large_loop_spec lg : r = 2 ^ lg -> 1 <= lg <= 5 -> forall s ws c word bits, wf ws -> 0 <= bits < wbits ->
  0 <= word < 2 ^ bits -> wbits * len ws + bits + lg * len s <= wbits * c ->
  (exists ds, dig r s ds /\ parses (p2_large_loop r lg s (mkBuffer ws c) word bits)
     (val ws + Bn (length ws) * (word + 2 ^ bits * num r ds))) \/
  (bad r s /\ p2_large_loop r lg s (mkBuffer ws c) word bits = Ok (PErr InvalidDigit)).
Proof.
  intros Er Hl. pose proof wbits_cases as Wc. pose proof B_ge as HB.
  induction s as [|ch s IH]; intros ws c word bits Ww Hb Hw Hc; cbn [p2_large_loop].
  - left. exists []. split; [constructor|]. unfold len in Hc at 2. cbn [length num] in *. pose proof (len_nonneg ws).
    assert (HwB : word < B) by (eapply Z.lt_le_trans; [apply Hw|]; apply Z.pow_le_mono_r; lia).
    destruct (Z.ltb_spec 0 bits) as [C|C].
    + assert (len ws < c) by nia. rewrite push_spec by auto. cbn [bind]. apply yields_parses.
      pose proof (from_buffer_yields (mkBuffer (ws ++ [word]) c)) as Y. cbn [words] in Y.
      rewrite val_app, val_single in Y. rewrite Z.mul_0_r, Z.add_0_r. apply Y.
      split; cbn [words cap]; [apply wf_app; split; auto; apply wf_cons; split; [lia|apply wf_nil]|].
      unfold blen. cbn [words]. rewrite len_app. unfold len at 2. cbn [length]. lia.
    + replace bits with 0 in * by lia. rewrite Z.pow_0_r in *. replace word with 0 by lia.
      rewrite Z.mul_1_l, Z.add_0_r, Z.mul_0_r, Z.add_0_r. cbn [bind]. apply yields_parses.
      apply (from_buffer_yields (mkBuffer ws c)). split; [auto|]. unfold blen. cbn [words cap]. nia.
  - unfold len in Hc at 2. cbn [length] in Hc. rewrite Nat2Z.inj_succ in Hc. fold (len s) in Hc.
    pose proof (len_nonneg s) as Ls. pose proof (len_nonneg ws) as Lw.
    destruct (digit_of_cases ch) as [(d & Hd & ->)|[Hd ->]]; cbn [pbind]; [|right; split; [apply bad_hd; auto|auto]].
    pose proof Hd as [_ Rd]. rewrite check_true by (apply Z.ltb_lt; lia). cbn [bind].
    assert (P0 : 0 < 2 ^ bits) by (apply Z.pow_pos_nonneg; lia).
    assert (Hs : 2 ^ (bits + lg) = r * 2 ^ bits) by (rewrite Z.pow_add_r by lia; rewrite Er; ring).
    rewrite checked32 by lia. cbn [bind].
    destruct (Z.leb_spec wbits (bits + lg)) as [C|C].
    + assert (len ws < c) by nia. rewrite push_spec by auto. cbn [bind]. rewrite check_true by (apply Z.ltb_lt; lia). cbn [bind].
      set (k := wbits - bits) in *. assert (Hk : 0 < k) by lia. assert (P1 : 0 < 2 ^ k) by (apply Z.pow_pos_nonneg; lia).
      assert (EB : B = 2 ^ k * 2 ^ bits) by (unfold B; rewrite <- Z.pow_add_r by lia; f_equal; lia).
      assert (Esh : shl_w d bits = (d mod 2 ^ k) * 2 ^ bits).
      { unfold shl_w. rewrite Z.shiftl_mul_pow2 by lia. rewrite EB. rewrite Z.mul_mod_distr_r by lia. reflexivity. }
      rewrite Esh. pose proof (Z.mod_pos_bound d (2 ^ k) P1) as Rm. rewrite lor_disjoint by (auto; lia).
      unfold shr_w. rewrite Z.shiftr_div_pow2 by lia. pose proof (Z.div_mod d (2 ^ k) ltac:(lia)) as Ed.
      pose proof (Z.div_pos d (2 ^ k) ltac:(lia) P1) as Dp.
      set (q := d / 2 ^ k) in *. set (m := d mod 2 ^ k) in *. clearbody q m.
      assert (Rq : q < 2 ^ (bits + lg - wbits)).
      { assert (r = 2 ^ k * 2 ^ (bits + lg - wbits)) as E2 by (rewrite Er, <- Z.pow_add_r by lia; f_equal; lia). nia. }
      assert (Rw : 0 <= word + m * 2 ^ bits < B) by (rewrite EB; nia).
      destruct (IH (ws ++ [word + m * 2 ^ bits]) c q (bits + lg - wbits)) as [(ds & D1 & D2)|[D1 D2]];
        [apply wf_app; split; auto; apply wf_cons; split; [lia|apply wf_nil]|lia|lia| | |].
      { rewrite len_app. unfold len at 2. cbn [length]. change (Z.of_nat 1) with 1. lia. }
      * left. exists (d :: ds). split; [constructor; auto|].
        match goal with H : parses ?m ?x |- parses ?m ?y => replace y with x; [exact H|] end.
        rewrite val_app, val_single, app_length. cbn [length num]. rewrite Nat.add_1_r, Bn_S.
        assert (B * 2 ^ (bits + lg - wbits) = r * 2 ^ bits) as E3.
        { rewrite <- Hs. unfold B. rewrite <- Z.pow_add_r by lia. f_equal. lia. }
        replace (Bn (length ws) * (word + 2 ^ bits * (d + r * num r ds)))
          with (Bn (length ws) * (word + 2 ^ bits * d + (r * 2 ^ bits) * num r ds)) by ring.
        rewrite <- E3. rewrite Ed. rewrite EB. ring.
      * right. split; [apply bad_cons; auto|auto].
    + assert (Rw : word + d * 2 ^ bits < 2 ^ (bits + lg)) by (rewrite Hs; nia).
      assert (2 ^ (bits + lg) <= B) by (apply Z.pow_le_mono_r; lia).
      rewrite shl_w_fit by lia. rewrite lor_disjoint by (auto; lia).
      destruct (IH ws c (word + d * 2 ^ bits) (bits + lg)) as [(ds & D1 & D2)|[D1 D2]]; [auto|lia|lia|lia| |].
      * left. exists (d :: ds). split; [constructor; auto|].
        match goal with H : parses ?m ?x |- parses ?m ?y => replace y with x; [exact H|] end. cbn [num]. rewrite Hs. ring.
      * right. split; [apply bad_cons; auto|auto].
Qed.

(** The first digit is not zero. *)
Definition no_lead (s : list Z) : Prop := match s with c :: _ => c <> 48 | [] => True end.

Lemma lead_bound s ds : dig r s ds -> no_lead s -> s <> [] -> r ^ (len s - 1) <= num r (rev ds).
Proof.
  intros D N NE. destruct D as [|c d s ds [Hc Hd] D]; [congruence|]. cbn [no_lead] in N.
  assert (d <> 0) by (intros ->; unfold digit_char in Hc; lia). cbn [rev].
  pose proof (dig_ok _ _ _ D) as O. apply digits_ok_rev in O. pose proof (num_bound r (rev ds) ltac:(lia) O) as Bd.
  rewrite num_app, num_single, rev_length, <- (dig_len _ _ _ D). unfold len. cbn [length]. rewrite Nat2Z.inj_succ.
  replace (Z.succ (Z.of_nat (length s)) - 1) with (Z.of_nat (length s)) by lia.
  assert (0 < r ^ Z.of_nat (length s)) by (apply Z.pow_pos_nonneg; lia). nia.
Qed.

Lemma num_rev_bound s ds : dig r s ds -> 0 <= num r (rev ds) < r ^ len s.
Proof.
  intros D. pose proof (dig_ok _ _ _ D) as O. apply digits_ok_rev in O. pose proof (num_bound r (rev ds) ltac:(lia) O) as Bd.
  rewrite rev_length, <- (dig_len _ _ _ D) in Bd. exact Bd.
Qed.

Lemma too_long_full s : no_lead s -> s <> [] -> MAXV <= r ^ (len s - 1) -> full s (Panic NumberTooLarge).
Proof.
  intros N NE H. split.
  - intros ds D. pose proof (lead_bound s ds D N NE). split; [lia|auto].
  - intros _. split; [auto|lia].
Qed.

Lemma word_MAXV w : w < B -> w < MAXV.
Proof. pose proof B_MAXV. pose proof B_ge. nia. Qed.

Lemma MAX_slack : wbits * (MAX_LEN + 1) <= USIZE_MAX.
Proof.
  unfold MAX_LEN, NTT_MAX_ORDER, USIZE_MAX.
  destruct wbits_cases as [-> | [-> | ->]]; destruct ubits_cases as [-> | [-> | ->]]; vm_compute; discriminate.
Qed.

Lemma p2_parse_large_spec s : is_pow2 r = true -> no_lead s -> s <> [] -> full s (p2_parse_large s r).
Proof.
  intros E N NE. destruct (radix_info_p2 r Hr E) as (ri & lg & Ei & (_ & Er & Hl & Et & Ed & _)).
  unfold p2_parse_large. rewrite check_true by (rewrite E, (proj2 (is_radix_valid_iff r)) by auto; reflexivity). cbn [bind].
  rewrite Et. assert (L1 : 1 <= len s) by (unfold len; destruct s; [congruence|cbn [length]; lia]).
  pose proof MAX_LEN_ge as ML. pose proof wbits_cases as Wc. pose proof MAX_slack as SL.
  assert (Big : wbits * (MAX_LEN + 1) < len s * lg -> full s (Panic NumberTooLarge)).
  { intros H. apply too_long_full; auto. unfold MAXV. rewrite Er, <- Z.pow_mul_r by lia. apply Z.pow_le_mono_r; [lia|]. nia. }
  destruct (Z.ltb_spec USIZE_MAX (len s * lg)) as [C|C]; [apply Big; lia|].
  unfold usize_chk, checked. unfold USIZE_MAX in C. rewrite (proj2 (Z.leb_le _ _)), (proj2 (Z.ltb_lt _ _)) by nia. cbn [andb bind].
  destruct (Z.lt_ge_cases MAX_CAPACITY ((len s * lg - 1) / wbits + 1)) as [C1|C1].
  - rewrite allocate_too_large by auto. cbn [bind]. apply Big. unfold MAX_CAPACITY in C1.
    assert (MAX_LEN + 4 <= (len s * lg - 1) / wbits) as C2 by lia. pose proof (Z.mul_div_le (len s * lg - 1) wbits ltac:(lia)). nia.
  - destruct (allocate_spec ((len s * lg - 1) / wbits + 1)) as (c & -> & C2 & C3).
    { split; [|auto]. assert (0 <= (len s * lg - 1) / wbits) by (apply Z.div_pos; nia). lia. }
    cbn [bind]. destruct (p2_large_loop_spec lg Er Hl (rev s) [] c 0 0) as [(ds & D1 & D2)|[D1 D2]];
      [apply wf_nil|lia|rewrite Z.pow_0_r; lia| | |].
    + unfold len. cbn [length]. rewrite rev_length. fold (len s).
      pose proof (Z.mul_succ_div_gt (len s * lg - 1) wbits ltac:(lia)). nia.
    + apply dig_rev in D1. rewrite rev_involutive in D1. split; [|intros H; exfalso; eapply dig_not_bad; eauto].
      intros ds' D'. rewrite (dig_inj _ _ _ D' D1), rev_involutive.
      cbn [val length] in D2. rewrite Z.pow_0_r, Bn_0, !Z.mul_1_l in D2. exact D2.
    + apply (proj1 (bad_rev _ _)) in D1. split; [intros ds D; exfalso; eapply dig_not_bad; eauto|]. intros _. split; auto.
Qed.

Lemma p2_parse_spec s : is_pow2 r = true -> no_lead s -> full s (p2_parse s r).
Proof.
  intros E N. unfold p2_parse. rewrite check_true by (rewrite E, (proj2 (is_radix_valid_iff r)) by auto; reflexivity). cbn [bind].
  destruct (radix_info_p2 r Hr E) as (ri & lg & Ei & (I1 & Er & Hl & Et & Ed & I2)). rewrite Ei. cbn [bind].
  destruct (Z.leb_spec (len s) (digits_per_word ri)) as [C|C].
  - assert (O : outcome r s (p2_parse_word s r) (fun ds x => x = num r (rev ds))).
    { unfold p2_parse_word. rewrite check_true by (rewrite E, (proj2 (is_radix_valid_iff r)) by auto; reflexivity). rewrite Ei. cbn [bind].
      rewrite check_true by (apply Z.leb_le; auto). cbn [bind]. rewrite Et.
      destruct (p2_word_loop_spec lg Er Hl (rev s) 0 0) as [(ds & x & D1 & D2 & D3)|[D1 D2]]; [lia| |rewrite Z.pow_0_r; lia| |].
      - unfold len. rewrite rev_length. fold (len s). rewrite Ed in C. pose proof (Z.mul_div_le wbits lg ltac:(lia)). nia.
      - left. apply dig_rev in D1. rewrite rev_involutive in D1. exists (rev ds), x. split; [auto|]. split; [auto|].
        rewrite rev_involutive, D3, Z.pow_0_r. lia.
      - right. split; [apply bad_rev; auto|auto]. }
    destruct O as [(ds & x & D1 & D2 & D3)|[D1 D2]]; rewrite D2; cbn [pbind].
    + apply (outcome_full s _ (fun ds u => u = from_word (num r (rev ds)))).
      * left. exists ds, (from_word x). subst x. auto.
      * intros ds' u D' ->. pose proof (num_rev_bound s ds' D') as Rb.
        assert (r ^ len s <= B) as LB.
        { rewrite Er, <- Z.pow_mul_r by (try lia; apply len_nonneg). apply Z.pow_le_mono_r; [lia|].
          rewrite Ed in C. pose proof (Z.mul_div_le wbits lg ltac:(lia)). nia. }
        cbn [from_word ubig_ok uval]. split; [lia|]. split; [auto|]. apply word_MAXV. lia.
    + apply (outcome_full s _ (fun _ _ => False)); [right; auto|tauto].
  - apply p2_parse_large_spec; auto. intros ->. unfold len in C. cbn [length] in C. rewrite Ed in C.
    assert (0 <= wbits / lg) by (apply Z.div_pos; [pose proof wbits_ge; lia|lia]). lia.
Qed.

(** ** Other radixes *)

Section NonPowerTwo.
Context (ri : RadixInfo) (Ei : radix_info r = Ok ri) (Hi : np_info r ri).

Notation dpw := (digits_per_word ri).
Notation range := (range_per_word ri).

Lemma np_check : is_radix_valid r && negb (is_pow2 r) = true.
Proof. destruct Hi as (N1 & _). rewrite N1, (proj2 (is_radix_valid_iff r)) by auto. reflexivity. Qed.

Lemma chunk_bytes_usize : usize_chk (PARSE_CHUNK_LEN * dpw) = Ok (PARSE_CHUNK_LEN * dpw).
Proof. destruct Hi as (_ & N & _). pose proof wbits_cases. unfold PARSE_CHUNK_LEN. apply usize_small. lia. Qed.

(** All groups but the first hold [dpw] digits. *)
Lemma np_chunk_loop_spec : forall groups ws c, wf ws ->
  Forall (fun g => len g <= dpw) groups -> Forall (fun g => len g = dpw) (tl groups) ->
  (ws = [] \/ Forall (fun g => len g = dpw) groups) ->
  len ws + Z.of_nat (length groups) <= c ->
  (exists ds, dig r (concat groups) ds /\
     parses (np_chunk_loop ri r groups (mkBuffer ws c)) (val ws * r ^ len (concat groups) + num r (rev ds))) \/
  (bad r (concat groups) /\ np_chunk_loop ri r groups (mkBuffer ws c) = Ok (PErr InvalidDigit)).
Proof.
  pose proof Hi as (_ & N2 & N3 & N4 & _). pose proof B_ge as HB.
  induction groups as [|g gs IH]; intros ws c Ww G1 G2 G3 Hc; cbn [np_chunk_loop concat].
  - left. exists []. split; [constructor|]. cbn [length rev num] in *. unfold len at 1. cbn [length]. change (Z.of_nat 0) with 0.
    rewrite Z.pow_0_r, Z.mul_1_r, Z.add_0_r. apply yields_parses. apply (from_buffer_yields (mkBuffer ws c)).
    split; [auto|]. unfold blen. cbn [words cap]. lia.
  - cbn [tl length] in *. rewrite Nat2Z.inj_succ in Hc. inversion G1 as [|? ? Lg G1']; subst.
    pose proof (len_nonneg ws) as Lw.
    destruct (np_parse_word_spec ri g Ei Hi Lg) as [(dg & x & D1 & -> & D3)|[D1 ->]]; cbn [pbind];
      [|right; split; [apply bad_app_l; auto|auto]].
    pose proof (num_rev_bound g dg D1) as Rx. rewrite <- D3 in Rx.
    assert (r ^ len g <= range) as Lr by (rewrite N3; apply Z.pow_le_mono_r; lia).
    destruct (mul_word_with_carry_spec ws range x) as (ws' & k & Em & L' & W' & Rk & V); [auto|lia|lia|].
    unfold on_words. cbn [words cap]. rewrite Em. cbn [bind].
    assert (Ev : val ws * range = val ws * r ^ len g).
    { destruct G3 as [->|G3]; [reflexivity|]. inversion G3 as [|? ? E3 _]; subst. rewrite E3, N3. reflexivity. }
    assert (exists b', (if k =? 0 then Ok (mkBuffer ws' c) else push (mkBuffer ws' c) k) = Ok (mkBuffer b' c) /\
      wf b' /\ len b' <= len ws + 1 /\ val b' = val ws * r ^ len g + x) as (b' & -> & W'' & L'' & V'').
    { assert (len ws' = len ws) as LL by (unfold len; rewrite L'; reflexivity).
      destruct (Z.eqb_spec k 0) as [->|K].
      - exists ws'. split; [auto|]. split; [auto|]. split; [lia|]. lia.
      - rewrite push_spec by lia. exists (ws' ++ [k]). split; [auto|].
        split; [apply wf_app; split; auto; apply wf_cons; split; [lia|apply wf_nil]|].
        rewrite len_app, val_app, val_single, L'. unfold len at 2. cbn [length]. split; lia. }
    cbn [bind].
    destruct (IH b' c) as [(ds & D4 & D5)|[D4 D5]]; [auto|auto|destruct gs; [constructor|]; inversion G2; auto|right; auto|lia| |].
    + left. exists (dg ++ ds). split; [apply dig_app; auto|].
      match goal with H : parses ?m ?x |- parses ?m ?y => replace y with x; [exact H|] end.
      rewrite V'', len_app, Z.pow_add_r by apply len_nonneg. rewrite rev_app_distr, num_app, rev_length, <- (dig_len _ _ _ D4).
      unfold len. rewrite D3. unfold len. ring.
    + right. split; [apply bad_app_r; auto|auto].
Qed.

Lemma chunks_spec {T} n : (0 < n)%nat -> forall fuel (l : list T), (length l <= fuel)%nat -> (length l mod n = 0)%nat ->
  concat (chunks fuel n l) = l /\ Forall (fun g => length g = n) (chunks fuel n l) /\
  (n * length (chunks fuel n l) = length l)%nat.
Proof.
  intros Hn. induction fuel as [|fuel IH]; intros l Hf Hl.
  - destruct l; [|cbn in Hf; lia]. cbn. repeat split; [constructor|lia].
  - destruct l as [|x l]; [cbn; repeat split; [constructor|lia]|]. cbn [chunks concat].
    assert (n <= length (x :: l))%nat as Ln.
    { destruct (Nat.lt_ge_cases (length (x :: l)) n) as [C|C]; [|auto]. rewrite Nat.mod_small in Hl by auto. cbn in Hl. lia. }
    assert (length (firstn n (x :: l)) = n) as Lf by (rewrite firstn_length; lia).
    destruct (IH (skipn n (x :: l))) as (I1 & I2 & I3).
    + rewrite skipn_length. cbn [length] in *. lia.
    + rewrite skipn_length.
      pose proof (Nat.mod_add (length (x :: l) - n) 1 n ltac:(lia)) as E. rewrite Nat.mul_1_l in E.
      replace (length (x :: l) - n + n)%nat with (length (x :: l)) in E by lia. lia.
    + rewrite I1, firstn_skipn. split; [auto|]. split; [constructor; auto|]. cbn [length]. rewrite skipn_length in I3. cbn [length] in *. lia.
Qed.

Lemma rchunks_rev_spec {T} n (l : list T) : (0 < n)%nat ->
  concat (rchunks_rev n l) = l /\ Forall (fun g => (length g <= n)%nat) (rchunks_rev n l) /\
  Forall (fun g => length g = n) (tl (rchunks_rev n l)) /\ (n * length (rchunks_rev n l) < length l + n)%nat.
Proof.
  intros Hn. unfold rchunks_rev. set (k := (length l mod n)%nat).
  assert (k < n)%nat as Hk by (apply Nat.mod_upper_bound; lia).
  assert (k <= length l)%nat as Hk2 by (apply Nat.mod_le; lia).
  destruct (chunks_spec n Hn (length l) (skipn k l)) as (C1 & C2 & C3).
  - rewrite skipn_length. lia.
  - rewrite skipn_length. unfold k. pose proof (Nat.div_mod (length l) n ltac:(lia)) as E.
    replace (length l - length l mod n)%nat with (length l / n * n)%nat by lia. apply Nat.mod_mul. lia.
  - rewrite skipn_length in C3.
    assert (C2' : Forall (fun g => (length g <= n)%nat) (chunks (length l) n (skipn k l))).
    { eapply Forall_impl; [|apply C2]. intros g Hg; cbn in Hg |- *; lia. }
    destruct (Nat.eqb_spec k 0) as [E|E]; cbn [app tl concat length].
    + rewrite C1. split; [rewrite E; reflexivity|]. split; [auto|]. split; [|lia].
      destruct (chunks _ _ _); [constructor|]. inversion C2; auto.
    + rewrite C1, firstn_skipn. split; [auto|]. split; [constructor; [rewrite firstn_length; lia|auto]|]. split; [auto|]. lia.
Qed.

Lemma np_parse_chunk_spec s : len s <= PARSE_CHUNK_LEN * dpw -> full s (np_parse_chunk s r).
Proof.
  intros Hl. pose proof Hi as (_ & N2 & N3 & N4 & _).
  unfold np_parse_chunk. rewrite check_true by apply np_check. rewrite Ei. cbn [bind]. rewrite chunk_bytes_usize. cbn [bind].
  rewrite check_true by (apply Z.leb_le; auto). cbn [bind].
  destruct (rchunks_rev_spec (Z.to_nat dpw) s) as (R1 & R2 & R3 & R4); [lia|].
  set (gs := rchunks_rev (Z.to_nat dpw) s) in *. clearbody gs. pose proof MAX_LEN_ge as ML.
  destruct (allocate_spec (Z.of_nat (length gs))) as (c & -> & C1 & _).
  { split; [lia|]. unfold MAX_CAPACITY. unfold len, PARSE_CHUNK_LEN in *.
    assert (Z.of_nat (length gs) * dpw < 257 * dpw) by nia. nia. }
  cbn [bind]. destruct (np_chunk_loop_spec gs [] c) as [(ds & D1 & D2)|[D1 D2]].
  - apply wf_nil.
  - eapply Forall_impl; [|apply R2]. intros g Hg. cbn in Hg. unfold len. lia.
  - eapply Forall_impl; [|apply R3]. intros g Hg. cbn in Hg. unfold len. lia.
  - auto.
  - unfold len. cbn [length]. lia.
  - rewrite R1 in *. cbn [val] in D2. rewrite Z.mul_0_l, Z.add_0_l in D2. split; [|intros H; exfalso; eapply dig_not_bad; eauto].
    intros ds' D'. rewrite (dig_inj _ _ _ D' D1). exact D2.
  - rewrite R1 in *. rewrite D2. split; [intros ds D; exfalso; eapply dig_not_bad; eauto|]. intros _. split; auto.
Qed.

(** [radix_powers], last element first. *)
Fixpoint powers_ok (cb : Z) (ps : list ubig) : Prop :=
  match ps with
  | [] => True
  | p :: t => ubig_ok p /\ uval p = r ^ (cb * 2 ^ Z.of_nat (length t)) /\ powers_ok cb t
  end.

Lemma shl_usize_ok x n : 0 <= x -> 0 <= n < ubits -> x * 2 ^ n < 2 ^ ubits -> shl_usize x n = Ok (x * 2 ^ n).
Proof.
  intros Hx Hn H. unfold shl_usize. rewrite check_true by (apply Z.ltb_lt; lia). cbn [bind].
  rewrite Z.shiftl_mul_pow2 by lia. rewrite Z.mod_small; [reflexivity|]. split; [|auto].
  apply Z.mul_nonneg_nonneg; [lia|]. apply Z.pow_nonneg. lia.
Qed.

Lemma r_pow_le a b : 0 <= a <= b -> r ^ a <= r ^ b.
Proof. intros. apply Z.pow_le_mono_r; lia. Qed.

(** A piece that is known to be a numeral has a value or is too large. *)
Lemma full_cases s m : full s m ->
  (exists ds u, dig r s ds /\ m = Ok (POk u) /\ ubig_ok u /\ uval u = num r (rev ds)) \/
  (exists ds, dig r s ds /\ m = Panic NumberTooLarge /\ MAXV <= num r (rev ds)) \/
  (bad r s /\ m = Ok (PErr InvalidDigit)) \/
  (bad r s /\ m = Panic NumberTooLarge /\ MAXV <= r ^ (len s - 1)).
Proof.
  intros [F1 F2]. destruct (dig_dec s) as [(ds & D)|D].
  - destruct (F1 ds D) as [P1 P2]. destruct (Z.lt_ge_cases (num r (rev ds)) MAXV) as [C|C].
    + left. destruct (P1 C) as (u & H1 & H2 & H3). exists ds, u. auto.
    + right; left. exists ds. auto.
  - destruct (F2 D) as [[H|H] H2]; [auto|]. right; right; right. split; [auto|]. split; [auto|].
    apply Z.nlt_ge. intros C. specialize (H2 C). congruence.
Qed.

Lemma np_dc_spec cb : cb = PARSE_CHUNK_LEN * dpw -> forall ps s, powers_ok cb ps -> Z.of_nat (length ps) < ubits ->
  cb * 2 ^ Z.of_nat (length ps) < 2 ^ ubits -> len s <= cb * 2 ^ Z.of_nat (length ps) ->
  full s (np_divide_conquer s r cb ps).
Proof.
  intros Ecb. pose proof Hi as (_ & N2 & N3 & N4 & _).
  assert (Hcb : 0 < cb) by (unfold PARSE_CHUNK_LEN in *; lia).
  induction ps as [|p ps IH]; intros s Hp Hk H2 Hl; cbn [np_divide_conquer].
  - rewrite shl_usize_ok by (auto; lia). cbn [bind]. rewrite check_true by (apply Z.leb_le; auto). cbn [bind].
    apply np_parse_chunk_spec. cbn [length] in Hl. change (Z.of_nat 0) with 0 in Hl. rewrite Z.pow_0_r in Hl. lia.
  - rewrite shl_usize_ok by (auto; lia). cbn [bind]. rewrite check_true by (apply Z.leb_le; auto). cbn [bind].
    destruct Hp as (P1 & P2 & P3). cbn [length] in *. rewrite Nat2Z.inj_succ, Z.pow_succ_r in * by lia.
    set (L := cb * 2 ^ Z.of_nat (length ps)) in *.
    assert (PL : 0 < L) by (apply Z.mul_pos_pos; [auto|apply Z.pow_pos_nonneg; lia]).
    assert (EL : cb * (2 * 2 ^ Z.of_nat (length ps)) = 2 * L) by (unfold L; ring). rewrite EL in *.
    rewrite shl_usize_ok by (fold L; lia). fold L. cbn [bind].
    destruct (Z.leb_spec (len s) L) as [C|C]; [apply IH; auto; lia|].
    unfold split_at. rewrite (proj2 (Nat.leb_le _ _)) by (unfold len; lia). cbn [bind].
    set (k := Z.to_nat (len s - L)). rewrite <- (firstn_skipn k s) at 1.
    assert (length (firstn k s) = k) as Lf by (rewrite firstn_length; unfold k, len; lia).
    assert (length (skipn k s) = length s - k)%nat as Ls by (rewrite skipn_length; reflexivity).
    set (hi := firstn k s) in *. set (lo := skipn k s) in *.
    assert (Lh : len hi = len s - L) by (unfold len in *; rewrite Lf; unfold k; unfold len in *; lia).
    assert (Ll : len lo = L) by (unfold len in *; rewrite Ls; unfold k; unfold len in *; lia).
    clearbody hi lo. clear Lf Ls k.
    pose proof (full_cases hi _ (IH hi P3 ltac:(lia) ltac:(lia) ltac:(lia))) as FH.
    pose proof (full_cases lo _ (IH lo P3 ltac:(lia) ltac:(lia) ltac:(lia))) as FL. clear IH.
    assert (Lhl : len (hi ++ lo) = len s) by (rewrite len_app; lia).
    assert (RL : 0 < r ^ L) by (apply Z.pow_pos_nonneg; lia).
    assert (Split : forall d1 d2, dig r hi d1 -> dig r lo d2 ->
      num r (rev (d1 ++ d2)) = num r (rev d1) * r ^ L + num r (rev d2)).
    { intros d1 d2 D1 D2. rewrite rev_app_distr, num_app, rev_length, <- (dig_len _ _ _ D2). fold (len lo). rewrite Ll. ring. }
    assert (Sub : forall x y, 0 <= x -> 0 <= y -> MAXV <= x -> MAXV <= x * r ^ L + y) by (intros; nia).
    destruct FH as [(d1 & u1 & D1 & -> & U1 & V1)|[(d1 & D1 & -> & V1)|[(D1 & ->)|(D1 & -> & V1)]]]; cbn [pbind].
    2:{ (* the high part is too large *)
      pose proof (num_rev_bound hi d1 D1) as R1.
      split; [intros ds D; apply dig_app_inv in D as (e1 & e2 & -> & D3 & D4)|intros Bd].
      - rewrite Split by auto. rewrite (dig_inj _ _ _ D3 D1). pose proof (num_rev_bound lo e2 D4). split; [|auto].
        specialize (Sub (num r (rev d1)) (num r (rev e2))). lia.
      - split; [auto|]. rewrite Lhl. intros HH. assert (r ^ len hi <= r ^ (len s - 1)) by (apply r_pow_le; split; [apply len_nonneg|lia]). lia. }
    2:{ split; [intros ds D; apply dig_app_inv in D as (e1 & e2 & -> & D3 & D4); exfalso; eapply (dig_not_bad hi); eauto|].
        intros _. split; auto. }
    2:{ split; [intros ds D; apply dig_app_inv in D as (e1 & e2 & -> & D3 & D4); exfalso; eapply (dig_not_bad hi); eauto|].
        intros _. split; [auto|]. rewrite Lhl. intros HH.
        assert (r ^ (len hi - 1) <= r ^ (len s - 1)) by (apply r_pow_le; lia). lia. }
    pose proof (num_rev_bound hi d1 D1) as R1.
    destruct FL as [(d2 & u2 & D2 & -> & U2 & V2)|[(d2 & D2 & -> & V2)|[(D2 & ->)|(D2 & -> & V2)]]]; cbn [pbind].
    2:{ split; [intros ds D; apply dig_app_inv in D as (e1 & e2 & -> & D3 & D4)|intros Bd].
      - rewrite Split by auto. rewrite (dig_inj _ _ _ D3 D1), (dig_inj _ _ _ D4 D2). split; [|auto]. nia.
      - exfalso. eapply Bd. apply dig_app; eauto. }
    2:{ split; [intros ds D; apply dig_app_inv in D as (e1 & e2 & -> & D3 & D4); exfalso; eapply (dig_not_bad lo); eauto|].
        intros _. split; auto. }
    2:{ split; [intros ds D; apply dig_app_inv in D as (e1 & e2 & -> & D3 & D4); exfalso; eapply (dig_not_bad lo); eauto|].
        intros _. split; [auto|]. rewrite Lhl. intros HH.
        assert (r ^ (len lo - 1) <= r ^ (len s - 1)) by (apply r_pow_le; lia). lia. }
    pose proof (num_rev_bound lo d2 D2) as R2.
    split; [|intros Bd; exfalso; eapply Bd; apply dig_app; eauto].
    intros ds D. rewrite (dig_inj _ _ _ D (dig_app _ _ _ _ _ D1 D2)), Split by auto.
    assert (Y : yields (p <- ubig_mul_vr u1 p ;; ubig_add_vv p u2) (num r (rev d1) * r ^ L + num r (rev d2))).
    { apply yields_bind with (num r (rev d1) * r ^ L); [rewrite <- V1, <- P2; apply ubig_mul_vr_yields; auto|lia|].
      intros u Hu Vu. rewrite <- Vu, <- V2. apply ubig_add_vv_yields; auto. }
    apply yields_parses in Y. destruct (ubig_mul_vr u1 p); exact Y.
Qed.

Lemma powers_loop_spec cb n : 1 <= cb -> n < 2 ^ (ubits - 1) -> forall fuel ps, powers_ok cb ps -> ps <> [] ->
  cb * 2 ^ (Z.of_nat (length ps) - 1) < n -> ubits <= Z.of_nat (length ps + fuel) ->
  (exists ps', powers_loop fuel cb n ps = Ok ps' /\ powers_ok cb ps' /\ Z.of_nat (length ps') < ubits /\
    n <= cb * 2 ^ Z.of_nat (length ps') < 2 ^ ubits) \/
  (powers_loop fuel cb n ps = Panic NumberTooLarge /\ MAXV <= r ^ (n - 1)).
Proof.
  intros Hcb Hn. assert (Hu : 16 <= ubits) by (destruct ubits_cases as [-> | [-> | ->]]; lia).
  assert (EU : 2 ^ ubits = 2 * 2 ^ (ubits - 1)) by (rewrite <- Z.pow_succ_r by lia; f_equal; lia).
  assert (Small : forall ps : list ubig, ps <> [] -> cb * 2 ^ (Z.of_nat (length ps) - 1) < n ->
    0 <= Z.of_nat (length ps) - 1 /\ Z.of_nat (length ps) < ubits /\ cb * 2 ^ Z.of_nat (length ps) < 2 ^ ubits).
  { intros ps NE H. assert (0 <= Z.of_nat (length ps) - 1) as Hk by (destruct ps; [congruence|cbn [length]; lia]).
    split; [auto|]. set (k := Z.of_nat (length ps)) in *. clearbody k.
    replace (2 ^ k) with (2 * 2 ^ (k - 1)) by (rewrite <- Z.pow_succ_r by lia; f_equal; lia). split; [|lia].
    apply Z.nle_gt. intros C. assert (2 ^ (ubits - 1) <= 2 ^ (k - 1)) by (apply Z.pow_le_mono_r; lia). nia. }
  induction fuel as [|fuel IH]; intros ps Hp NE Hl Hf; destruct (Small ps NE Hl) as (S0 & S1 & S2); [lia|].
  cbn [powers_loop]. rewrite check_true by (apply Z.ltb_lt; auto). cbn [bind].
  rewrite Z.shiftr_div_pow2 by lia. assert (P2 : 0 < 2 ^ Z.of_nat (length ps)) by (apply Z.pow_pos_nonneg; lia).
  destruct (Z.leb_spec cb ((n - 1) / 2 ^ Z.of_nat (length ps))) as [C|C].
  - destruct ps as [|p ps]; [congruence|]. pose proof Hp as (P3 & P4 & P5).
    assert (C' : cb * 2 ^ Z.of_nat (length (p :: ps)) <= n - 1).
    { pose proof (Z.mul_div_le (n - 1) _ P2). nia. }
    assert (V2 : uval p * uval p = r ^ (cb * 2 ^ Z.of_nat (length (p :: ps)))).
    { rewrite P4, <- Z.pow_add_r by (apply Z.mul_nonneg_nonneg; [lia|apply Z.pow_nonneg; lia]).
      f_equal. cbn [length]. rewrite Nat2Z.inj_succ, Z.pow_succ_r by lia. ring. }
    pose proof (ubig_mul_rr_yields p p P3 P3) as [Y1 Y2]. rewrite V2 in Y1, Y2.
    destruct (Z.lt_ge_cases (r ^ (cb * 2 ^ Z.of_nat (length (p :: ps)))) MAXV) as [D|D].
    + destruct (Y1 D) as (u & -> & Hu1 & Vu). cbn [bind]. apply IH.
      * split; [auto|]. split; [auto|auto].
      * discriminate.
      * cbn [length] in *. rewrite !Nat2Z.inj_succ in *.
        replace (Z.succ (Z.succ (Z.of_nat (length ps))) - 1) with (Z.succ (Z.of_nat (length ps))) by lia. lia.
      * cbn [length] in *. lia.
    + right. rewrite (Y2 D). split; [reflexivity|]. eapply Z.le_trans; [apply D|]. apply r_pow_le. split; [nia|lia].
  - left. exists ps. split; [auto|]. split; [auto|]. split; [auto|]. split; [|auto].
    pose proof (Z.mul_succ_div_gt (n - 1) _ P2). nia.
Qed.

Lemma np_parse_large_spec s : PARSE_CHUNK_LEN * dpw < len s -> len s < 2 ^ (ubits - 1) -> no_lead s ->
  full s (np_parse_large s r).
Proof.
  intros Hl Hu N. pose proof Hi as (_ & N2 & N3 & N4 & _). pose proof B_ge.
  unfold np_parse_large. rewrite check_true by apply np_check. rewrite Ei. cbn [bind]. rewrite chunk_bytes_usize. cbn [bind].
  rewrite check_true by (apply Z.ltb_lt; auto). cbn [bind]. unfold PARSE_CHUNK_LEN in *. set (cb := 256 * dpw) in *.
  assert (Hcb : 256 <= cb) by lia.
  assert (NE : s <> []) by (intros ->; unfold len in Hl; cbn in Hl; lia).
  assert (Hrg : ubig_ok (from_word range)) by (cbn [from_word ubig_ok]; lia).
  destruct (ubig_pow_spec (from_word range) 256 Hrg) as [Y1 Y2].
  { split; [lia|]. apply Z.lt_le_trans with (2 ^ 16); [lia|]. apply Z.pow_le_mono_r; [lia|]. destruct ubits_cases as [-> | [-> | ->]]; lia. }
  cbn [from_word uval] in Y1, Y2. rewrite N3, <- Z.pow_mul_r in Y1, Y2 by lia. replace (dpw * 256) with cb in Y1, Y2 by (unfold cb; ring).
  rewrite <- N3 in Y1, Y2. destruct (Z.lt_ge_cases (r ^ cb) MAXV) as [C|C].
  - destruct (Y1 C) as (p & -> & Hp & Vp). cbn [bind].
    destruct (powers_loop_spec cb (len s) ltac:(lia) Hu (Z.to_nat ubits) [p]) as [(ps & -> & P1 & P2 & P3)|[-> P1]].
    + cbn [powers_ok length]. change (Z.of_nat 0) with 0. rewrite Z.pow_0_r, Z.mul_1_r. auto.
    + discriminate.
    + cbn [length]. change (Z.of_nat 1 - 1) with 0. rewrite Z.pow_0_r, Z.mul_1_r. auto.
    + cbn [length]. lia.
    + cbn [bind]. apply np_dc_spec; auto; lia.
    + cbn [bind]. apply too_long_full; auto.
  - rewrite (Y2 C). cbn [bind]. apply too_long_full; auto. eapply Z.le_trans; [apply C|]. apply r_pow_le. lia.
Qed.

Lemma np_parse_spec_i s : len s < 2 ^ (ubits - 1) -> no_lead s -> full s (np_parse s r).
Proof.
  intros Hu N. pose proof Hi as (_ & N2 & N3 & N4 & _).
  unfold np_parse. rewrite check_true by apply np_check. rewrite Ei. cbn [bind].
  destruct (Z.leb_spec (len s) dpw) as [C|C].
  - pose proof (np_parse_word_spec ri s Ei Hi C) as O.
    destruct O as [(ds & x & D1 & D2 & D3)|[D1 D2]]; rewrite D2; cbn [pbind].
    + apply (outcome_full s _ (fun ds u => u = from_word (num r (rev ds)))).
      * left. exists ds, (from_word x). subst x. auto.
      * intros ds' u D' ->. pose proof (num_rev_bound s ds' D') as Rb.
        assert (r ^ len s <= B) as LB.
        { apply Z.le_trans with range; [|lia]. rewrite N3. apply r_pow_le. split; [apply len_nonneg|lia]. }
        cbn [from_word ubig_ok uval]. split; [lia|]. split; [auto|]. apply word_MAXV. lia.
    + apply (outcome_full s _ (fun _ _ => False)); [right; auto|tauto].
  - rewrite chunk_bytes_usize. cbn [bind]. destruct (Z.leb_spec (len s) (PARSE_CHUNK_LEN * dpw)) as [C1|C1].
    + apply np_parse_chunk_spec. auto.
    + apply np_parse_large_spec; auto.
Qed.
End NonPowerTwo.

Lemma np_parse_spec s : is_pow2 r = false -> len s < 2 ^ (ubits - 1) -> no_lead s -> full s (np_parse s r).
Proof. intros E. destruct (radix_info_np r Hr E) as (ri & E1 & E2). apply (np_parse_spec_i ri); auto. Qed.

(** ** Leading zeros *)

Lemma strip_zeros_spec s : exists k, s = repeat 48 k ++ strip_zeros s /\ no_lead (strip_zeros s).
Proof.
  induction s as [|c s (k & E & N)]; [exists O; split; [auto|exact I]|]. cbn [strip_zeros].
  destruct (Z.eqb_spec c 48) as [->|C].
  - exists (S k). split; [|auto]. cbn [repeat app]. f_equal. auto.
  - exists O. split; [auto|auto].
Qed.

Lemma dig_zeros k : dig r (repeat 48 k) (repeat 0 k).
Proof. induction k; cbn [repeat]; constructor; auto. split; [left; lia|lia]. Qed.

(** What parsing an unsigned string does. *)
Lemma no_sign_spec s : len s < 2 ^ (ubits - 1) -> s <> [] -> exists k t, s = repeat 48 k ++ t /\ no_lead t /\
  (forall ds, dig r s ds -> parses (from_str_radix_no_sign s r) (num r (rev ds))) /\
  (bad r s -> fails t (from_str_radix_no_sign s r)).
Proof.
  intros Hs NE. destruct (strip_zeros_spec s) as (k & E & N). exists k, (strip_zeros s).
  split; [auto|]. split; [auto|].
  assert (Hl : len (strip_zeros s) < 2 ^ (ubits - 1)).
  { rewrite E, len_app in Hs. pose proof (len_nonneg (repeat 48 k)). lia. }
  assert (F : full (strip_zeros s) (from_str_radix_no_sign s r)).
  { unfold from_str_radix_no_sign. rewrite check_true by (apply is_radix_valid_iff; auto). cbn [bind].
    destruct s as [|c s]; [congruence|]. destruct (is_pow2 r) eqn:Ep; [apply p2_parse_spec|apply np_parse_spec]; auto. }
  destruct F as [F1 F2]. split.
  - intros ds D. rewrite E in D. apply dig_app_inv in D as (d1 & d2 & -> & D1 & D2).
    rewrite (dig_inj _ _ _ D1 (dig_zeros k)). rewrite rev_app_distr, num_app.
    replace (rev (repeat 0 k)) with (repeat 0 k).
    + rewrite num_repeat0, Z.mul_0_r, Z.add_0_r. auto.
    + clear. induction k as [|k IH]; [reflexivity|]. cbn [repeat rev]. rewrite <- IH.
      change (0 :: repeat 0 k = repeat 0 k ++ [0]). clear. induction k as [|k IH]; [reflexivity|]. cbn [repeat app]. f_equal. exact IH.
  - intros Bd. apply F2. intros ds D. eapply Bd. rewrite E. apply dig_app; [apply dig_zeros|eauto].
Qed.

Lemma no_sign_empty : from_str_radix_no_sign [] r = Ok (PErr NoDigits).
Proof. unfold from_str_radix_no_sign. rewrite check_true by (apply is_radix_valid_iff; auto). reflexivity. Qed.
End Parse.
