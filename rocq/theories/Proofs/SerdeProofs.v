(** Serialization regroups the words into base-2^64 digits, and deserialization undoes it. *)
From Verif Require Import Model.Base Model.Words Model.Buffer Model.UBig Model.IBig Model.Convert Model.Serde
  Spec.Val Spec.Num Spec.Prim Spec.Digits Proofs.Basics Proofs.DigitsProofs Proofs.ShiftProofs Proofs.BufferProofs Proofs.ConvertProofs.
From Coq Require Import Lia.

Section SerdeProofs.
Context {A : Arch} {AOK : ArchOk A}.

Definition WP : Z := Z.of_nat WORDS_PER_U64.

Lemma WP_spec : WP * wbits = 64 /\ (1 <= WORDS_PER_U64 <= 4)%nat.
Proof. unfold WP, WORDS_PER_U64. destruct wbits_cases as [-> | [-> | ->]]; cbn; lia. Qed.
Lemma B_WP : B ^ WP = 2 ^ 64.
Proof. unfold B. rewrite <- Z.pow_mul_r by (pose proof wbits_ge; unfold WP; lia). rewrite Z.mul_comm. f_equal. apply WP_spec. Qed.

Lemma pow2_mul i : 0 <= i -> 2 ^ (i * wbits) = B ^ i.
Proof. intros. unfold B. rewrite <- Z.pow_mul_r by (pose proof wbits_ge; lia). f_equal. ring. Qed.

(** ** Serialization *)

Lemma chunk_word_spec c : forall i acc, wf c -> 0 <= i -> i + len c <= WP -> 0 <= acc < B ^ i ->
  chunk_word i c acc = Ok (acc + B ^ i * val c).
Proof.
  destruct WP_spec as [HW _]. pose proof wbits_ge as Hw. pose proof B_ge as HB. assert (0 < B) as PB by lia.
  induction c as [|w t IH]; intros i acc W Hi Hl Ha; cbn [chunk_word val].
  - f_equal. lia.
  - assert (len (w :: t) = 1 + len t) as L by (unfold len; cbn [length]; lia). pose proof (len_nonneg t) as Lt.
    rewrite L in Hl. inversion W as [|? ? Ww Wt]; subst. unfold word_ok in Ww.
    rewrite check_true by (apply Z.ltb_lt; clear - HW Hl Lt Hw; nia).
    pose proof (Z.pow_pos_nonneg B i PB Hi) as Pi.
    assert (B ^ (i + 1) = B * B ^ i) as PS by (rewrite Z.add_1_r, Z.pow_succ_r by lia; reflexivity).
    assert (B ^ (i + 1) <= 2 ^ 64) as P64 by (rewrite <- B_WP; apply Z.pow_le_mono_r; lia).
    rewrite Z.shiftl_mul_pow2, pow2_mul by (clear - Hi Hw; nia).
    rewrite Z.mod_small by (clear - Ww Pi PS P64; nia).
    rewrite <- (pow2_mul i Hi), lor_disjoint, (pow2_mul i Hi); [|clear - Hi Hw; nia|rewrite pow2_mul by lia; auto].
    rewrite IH; [|auto|lia|lia|rewrite PS; clear - Ha Ww Pi; nia].
    f_equal. rewrite PS. ring.
Qed.

Lemma chunk_words_spec fuel : forall ws, wf ws -> (length ws <= fuel)%nat ->
  exists es, chunk_words (chunks fuel WORDS_PER_U64 ws) = Ok es /\ length es = length (chunks fuel WORDS_PER_U64 ws) /\
    digits_ok (2 ^ 64) es /\ num (2 ^ 64) es = val ws /\
    (es = [] <-> ws = []) /\ (last ws 1 <> 0 -> last es 1 <> 0).
Proof.
  destruct WP_spec as [_ HW]. pose proof B_ge as HB. assert (0 < B) as PB by lia.
  induction fuel as [|fuel IH]; intros ws W L.
  - destruct ws; [|cbn in L; lia]. exists []. cbn. repeat split; auto; try constructor; try lia; discriminate.
  - destruct ws as [|w t] eqn:Ew; [exists []; cbn; repeat split; auto; try constructor; try lia; discriminate|]. rewrite <- Ew in *.
    assert (chunks (S fuel) WORDS_PER_U64 ws = firstn WORDS_PER_U64 ws :: chunks fuel WORDS_PER_U64 (skipn WORDS_PER_U64 ws)) as -> by (rewrite Ew; reflexivity).
    assert (ws <> []) as NE by (rewrite Ew; discriminate). clear Ew w t.
    pose proof (firstn_skipn WORDS_PER_U64 ws) as E.
    set (c := firstn WORDS_PER_U64 ws) in *. set (r := skipn WORDS_PER_U64 ws) in *.
    assert (length c = Nat.min WORDS_PER_U64 (length ws)) as Lc by (apply firstn_length).
    assert (length r = length ws - WORDS_PER_U64)%nat as Lr by (apply skipn_length).
    clearbody c r. rewrite <- E in W. apply Forall_app in W as [Wc Wr].
    assert (1 <= length ws)%nat as L1 by (destruct ws; [congruence|cbn; lia]).
    destruct (IH r Wr) as (es & E1 & E2 & E3 & E4 & E5 & E6); [lia|].
    cbn [chunk_words]. rewrite chunk_word_spec; [|auto|lia| |rewrite Z.pow_0_r; lia].
    2:{ unfold len, WP. rewrite Lc. lia. }
    cbn [bind]. rewrite E1. cbn [bind]. rewrite Z.pow_0_r, Z.add_0_l, Z.mul_1_l.
    pose proof (val_bound c Wc) as Vc.
    assert (val c < 2 ^ 64) as V64.
    { rewrite <- B_WP. eapply Z.lt_le_trans; [apply Vc|]. unfold Bn. apply Z.pow_le_mono_r; [lia|]. unfold WP. lia. }
    eexists; split; [reflexivity|]. cbn [length]. split; [lia|]. split; [constructor; auto; split; [apply Vc|auto]|].
    split.
    { cbn [num]. rewrite E4, <- E, val_app. destruct (Nat.le_gt_cases (length ws) WORDS_PER_U64).
      - assert (r = []) as -> by (apply length_zero_iff_nil; lia). cbn [val]. ring.
      - replace (length c) with WORDS_PER_U64 by lia. unfold Bn. fold WP. rewrite B_WP. ring. }
    split; [split; [discriminate|congruence]|].
    intros Hlast. destruct es as [|e es'] eqn:Ees.
    + cbn [last]. assert (r = []) as Er by (apply E5; auto). rewrite Er, app_nil_r in E. subst ws.
      pose proof (val_top c Wc) as T. destruct c as [|x y] using rev_ind; [cbn in NE; congruence|].
      rewrite last_last in Hlast. specialize (T ltac:(rewrite last_last; auto)).
      unfold Bn in T. pose proof (Z.pow_pos_nonneg B (Z.of_nat (length (y ++ [x]) - 1)) PB (Nat2Z.is_nonneg _)). lia.
    + rewrite <- Ees in *. assert (es <> []) as Ne by (rewrite Ees; discriminate).
      assert (r <> []) as Nr by (intros X; apply Ne, E5, X).
      assert (last (val c :: es) 1 = last es 1) as -> by (destruct es; [congruence|reflexivity]).
      apply E6. rewrite <- E in Hlast. destruct r as [|x y] using rev_ind; [congruence|]. rewrite app_assoc, last_last in Hlast. rewrite last_last. auto.
Qed.

Lemma last_01 (l : list Z) : last l 1 <> 0 -> l = [] \/ last l 0 <> 0.
Proof. destruct l as [|x y] using rev_ind; [auto|]. rewrite !last_last. auto. Qed.

Lemma as_words_spec u : ubig_ok u -> wf (as_words u) /\ val (as_words u) = uval u /\ last (as_words u) 1 <> 0.
Proof.
  intros H. destruct u as [w|b]; cbn [as_words uval].
  - cbn in H. destruct (Z.eqb_spec w 0) as [->|].
    + cbn. split; [constructor|lia].
    + cbn [val last]. split; [constructor; [auto|constructor]|]. lia.
  - destruct H as (W & L & T & _). split; [auto|]. split; [auto|].
    destruct (words b) as [|x y] using rev_ind; [cbn in L; lia|]. rewrite last_last in *. auto.
Qed.

Lemma ubig_serialize_spec u : ubig_ok u -> exists es, ubig_serialize u = Ok (Z.of_nat (length es), es) /\
  digits_ok (2 ^ 64) es /\ (es = [] \/ last es 0 <> 0) /\ num (2 ^ 64) es = uval u.
Proof.
  intros H. destruct (as_words_spec u H) as (W & V & T). unfold ubig_serialize.
  destruct (chunk_words_spec (length (as_words u)) (as_words u) W (le_n _)) as (es & -> & L & D & N & _ & La). cbn [bind].
  exists es. rewrite L. split; [reflexivity|]. split; [auto|]. split; [apply last_01; auto|congruence].
Qed.

(** ** Deserialization *)

Lemma push_parts_spec k : forall i w ws c, 0 <= i -> i + Z.of_nat k <= WP -> 0 <= w < B ^ (i + Z.of_nat k) ->
  len ws + Z.of_nat k <= c ->
  exists ps, push_parts k i w (mkBuffer ws c) = Ok (mkBuffer (ws ++ ps) c) /\ wf ps /\ length ps = k /\ val ps = w / B ^ i.
Proof.
  destruct WP_spec as [HW _]. pose proof wbits_ge as Hw. pose proof B_ge as HB. assert (0 < B) as PB by lia.
  induction k as [|k IH]; intros i w ws c Hi Hk Hb Hc; cbn [push_parts].
  - exists []. rewrite app_nil_r. repeat split; auto; [constructor|]. cbn. symmetry. apply Z.div_small. replace (i + Z.of_nat 0) with i in Hb by lia. auto.
  - rewrite check_true by (apply Z.ltb_lt; clear - HW Hk Hw; nia).
    rewrite Z.shiftr_div_pow2, pow2_mul by (try (clear - Hi Hw; nia); lia).
    rewrite push_spec by lia. cbn [bind].
    destruct (IH (i + 1) w (ws ++ [(w / B ^ i) mod B]) c) as (ps & -> & W & L & V).
    { lia. } { lia. } { replace (i + 1 + Z.of_nat k) with (i + Z.of_nat (S k)) by lia. auto. }
    { unfold len in *. rewrite app_length. cbn [length]. lia. }
    exists ((w / B ^ i) mod B :: ps). rewrite <- app_assoc. split; [reflexivity|].
    split; [constructor; [apply Z.mod_pos_bound; lia|auto]|]. split; [cbn; lia|].
    cbn [val]. rewrite V, Z.pow_add_r, Z.pow_1_r by lia.
    pose proof (Z.pow_pos_nonneg B i PB Hi).
    rewrite <- Z.div_div by lia. rewrite Z.add_comm. symmetry. apply Z.div_mod. lia.
Qed.

Lemma push_word_64_spec w ws c : 0 <= w < 2 ^ 64 -> len ws + WP <= c ->
  exists ps, push_word_64 (mkBuffer ws c) w = Ok (mkBuffer (ws ++ ps) c) /\ wf ps /\ length ps = WORDS_PER_U64 /\ val ps = w.
Proof.
  intros Hw Hc. unfold push_word_64. destruct (push_parts_spec WORDS_PER_U64 0 w ws c) as (ps & E & W & L & V).
  { lia. } { unfold WP. lia. } { rewrite Z.add_0_l. fold WP. rewrite B_WP. auto. } { auto. }
  exists ps. rewrite Z.pow_0_r, Z.div_1_r in V. auto.
Qed.

Lemma push_all_spec es : forall ws c, digits_ok (2 ^ 64) es -> wf ws -> len ws + len es * WP <= c ->
  exists ps, push_all es (mkBuffer ws c) = Ok (mkBuffer (ws ++ ps) c) /\ wf ps /\ len ps = len es * WP /\ val ps = num (2 ^ 64) es.
Proof.
  induction es as [|e es IH]; intros ws c D W L; cbn [push_all].
  - exists []. rewrite app_nil_r. repeat split; auto. constructor.
  - apply digits_ok_cons in D as [De Des]. assert (len (e :: es) = 1 + len es) as Le by (unfold len; cbn [length]; lia).
    rewrite Le in L. pose proof (len_nonneg es). assert (0 <= WP) by (unfold WP; lia).
    destruct (push_word_64_spec e ws c De) as (p1 & -> & W1 & L1 & V1); [nia|]. cbn [bind].
    assert (len (ws ++ p1) = len ws + WP) as L2 by (unfold len, WP; rewrite app_length, L1; lia).
    destruct (IH (ws ++ p1) c Des) as (p2 & -> & W2 & L3 & V2); [apply Forall_app; auto|rewrite L2; lia|].
    exists (p1 ++ p2). rewrite app_assoc. split; [reflexivity|]. split; [apply Forall_app; auto|].
    split; [rewrite Le; unfold len in *; rewrite app_length; unfold WP in *; lia|].
    rewrite val_app, L1, V1, V2. cbn [num]. unfold Bn. fold WP. rewrite B_WP. reflexivity.
Qed.

Lemma read_hinted_eq es : forall b, read_hinted (length es) es b = (b <- push_all es b ;; Ok (b, [])).
Proof.
  induction es as [|e es IH]; intros b; cbn [read_hinted push_all length]; [reflexivity|].
  cbn [next_unwrap bind]. destruct (push_word_64 b e) as [b'|p]; cbn [bind]; auto.
Qed.

Definition slice64_ok (es : list Z) : Prop := Z.of_nat (length es) < 2 ^ ubits.

Lemma max_capacity_lt : MAX_CAPACITY < 2 ^ ubits.
Proof.
  unfold MAX_CAPACITY, MAX_LEN, USIZE_MAX. unfold NTT_MAX_ORDER.
  destruct wbits_cases as [-> | [-> | ->]]; destruct ubits_cases as [-> | [-> | ->]]; vm_compute; reflexivity.
Qed.

Lemma read_all es (T : Type) (k : Buffer -> res T) : digits_ok (2 ^ 64) es -> len es * WP <= MAX_CAPACITY ->
  exists ps c, (m <- len_64_to_max_len (len es) ;; b <- allocate m ;; b <- push_all es b ;; k b) = k (mkBuffer ps c) /\
    buffer_ok (mkBuffer ps c) /\ val ps = num (2 ^ 64) es.
Proof.
  intros D L. pose proof max_capacity_lt. pose proof (len_nonneg es). assert (0 <= WP) by (unfold WP; lia).
  unfold len_64_to_max_len. fold WP. rewrite (proj2 (Z.ltb_lt _ _)) by lia. cbn [bind].
  destruct (allocate_spec (len es * WP)) as (c & -> & Hc & _); [nia|]. cbn [bind].
  destruct (push_all_spec es [] c D (Forall_nil _)) as (ps & E & W & Lp & V); [change (len []) with 0; lia|]. rewrite E. cbn [bind app].
  exists ps, c. split; [reflexivity|]. split; [|auto]. split; [auto|]. unfold blen. cbn [words cap]. lia.
Qed.

Lemma read_too_large es (T : Type) (k : Z -> Buffer -> res T) : MAX_CAPACITY < len es * WP ->
  (m <- len_64_to_max_len (len es) ;; b <- allocate m ;; k m b) = Panic NumberTooLarge.
Proof.
  intros L. unfold len_64_to_max_len. fold WP. destruct (Z.ltb_spec (len es * WP) (2 ^ ubits)); [|reflexivity]. cbn [bind].
  rewrite allocate_too_large by auto. reflexivity.
Qed.

(** What a deserializer that knows the length, or does not, may announce. *)
Definition hint_of (es : list Z) (h : option Z) : Prop := h = None \/ h = Some (Z.of_nat (length es)).

Lemma MAXV_B : MAXV = B ^ MAX_LEN.
Proof. unfold MAXV, B. rewrite <- Z.pow_mul_r; [reflexivity|pose proof wbits_ge; lia|pose proof MAX_LEN_ge; lia]. Qed.

Lemma deserialize_fits es h : digits_ok (2 ^ 64) es -> hint_of es h -> len es * WP <= MAX_LEN + 4 ->
  yields (ubig_deserialize h es) (num (2 ^ 64) es).
Proof.
  intros D H L. fold MAX_CAPACITY in L. unfold ubig_deserialize, visit_seq. destruct H as [-> | ->].
  - destruct (read_all es _ from_buffer D L) as (ps & c & -> & Hb & <-). apply (from_buffer_yields (mkBuffer ps c)). auto.
  - fold (len es). destruct (Z.eqb_spec (len es) 0) as [E0|N0].
    { assert (es = []) as -> by (apply length_zero_iff_nil; unfold len in E0; lia). cbn.
      unfold yields. pose proof B_ge as HB. assert (0 < B) as PB by lia. split; [|intros X].
      - intros _. exists (Small 0). cbn. repeat split; lia.
      - assert (0 < MAXV) by (unfold MAXV; apply Z.pow_pos_nonneg; [lia|pose proof wbits_ge; pose proof MAX_LEN_ge; nia]). lia. }
    destruct (Z.eqb_spec (len es) 1) as [E1|N1].
    { destruct es as [|e [|? ?]]; [discriminate E1| |unfold len in E1; cbn [length] in E1; lia].
      apply digits_ok_cons in D as [De _]. cbn [next_unwrap bind assert_end assert num].
      rewrite Z.mul_0_r, Z.add_0_r. destruct (ubig_from_unsigned_spec 64 e) as (u & E & Hu & V); [unfold prim_bits; lia|auto|].
      pose proof (ubig_ok_val u Hu). rewrite V in *. split; [eauto|lia]. }
    assert (Z.to_nat (len es) = length es) as -> by (unfold len; lia).
    destruct (read_all es _ from_buffer D L) as (ps & c & E & Hb & <-).
    assert (forall m, (b <- allocate m ;; '(b, seq) <- read_hinted (length es) es b ;; _ <- assert_end seq ;; from_buffer b)
      = (b <- allocate m ;; b <- push_all es b ;; from_buffer b)) as R.
    { intros m. destruct (allocate m) as [b|]; cbn [bind]; [|reflexivity]. rewrite read_hinted_eq.
      destruct (push_all es b); reflexivity. }
    destruct (len_64_to_max_len (len es)) as [m|p]; cbn [bind] in *; [rewrite R|]; rewrite E; apply (from_buffer_yields (mkBuffer ps c)); auto.
Qed.

Lemma deserialize_too_long es h : hint_of es h -> MAX_LEN + 4 < len es * WP ->
  ubig_deserialize h es = Panic NumberTooLarge.
Proof.
  intros H L. fold MAX_CAPACITY in L. unfold ubig_deserialize, visit_seq.
  assert (5 <= MAX_CAPACITY) as M by (unfold MAX_CAPACITY; pose proof MAX_LEN_ge; lia).
  destruct WP_spec as [_ HW]. destruct H as [-> | ->].
  - apply (read_too_large es _ (fun m b => b <- push_all es b ;; from_buffer b)); auto.
  - fold (len es). unfold WP in *. pose proof (len_nonneg es).
    rewrite (proj2 (Z.eqb_neq (len es) 0)), (proj2 (Z.eqb_neq (len es) 1)) by lia.
    apply (read_too_large es _ (fun m b => '(b, seq) <- read_hinted (Z.to_nat (len es)) es b ;; _ <- assert_end seq ;; from_buffer b)); auto.
Qed.

Lemma deserialize_canonical es h : digits_ok (2 ^ 64) es -> es = [] \/ last es 0 <> 0 -> hint_of es h ->
  yields (ubig_deserialize h es) (num (2 ^ 64) es).
Proof.
  intros D T H. destruct (Z.le_gt_cases (len es * WP) (MAX_LEN + 4)) as [L|L]; [apply deserialize_fits; auto|].
  pose proof MAX_LEN_ge as M. pose proof B_ge as HB. assert (0 < B) as PB by lia. destruct WP_spec as [HW1 HW].
  destruct T as [->|T]; [change (len []) with 0 in L; lia|].
  pose proof (num_top (2 ^ 64) es eq_refl D T) as Nt.
  assert (MAXV <= num (2 ^ 64) es).
  { eapply Z.le_trans; [|apply Nt]. rewrite MAXV_B, <- B_WP, <- Z.pow_mul_r by (unfold WP; lia).
    apply Z.pow_le_mono_r; [lia|]. unfold len, WP in *.
    assert (1 <= length es)%nat by (destruct es; [cbn in T; lia|cbn; lia]). clear - L HW H0. nia. }
  split; [intros; lia|]. intros _. apply deserialize_too_long; auto.
Qed.

Lemma ubig_roundtrip u h : ubig_ok u -> (exists n es, ubig_serialize u = Ok (n, es) /\
  (h = None \/ h = Some n -> returns (ubig_deserialize h es) (uval u))).
Proof.
  intros Hu. destruct (ubig_serialize_spec u Hu) as (es & E & D & T & V). exists (Z.of_nat (length es)), es. split; [auto|].
  intros H. destruct (deserialize_canonical es h D T H) as [Y _]. rewrite V in Y. apply Y. apply ubig_ok_val; auto.
Qed.

Lemma ibig_serialize_spec x : ibig_ok x -> exists es,
  ibig_serialize x = Ok (if ival x <? 0 then Negative else Positive, (Z.of_nat (length es), es)) /\
  digits_ok (2 ^ 64) es /\ (es = [] \/ last es 0 <> 0) /\ num (2 ^ 64) es = Z.abs (ival x).
Proof.
  intros Hx. destruct (ubig_serialize_spec (imag x) (proj1 Hx)) as (es & E & D & T & V). exists es.
  unfold ibig_serialize. rewrite E. cbn [bind]. rewrite (ibig_abs_val x Hx), V. split; [|auto].
  destruct Hx as [Hm Hz]. pose proof (uval_nonneg _ Hm). unfold ival. f_equal. f_equal.
  destruct (isign x); cbn [sign_val].
  - rewrite (proj2 (Z.ltb_ge _ _)) by lia. reflexivity.
  - destruct (Z.ltb_spec (-1 * uval (imag x)) 0); [reflexivity|]. apply Hz. lia.
Qed.

Lemma ibig_deserialize_spec s h es z : yields (ubig_deserialize h es) z -> 0 <= z ->
  iyields (ibig_deserialize s h es) (sign_val s * z).
Proof.
  intros [Y1 Y2] Hz. unfold ibig_deserialize, iyields.
  assert (Z.abs (sign_val s * z) = z) as -> by (destruct s; cbn; lia). split; intros L.
  - destruct (Y1 L) as (u & -> & Hu & V). cbn [bind]. destruct (from_sign_magnitude_spec s u Hu) as [H1 H2].
    eexists; split; [reflexivity|]. split; [auto|congruence].
  - rewrite (Y2 L). reflexivity.
Qed.

Lemma ibig_deserialize_canonical s h es : digits_ok (2 ^ 64) es -> es = [] \/ last es 0 <> 0 -> hint_of es h ->
  iyields (ibig_deserialize s h es) (sign_val s * num (2 ^ 64) es).
Proof. intros D T H. apply ibig_deserialize_spec; [apply deserialize_canonical; auto|apply num_bound; auto; lia]. Qed.

Lemma ibig_deserialize_fits s h es : digits_ok (2 ^ 64) es -> hint_of es h -> len es * WP <= MAX_LEN + 4 ->
  iyields (ibig_deserialize s h es) (sign_val s * num (2 ^ 64) es).
Proof. intros D T H. apply ibig_deserialize_spec; [apply deserialize_fits; auto|apply num_bound; auto; lia]. Qed.

Lemma ibig_roundtrip x h : ibig_ok x -> (exists s n es, ibig_serialize x = Ok (s, (n, es)) /\
  (h = None \/ h = Some n -> ireturns (ibig_deserialize s h es) (ival x))).
Proof.
  intros Hx. destruct (ibig_serialize_spec x Hx) as (es & E & D & T & V).
  eexists _, (Z.of_nat (length es)), es. split; [exact E|]. intros H.
  destruct (ibig_deserialize_canonical (if ival x <? 0 then Negative else Positive) h es D T H) as [Y _].
  rewrite V in Y. replace (sign_val (if ival x <? 0 then Negative else Positive) * Z.abs (ival x)) with (ival x) in Y
    by (destruct (Z.ltb_spec (ival x) 0); cbn [sign_val]; lia).
  apply Y. apply ibig_ok_val; auto.
Qed.

Lemma fits_iff es : 64 * Z.of_nat (length es) <= wbits * (MAX_LEN + 4) <-> len es * WP <= MAX_LEN + 4.
Proof. unfold len. destruct WP_spec as [H _]. pose proof wbits_ge. pose proof MAX_LEN_ge. clear - H H0. rewrite <- H. split; nia. Qed.

Lemma deserialize_padded es h : digits_ok (2 ^ 64) es -> h = None \/ h = Some (Z.of_nat (length es)) ->
  (64 * Z.of_nat (length es) <= wbits * (MAX_LEN + 4) -> yields (ubig_deserialize h es) (num (2 ^ 64) es)) /\
  (wbits * (MAX_LEN + 4) < 64 * Z.of_nat (length es) -> ubig_deserialize h es = Panic NumberTooLarge).
Proof.
  intros D H. pose proof (fits_iff es). split; intros L.
  - apply deserialize_fits; auto. tauto.
  - apply deserialize_too_long; auto. lia.
Qed.

Lemma ibig_deserialize_padded es h s : digits_ok (2 ^ 64) es -> h = None \/ h = Some (Z.of_nat (length es)) ->
  (64 * Z.of_nat (length es) <= wbits * (MAX_LEN + 4) -> iyields (ibig_deserialize s h es) (sign_val s * num (2 ^ 64) es)) /\
  (wbits * (MAX_LEN + 4) < 64 * Z.of_nat (length es) -> ibig_deserialize s h es = Panic NumberTooLarge).
Proof.
  intros D H. pose proof (fits_iff es). split; intros L.
  - apply ibig_deserialize_fits; auto. tauto.
  - unfold ibig_deserialize. rewrite deserialize_too_long; auto. lia.
Qed.

(** Zeros beyond the capacity of the largest buffer. *)
Lemma padded_panics : exists n, Z.of_nat (length (repeat 0 n)) < 2 ^ ubits /\
  num (2 ^ 64) (repeat 0 n) = 0 /\ ubig_deserialize None (repeat 0 n) = Panic NumberTooLarge.
Proof.
  pose proof max_capacity_lt as L. unfold MAX_CAPACITY in L. pose proof MAX_LEN_ge as M. destruct WP_spec as [HW1 HW].
  exists (Z.to_nat (MAX_LEN + 5)). rewrite repeat_length, num_repeat0. split; [|split; [reflexivity|]].
  - rewrite Z2Nat.id by lia. clear L M HW1 HW. unfold MAX_LEN, USIZE_MAX, NTT_MAX_ORDER.
    destruct wbits_cases as [-> | [-> | ->]]; destruct ubits_cases as [-> | [-> | ->]]; vm_compute; reflexivity.
  - apply deserialize_too_long; [left; reflexivity|]. unfold len, WP. rewrite repeat_length, Z2Nat.id by lia. nia.
Qed.
End SerdeProofs.

Lemma serialize_platform (A1 A2 : Arch) (O1 : ArchOk A1) (O2 : ArchOk A2) (u1 : @ubig) (u2 : @ubig) :
  @ubig_ok A1 u1 -> @ubig_ok A2 u2 -> @uval A1 u1 = @uval A2 u2 -> @ubig_serialize A1 u1 = @ubig_serialize A2 u2.
Proof.
  intros H1 H2 E. destruct (@ubig_serialize_spec A1 O1 u1 H1) as (e1 & -> & D1 & T1 & V1).
  destruct (@ubig_serialize_spec A2 O2 u2 H2) as (e2 & -> & D2 & T2 & V2).
  assert (e1 = e2) as -> by (apply (num_canon (2 ^ 64)); auto; [reflexivity|congruence]). reflexivity.
Qed.

Lemma serialize_platform_i (A1 A2 : Arch) (O1 : ArchOk A1) (O2 : ArchOk A2) (x1 : @ibig) (x2 : @ibig) :
  @ibig_ok A1 x1 -> @ibig_ok A2 x2 -> @ival A1 x1 = @ival A2 x2 -> @ibig_serialize A1 x1 = @ibig_serialize A2 x2.
Proof.
  intros H1 H2 E. destruct (@ibig_serialize_spec A1 O1 x1 H1) as (e1 & -> & D1 & T1 & V1).
  destruct (@ibig_serialize_spec A2 O2 x2 H2) as (e2 & -> & D2 & T2 & V2).
  assert (e1 = e2) as -> by (apply (num_canon (2 ^ 64)); auto; [reflexivity|congruence]). rewrite E. reflexivity.
Qed.
