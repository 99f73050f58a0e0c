(** Formatting: the public functions, and reading the text back. *)
From Verif Require Import Model.Base Model.Words Model.Memory Model.Buffer Model.UBig Model.IBig
  Model.Convert Model.Radix Model.Parse Model.Fmt Spec.Val Spec.Num Spec.Digits Spec.Text Spec.ParseResult Spec.FmtText
  Proofs.Basics Proofs.BufferProofs Proofs.DigitsProofs Proofs.RadixProofs Proofs.ParseProofs Proofs.ParseApi
  Proofs.DigitWriterProofs Proofs.FmtProofs Proofs.FmtApi.
From Coq Require Import Lia.

(** Canonical digits are unique. *)
Lemma canonical_unique radix v ds es : 2 <= radix -> canonical radix v ds -> canonical radix v es -> ds = es.
Proof.
  intros Hr (D1 & E1 & H1) (D2 & E2 & H2).
  assert (LH : forall l : list Z, last (rev l) 0 = hd 0 l).
  { intros [|x l]; [reflexivity|]. cbn [rev hd]. apply last_last. }
  assert (Z0 : forall l, digits_ok radix l -> hd 0 l <> 0 -> num radix (rev l) <> 0).
  { intros l D H E. pose proof (reads_lead radix 0 l ltac:(lia) (conj D E) H) as P.
    assert (0 < radix ^ (Z.of_nat (length l) - 1)). { apply Z.pow_pos_nonneg; [lia|]. destruct l; [cbn in H; congruence|cbn [length]; lia]. }
    lia. }
  destruct H1 as [->|H1], H2 as [->|H2]; auto.
  - exfalso. apply (Z0 es D2 H2). rewrite E2, <- E1. cbn. lia.
  - exfalso. apply (Z0 ds D1 H1). rewrite E1, <- E2. cbn. lia.
  - rewrite <- (rev_involutive ds), <- (rev_involutive es). f_equal.
    apply (num_canon radix); try (apply digits_ok_rev; auto); try lia; right; rewrite LH; auto.
Qed.

(** The length of the output. *)
Lemma padded_length f sgn pre dig :
  length (padded f sgn pre dig) =
  match f_width f with Some w => Nat.max (Z.to_nat w) (length (sgn ++ pre ++ dig)) | None => length (sgn ++ pre ++ dig) end.
Proof.
  unfold padded. set (n := length (sgn ++ pre ++ dig)).
  assert (En : n = (length sgn + (length pre + length dig))%nat) by (unfold n; rewrite !app_length; reflexivity).
  destruct (f_zero_pad f).
  - rewrite !app_length, repeat_length, En. destruct (f_width f); lia.
  - rewrite !app_length, !repeat_length. unfold n in *. rewrite !app_length in *.
    set (p := match f_width f with Some w => _ | None => _ end).
    assert (left_fill (f_align f) p <= p)%nat.
    { unfold left_fill. destruct (f_align f) as [[]|]; lia. }
    unfold p in *. destruct (f_width f); lia.
Qed.

Lemma padded_plain f sgn pre dig : f_width f = None -> padded f sgn pre dig = sgn ++ pre ++ dig.
Proof.
  intros E. unfold padded. rewrite E. destruct (f_zero_pad f); [reflexivity|].
  replace (left_fill (f_align f) 0) with 0%nat by (destruct (f_align f) as [[]|]; reflexivity). cbn [repeat app Nat.sub]. apply app_nil_r.
Qed.

Lemma shows_prints m f radix upper prefix v : f_width f = None -> shows m f radix upper prefix v -> prints m f radix upper prefix v.
Proof. intros E (ds & C & ->). exists ds. split; [exact C|]. rewrite padded_plain by auto. reflexivity. Qed.

Section FmtRound.
Context {A : Arch} {AOK : ArchOk A} (be : bool).

Lemma uval_shows u f radix case prefix : ubig_ok u -> 2 <= radix <= 36 -> case_fits case radix -> (length prefix <= 2)%nat -> width_ok f ->
  shows (fmt_full be (mkInRadixFull Positive u radix prefix case) f) f radix (is_upper case) prefix (uval u).
Proof.
  intros Hu Hr HC HP HW.
  destruct (fmt_full_spec be (mkInRadixFull Positive u radix prefix case) f Hu Hr HC HP HW) as (ds & C & E).
  cbn [irf_radix irf_magnitude irf_prefix irf_case irf_sign is_negative] in *. exists ds. pose proof (uval_nonneg u Hu).
  rewrite Z.abs_eq by auto. split; [exact C|]. rewrite E. rewrite (proj2 (Z.ltb_ge _ _)) by auto. reflexivity.
Qed.

Lemma ival_shows x f radix case prefix : ibig_ok x -> 2 <= radix <= 36 -> case_fits case radix -> (length prefix <= 2)%nat -> width_ok f ->
  shows (fmt_full be (mkInRadixFull (isign x) (imag x) radix prefix case) f) f radix (is_upper case) prefix (ival x).
Proof.
  intros [Hu Hs] Hr HC HP HW.
  destruct (fmt_full_spec be (mkInRadixFull (isign x) (imag x) radix prefix case) f Hu Hr HC HP HW) as (ds & C & E).
  cbn [irf_radix irf_magnitude irf_prefix irf_case irf_sign] in *. exists ds. pose proof (uval_nonneg _ Hu) as NN.
  assert (EV : Z.abs (ival x) = uval (imag x) /\ (ival x <? 0) = is_negative (isign x)).
  { unfold ival, sign_val. destruct (isign x) eqn:Es; cbn [is_negative].
    - split; [lia|]. apply Z.ltb_ge. lia.
    - split; [lia|]. apply Z.ltb_lt. assert (uval (imag x) <> 0) by (intros E0; specialize (Hs E0); congruence). lia. }
  destruct EV as [EV1 EV2]. rewrite EV1, EV2. split; [exact C|]. exact E.
Qed.

Lemma prefix_len f c : (length (alt_prefix f c) <= 2)%nat.
Proof. unfold alt_prefix. destruct (f_alternate f); cbn; lia. Qed.

Theorem ubig_shows u f : ubig_ok u -> width_ok f ->
  shows (ubig_display be u f) f 10 false [] (uval u) /\
  shows (ubig_debug be u f) f 10 false [] (uval u) /\
  shows (ubig_binary be u f) f 2 false (alt_prefix f 98) (uval u) /\
  shows (ubig_octal be u f) f 8 false (alt_prefix f 111) (uval u) /\
  shows (ubig_lower_hex be u f) f 16 false (alt_prefix f 120) (uval u) /\
  shows (ubig_upper_hex be u f) f 16 true (alt_prefix f 120) (uval u).
Proof.
  intros Hu HW. repeat split.
  1,2: apply (uval_shows u f 10 NoLetters []); auto; cbn; lia.
  - apply (uval_shows u f 2 NoLetters); auto using prefix_len; cbn; lia.
  - apply (uval_shows u f 8 NoLetters); auto using prefix_len; cbn; lia.
  - apply (uval_shows u f 16 Lower); auto using prefix_len; cbn; lia.
  - apply (uval_shows u f 16 Upper); auto using prefix_len; cbn; lia.
Qed.

Theorem ibig_shows x f : ibig_ok x -> width_ok f ->
  shows (ibig_display be x f) f 10 false [] (ival x) /\
  shows (ibig_debug be x f) f 10 false [] (ival x) /\
  shows (ibig_binary be x f) f 2 false (alt_prefix f 98) (ival x) /\
  shows (ibig_octal be x f) f 8 false (alt_prefix f 111) (ival x) /\
  shows (ibig_lower_hex be x f) f 16 false (alt_prefix f 120) (ival x) /\
  shows (ibig_upper_hex be x f) f 16 true (alt_prefix f 120) (ival x).
Proof.
  intros Hu HW. repeat split.
  1,2: apply (ival_shows x f 10 NoLetters []); auto; cbn; lia.
  - apply (ival_shows x f 2 NoLetters); auto using prefix_len; cbn; lia.
  - apply (ival_shows x f 8 NoLetters); auto using prefix_len; cbn; lia.
  - apply (ival_shows x f 16 Lower); auto using prefix_len; cbn; lia.
  - apply (ival_shows x f 16 Upper); auto using prefix_len; cbn; lia.
Qed.

Lemma shows_low m f radix up1 up2 prefix v : 2 <= radix <= 10 -> shows m f radix up1 prefix v -> shows m f radix up2 prefix v.
Proof.
  intros Hr (ds & C & E). exists ds. split; [exact C|]. rewrite E. f_equal. f_equal.
  destruct C as (D & _). clear - D Hr. induction D as [|d t Hd Ht IH]; cbn [map]; [reflexivity|]. rewrite IH. f_equal.
  unfold digit_text. rewrite (proj2 (Z.leb_le d 9)) by lia. reflexivity.
Qed.

Theorem ubig_in_radix_shows u radix f : ubig_ok u -> width_ok f -> 2 <= radix <= 36 ->
  shows (ubig_in_radix_text be u radix f) f radix (f_alternate f) [] (uval u).
Proof.
  intros Hu HW Hr. unfold ubig_in_radix_text, ubig_in_radix. rewrite valid_ok by auto. cbn [bind]. unfold in_radix_display.
  cbn [ir_radix ir_sign ir_magnitude]. destruct (Z.leb_spec radix 10) as [L|G].
  - apply (shows_low _ _ _ false); [lia|]. apply (uval_shows u f radix NoLetters []); auto; cbn; lia.
  - destruct (f_alternate f).
    + apply (uval_shows u f radix Upper []); auto; cbn; lia.
    + apply (uval_shows u f radix Lower []); auto; cbn; lia.
Qed.

Theorem ibig_in_radix_shows x radix f : ibig_ok x -> width_ok f -> 2 <= radix <= 36 ->
  shows (ibig_in_radix_text be x radix f) f radix (f_alternate f) [] (ival x).
Proof.
  intros Hu HW Hr. unfold ibig_in_radix_text, ibig_in_radix. rewrite valid_ok by auto. cbn [bind]. unfold in_radix_display.
  cbn [ir_radix ir_sign ir_magnitude]. destruct (Z.leb_spec radix 10) as [L|G].
  - apply (shows_low _ _ _ false); [lia|]. apply (ival_shows x f radix NoLetters []); auto; cbn; lia.
  - destruct (f_alternate f).
    + apply (ival_shows x f radix Upper []); auto; cbn; lia.
    + apply (ival_shows x f radix Lower []); auto; cbn; lia.
Qed.

Theorem in_radix_invalid u x radix : ~ 2 <= radix <= 36 ->
  ubig_in_radix u radix = Panic InvalidRadix /\ ibig_in_radix x radix = Panic InvalidRadix.
Proof.
  intros H. unfold ubig_in_radix, ibig_in_radix, check_radix_valid. rewrite is_radix_invalid by auto. auto.
Qed.

Theorem ubig_prints u f : ubig_ok u -> f_width f = None ->
  prints (ubig_display be u f) f 10 false [] (uval u) /\
  prints (ubig_debug be u f) f 10 false [] (uval u) /\
  prints (ubig_binary be u f) f 2 false (alt_prefix f 98) (uval u) /\
  prints (ubig_octal be u f) f 8 false (alt_prefix f 111) (uval u) /\
  prints (ubig_lower_hex be u f) f 16 false (alt_prefix f 120) (uval u) /\
  prints (ubig_upper_hex be u f) f 16 true (alt_prefix f 120) (uval u).
Proof.
  intros Hu E. assert (HW : width_ok f) by (intros w; congruence). destruct (ubig_shows u f Hu HW) as (H1 & H2 & H3 & H4 & H5 & H6).
  auto 10 using shows_prints.
Qed.
Theorem ibig_prints x f : ibig_ok x -> f_width f = None ->
  prints (ibig_display be x f) f 10 false [] (ival x) /\
  prints (ibig_debug be x f) f 10 false [] (ival x) /\
  prints (ibig_binary be x f) f 2 false (alt_prefix f 98) (ival x) /\
  prints (ibig_octal be x f) f 8 false (alt_prefix f 111) (ival x) /\
  prints (ibig_lower_hex be x f) f 16 false (alt_prefix f 120) (ival x) /\
  prints (ibig_upper_hex be x f) f 16 true (alt_prefix f 120) (ival x).
Proof.
  intros Hu E. assert (HW : width_ok f) by (intros w; congruence). destruct (ibig_shows x f Hu HW) as (H1 & H2 & H3 & H4 & H5 & H6).
  auto 10 using shows_prints.
Qed.
Theorem in_radix_prints u x radix f : ubig_ok u -> ibig_ok x -> f_width f = None -> 2 <= radix <= 36 ->
  prints (ubig_in_radix_text be u radix f) f radix (f_alternate f) [] (uval u) /\
  prints (ibig_in_radix_text be x radix f) f radix (f_alternate f) [] (ival x).
Proof.
  intros Hu Hx E Hr. assert (HW : width_ok f) by (intros w; congruence).
  split; apply shows_prints; auto using ubig_in_radix_shows, ibig_in_radix_shows.
Qed.

(** ** Reading back *)

Lemma digit_char_text up d : 0 <= d < 36 -> digit_char (digit_text up d) d.
Proof. intros H. unfold digit_char, digit_text. destruct (Z.leb_spec d 9); [left; lia|right]. destruct up; lia. Qed.

Lemma canonical_numeral radix v ds up k : 2 <= radix <= 36 -> canonical radix v ds ->
  numeral radix (repeat 48 k ++ map (digit_text up) ds) v.
Proof.
  intros Hr (D & E & H). split.
  - destruct ds as [|d t]; [destruct H as [H|H]; [discriminate|cbn in H; congruence]|]. destruct k; discriminate.
  - exists (repeat 0 k ++ ds). split; [|split].
    + apply Forall2_app.
      * induction k; cbn [repeat]; constructor; auto. left. lia.
      * clear E H. induction D as [|d t Hd Ht IH]; cbn [map]; constructor; auto. apply digit_char_text. lia.
    + apply digits_ok_app. split; [apply digits_ok_repeat0; lia|exact D].
    + rewrite rev_app_distr, num_app, rev_repeat, num_repeat0, E. lia.
Qed.

Lemma shows_text m f radix up prefix v : unfilled f -> 2 <= radix <= 36 -> shows m f radix up prefix v ->
  exists t, m = Ok (sign_text (v <? 0) (f_sign_plus f) ++ prefix ++ t) /\ numeral radix t (Z.abs v).
Proof.
  intros U Hr (ds & C & ->). unfold padded.
  set (pad := match f_width f with Some w => _ | None => _ end).
  exists (repeat 48 pad ++ map (digit_text up) ds). split; [|apply canonical_numeral; auto].
  destruct (f_zero_pad f) eqn:Ez; [reflexivity|]. destruct U as [U|U]; [|congruence]. unfold pad. rewrite U.
  replace (left_fill (f_align f) 0) with 0%nat by (destruct (f_align f) as [[]|]; reflexivity). cbn [repeat app Nat.sub].
  rewrite app_nil_r. reflexivity.
Qed.

Lemma numeral_no_sign r t v c : numeral r t v -> c < 48 -> ~ starts c t.
Proof. intros N H S. pose proof (numeral_starts r t v c N S). lia. Qed.

Theorem ubig_round u radix f : ubig_ok u -> width_ok f -> unfilled f -> 2 <= radix <= 36 ->
  exists t, ubig_in_radix_text be u radix f = Ok t /\
    (slice_size (43 :: t) -> reads_back (ubig_from_str_radix t radix) (uval u)).
Proof.
  intros Hu HW U Hr. pose proof (ubig_ok_val u Hu) as V.
  destruct (shows_text _ _ _ _ _ _ U Hr (ubig_in_radix_shows u radix f Hu HW Hr)) as (t & E & N).
  rewrite E. eexists. split; [reflexivity|]. intros S.
  rewrite (proj2 (Z.ltb_ge (uval u) 0)) in * by lia. cbn [sign_text app] in *. rewrite Z.abs_eq in N by lia.
  destruct (f_sign_plus f); cbn [app] in *.
  - apply slice_size_cons in S. destruct (ubig_from_str_radix_spec radix t _ Hr S N) as (_ & H & _). apply H. lia.
  - destruct (ubig_from_str_radix_spec radix t _ Hr S N) as ((H & _) & _). apply H. lia.
Qed.

Theorem ibig_round x radix f : ibig_ok x -> width_ok f -> unfilled f -> 2 <= radix <= 36 ->
  exists t, ibig_in_radix_text be x radix f = Ok t /\
    (slice_size (43 :: t) -> ireads_back (ibig_from_str_radix t radix) (ival x)).
Proof.
  intros Hu HW U Hr.
  assert (V : Z.abs (ival x) < MAXV).
  { destruct Hu as [Hm _]. pose proof (ubig_ok_val _ Hm). unfold ival, sign_val. destruct (isign x); lia. }
  destruct (shows_text _ _ _ _ _ _ U Hr (ibig_in_radix_shows x radix f Hu HW Hr)) as (t & E & N).
  rewrite E. eexists. split; [reflexivity|]. intros S.
  destruct (Z.ltb_spec (ival x) 0) as [L|G]; cbn [sign_text app] in *.
  - apply slice_size_cons in S. destruct (ibig_from_str_radix_spec radix t _ Hr S N) as (_ & _ & H & _).
    replace (ival x) with (- Z.abs (ival x)) by lia. apply H. lia.
  - rewrite Z.abs_eq in N by lia. destruct (f_sign_plus f); cbn [app] in *.
    + apply slice_size_cons in S. destruct (ibig_from_str_radix_spec radix t _ Hr S N) as (_ & (H & _) & _). apply H. lia.
    + destruct (ibig_from_str_radix_spec radix t _ Hr S N) as ((H & _) & _). apply H. lia.
Qed.

(** Display and [FromStr]. *)
Theorem ubig_display_round u f : ubig_ok u -> width_ok f -> unfilled f ->
  exists t, ubig_display be u f = Ok t /\ (slice_size (43 :: t) -> reads_back (ubig_from_str t) (uval u)).
Proof.
  intros Hu HW U. destruct (ubig_round u 10 f Hu HW U) as (t & E & H); [lia|]. exists t. split; [|exact H].
  rewrite <- E. reflexivity.
Qed.
Theorem ibig_display_round x f : ibig_ok x -> width_ok f -> unfilled f ->
  exists t, ibig_display be x f = Ok t /\ (slice_size (43 :: t) -> ireads_back (ibig_from_str t) (ival x)).
Proof.
  intros Hu HW U. destruct (ibig_round x 10 f Hu HW U) as (t & E & H); [lia|]. exists t. split; [|exact H].
  rewrite <- E. reflexivity.
Qed.

(** The alternate forms and parsing with prefix. *)
Definition prefix_char (c radix : Z) : Prop := c = 98 /\ radix = 2 \/ c = 111 /\ radix = 8 \/ c = 120 /\ radix = 16.

Lemma prefix_round m u f radix up c : ubig_ok u -> unfilled f -> f_alternate f = true -> prefix_char c radix ->
  shows m f radix up (alt_prefix f c) (uval u) ->
  exists t, m = Ok t /\ (slice_size (43 :: t) -> reads_back (ubig_from_str_with_radix_prefix t) (uval u)).
Proof.
  intros Hu U Ea Hc Sh. pose proof (ubig_ok_val u Hu) as V.
  assert (Hr : 2 <= radix <= 36) by (destruct Hc as [[_ ->]|[[_ ->]|[_ ->]]]; lia).
  destruct (shows_text _ _ _ _ _ _ U Hr Sh) as (t & E & N).
  rewrite E. eexists. split; [reflexivity|]. intros S. unfold alt_prefix in *. rewrite Ea in *.
  rewrite (proj2 (Z.ltb_ge (uval u) 0)) in * by lia. cbn [sign_text app] in *. rewrite Z.abs_eq in N by lia.
  assert (P : prefixed (48 :: c :: t) radix t) by (unfold prefixed; destruct Hc as [[-> ->]|[[-> ->]|[-> ->]]]; auto).
  destruct (f_sign_plus f); cbn [app] in *.
  - apply slice_size_cons in S. destruct (ubig_prefix_spec _ _ _ _ S P N) as (_ & H & _). apply H. lia.
  - destruct (ubig_prefix_spec _ _ _ _ S P N) as ((H & _) & _). apply H. lia.
Qed.

Lemma iprefix_round m x f radix up c : ibig_ok x -> unfilled f -> f_alternate f = true -> prefix_char c radix ->
  shows m f radix up (alt_prefix f c) (ival x) ->
  exists t, m = Ok t /\ (slice_size (43 :: t) -> ireads_back (ibig_from_str_with_radix_prefix t) (ival x)).
Proof.
  intros Hu U Ea Hc Sh.
  assert (V : Z.abs (ival x) < MAXV).
  { destruct Hu as [Hm _]. pose proof (ubig_ok_val _ Hm). unfold ival, sign_val. destruct (isign x); lia. }
  assert (Hr : 2 <= radix <= 36) by (destruct Hc as [[_ ->]|[[_ ->]|[_ ->]]]; lia).
  destruct (shows_text _ _ _ _ _ _ U Hr Sh) as (t & E & N).
  rewrite E. eexists. split; [reflexivity|]. intros S. unfold alt_prefix in *. rewrite Ea in *.
  assert (P : prefixed (48 :: c :: t) radix t) by (unfold prefixed; destruct Hc as [[-> ->]|[[-> ->]|[-> ->]]]; auto).
  destruct (Z.ltb_spec (ival x) 0) as [L|G]; cbn [sign_text app] in *.
  - apply slice_size_cons in S. destruct (ibig_prefix_spec (48 :: c :: t) radix t _ S P N) as (_ & _ & H & _).
    replace (ival x) with (- Z.abs (ival x)) by lia. apply H. lia.
  - rewrite Z.abs_eq in N by lia. destruct (f_sign_plus f); cbn [app] in *.
    + apply slice_size_cons in S. destruct (ibig_prefix_spec _ _ _ _ S P N) as (_ & (H & _) & _). apply H. lia.
    + destruct (ibig_prefix_spec _ _ _ _ S P N) as ((H & _) & _). apply H. lia.
Qed.

Theorem ubig_prefix_round u f : ubig_ok u -> width_ok f -> unfilled f -> f_alternate f = true ->
  forall m, In m [ubig_binary be u f; ubig_octal be u f; ubig_lower_hex be u f; ubig_upper_hex be u f] ->
  exists t, m = Ok t /\ (slice_size (43 :: t) -> reads_back (ubig_from_str_with_radix_prefix t) (uval u)).
Proof.
  intros Hu HW U Ea m I. destruct (ubig_shows u f Hu HW) as (_ & _ & S1 & S2 & S3 & S4).
  destruct I as [<-|[<-|[<-|[<-|[]]]]]; (eapply prefix_round; [| | | |eassumption]); auto; unfold prefix_char; auto.
Qed.
Theorem ibig_prefix_round x f : ibig_ok x -> width_ok f -> unfilled f -> f_alternate f = true ->
  forall m, In m [ibig_binary be x f; ibig_octal be x f; ibig_lower_hex be x f; ibig_upper_hex be x f] ->
  exists t, m = Ok t /\ (slice_size (43 :: t) -> ireads_back (ibig_from_str_with_radix_prefix t) (ival x)).
Proof.
  intros Hu HW U Ea m I. destruct (ibig_shows x f Hu HW) as (_ & _ & S1 & S2 & S3 & S4).
  destruct I as [<-|[<-|[<-|[<-|[]]]]]; (eapply iprefix_round; [| | | |eassumption]); auto; unfold prefix_char; auto.
Qed.

End FmtRound.

(** ** Writers *)
Lemma writer_all {A : Arch} {AOK : ArchOk A} be case out chunks :
  Forall (Forall (fun d => 0 <= d <= match case with NoLetters => 9 | _ => 35 end)) chunks ->
  exists w, (w <- write_chunks be (dw_new out case) chunks ;; dw_flush be w) = Ok w /\
    dw_out w = out ++ map (digit_text (match case with Upper => true | _ => false end)) (concat chunks).
Proof.
  intros V.
  assert (G : forall cs w raw, Forall (Forall (vdig case)) cs -> dw_inv case out w raw ->
     exists w', write_chunks be w cs = Ok w' /\ dw_inv case out w' (raw ++ concat cs)).
  { induction cs as [|c cs IH]; intros w raw Vc I; cbn [write_chunks concat].
    - exists w. rewrite app_nil_r. auto.
    - inversion Vc; subst. destruct (write_spec be case out w raw c I) as (w1 & -> & I1); [auto|]. cbn [bind].
      destruct (IH w1 (raw ++ c)) as (w2 & -> & I2); [auto..|]. exists w2. rewrite app_assoc. auto. }
  destruct (G chunks (dw_new out case) [] V (dw_new_inv case out)) as (w1 & -> & I1). cbn [bind app] in *.
  destruct (finish_spec be case out w1 _ I1) as (w2 & E & Eo). exists w2. split; [exact E|]. exact Eo.
Qed.

Lemma chunk_ascii {A : Arch} {AOK : ArchOk A} be case ds : Z.of_nat (length ds) * 8 = wbits ->
  Forall (fun d => 0 <= d <= match case with NoLetters => 9 | _ => 35 end) ds ->
  digit_chunk_raw_to_ascii be ds case = Ok (map (digit_text (match case with Upper => true | _ => false end)) ds).
Proof.
  intros L V. apply (raw_to_ascii_spec be ds case V). unfold WORD_BYTES.
  destruct wbits_cases as [E | [E | E]]; rewrite E in *; cbn; lia.
Qed.

Lemma shows_length {A : Arch} m f radix upper prefix v : width_ok f -> shows m f radix upper prefix v ->
  exists t t0, m = Ok t /\ prints (Ok t0) f radix upper prefix v /\
    len t = Z.max (match f_width f with Some w => w | None => 0 end) (len t0).
Proof.
  intros HW (ds & C & ->). do 2 eexists. split; [reflexivity|]. split; [exists ds; split; [exact C|reflexivity]|].
  unfold len, number_text. rewrite padded_length. destruct (f_width f) as [w|] eqn:E; [|lia]. specialize (HW w E). lia.
Qed.
