(** The public parsing functions (src/parse/mod.rs). *)
From Verif Require Import Model.Base Model.Words Model.Buffer Model.UBig Model.IBig Model.Radix Model.Parse
  Spec.Val Spec.Num Spec.Digits Spec.Text Spec.ParseResult
  Proofs.Basics Proofs.BufferProofs Proofs.RadixProofs Proofs.ParseProofs.
From Coq Require Import Lia.

Section ParseApi.
Context {A : Arch} {AOK : ArchOk A}.

Lemma not_numeral_bad r s : s <> [] -> (forall v, ~ numeral r s v) -> bad r s.
Proof. intros NE H ds D. apply (H (num r (rev ds))). apply dig_numeral. split; [auto|]. exists ds. auto. Qed.
Lemma bad_not_numeral r s : bad r s -> forall v, ~ numeral r s v.
Proof. intros H v N. apply dig_numeral in N as (_ & ds & D & _). eapply H; eauto. Qed.

Section Unsigned.
Context (r : Z) (Hr : 2 <= r <= 36).

Lemma unsigned_numeral s v : slice_size s -> numeral r s v -> accepts (from_str_radix_no_sign s r) v.
Proof.
  intros Hs N. apply dig_numeral in N as (NE & ds & D & ->).
  destruct (no_sign_spec r Hr s Hs NE) as (k & t & _ & _ & H & _). apply H. auto.
Qed.

Lemma zeros_unique k1 k2 t1 t2 : repeat 48 k1 ++ t1 = repeat 48 k2 ++ t2 -> no_lead t1 -> no_lead t2 -> t1 = t2.
Proof.
  revert k2. induction k1 as [|k1 IH]; intros [|k2] E N1 N2; cbn [repeat app] in E; auto.
  - subst t1. cbn in N1. lia.
  - subst t2. cbn in N2. lia.
  - injection E as E. eauto.
Qed.

Lemma unsigned_rejects k t : slice_size (repeat 48 k ++ t) -> ~ starts 48 t -> repeat 48 k ++ t <> [] ->
  (forall v, ~ numeral r (repeat 48 k ++ t) v) -> rejects r t (from_str_radix_no_sign (repeat 48 k ++ t) r).
Proof.
  intros Hs Ht NE N. destruct (no_sign_spec r Hr _ Hs NE) as (k' & t' & E & N' & _ & H).
  assert (t = t') as <-.
  { eapply zeros_unique; eauto. destruct t as [|c t]; [exact I|]. cbn. intros ->. apply Ht. exists t. auto. }
  apply H. apply not_numeral_bad; auto.
Qed.

Lemma unsigned_complete s u : slice_size s -> from_str_radix_no_sign s r = Ok (POk u) ->
  numeral r s (uval u) /\ ubig_ok u.
Proof.
  intros Hs E. destruct s as [|c s]; [rewrite no_sign_empty in E by auto; discriminate|].
  destruct (dig_dec r Hr (c :: s)) as [(ds & D)|D].
  - destruct (no_sign_spec r Hr (c :: s) Hs) as (k & t & _ & _ & H & _); [discriminate|].
    destruct (H ds D) as [H1 H2]. rewrite E in H1, H2.
    destruct (Z.lt_ge_cases (num r (rev ds)) MAXV) as [C|C]; [|specialize (H2 C); discriminate].
    destruct (H1 C) as (u' & E' & Hu & Vu). injection E' as <-. split; [|auto].
    apply dig_numeral. split; [discriminate|]. exists ds. auto.
  - destruct (no_sign_spec r Hr (c :: s) Hs) as (k & t & _ & _ & _ & H); [discriminate|].
    destruct (H D) as [[H1|H1] _]; congruence.
Qed.
End Unsigned.

Lemma valid_ok r : 2 <= r <= 36 -> check_radix_valid r = Ok tt.
Proof. intros H. unfold check_radix_valid. rewrite (proj2 (is_radix_valid_iff r) H). reflexivity. Qed.

Lemma numeral_starts r s v c : numeral r s v -> starts c s -> 48 <= c.
Proof.
  intros N (t & ->). apply dig_numeral in N as (_ & ds & D & _). inversion D as [|? ? ? ? [H _] _]; subst.
  unfold digit_char in H. lia.
Qed.

Lemma strip_char_no c s : ~ starts c s -> strip_char c s = None.
Proof.
  intros H. destruct s as [|x s]; [reflexivity|]. cbn. destruct (Z.eqb_spec x c) as [->|]; [|reflexivity].
  exfalso. apply H. exists s. reflexivity.
Qed.
Lemma strip_char_yes c s : strip_char c (c :: s) = Some s.
Proof. cbn. rewrite Z.eqb_refl. reflexivity. Qed.
Lemma strip_plus_no s : ~ starts 43 s -> strip_plus s = s.
Proof. intros H. unfold strip_plus. rewrite strip_char_no by auto. reflexivity. Qed.
Lemma strip_plus_yes s : strip_plus (43 :: s) = s. Proof. reflexivity. Qed.
Lemma starts_dec c s : starts c s \/ ~ starts c s.
Proof.
  destruct s as [|x s]; [right; intros (t & E); discriminate|]. destruct (Z.eq_dec x c) as [->|N]; [left; exists s; auto|].
  right. intros (t & E). congruence.
Qed.
Lemma strip_plus_cases s : (starts 43 s /\ s = 43 :: strip_plus s) \/ (~ starts 43 s /\ strip_plus s = s).
Proof. destruct (starts_dec 43 s) as [S|N]; [left; split; auto; destruct S as (t & ->); reflexivity|right; split; [auto|apply strip_plus_no; auto]]. Qed.

Lemma slice_size_cons c s : slice_size (c :: s) -> slice_size s.
Proof. unfold slice_size. cbn [length]. lia. Qed.
Lemma slice_size_strip s : slice_size s -> slice_size (strip_plus s).
Proof. intros H. destruct (strip_plus_cases s) as [[_ E]|[_ E]]; rewrite E in *; [apply slice_size_cons in H|]; auto. Qed.

(** ** UBig *)

Theorem ubig_from_str_radix_spec r s v : 2 <= r <= 36 -> slice_size (43 :: s) -> numeral r s v ->
  accepts (ubig_from_str_radix s r) v /\ accepts (ubig_from_str_radix (43 :: s) r) v.
Proof.
  intros Hr Hs N. unfold ubig_from_str_radix. rewrite valid_ok by auto. cbn [bind]. rewrite strip_plus_yes, strip_plus_no.
  - apply slice_size_cons in Hs. split; apply unsigned_numeral; auto.
  - intros S. pose proof (numeral_starts _ _ _ _ N S). lia.
Qed.

Theorem ubig_from_str_radix_complete r s u : 2 <= r <= 36 -> slice_size s -> ubig_from_str_radix s r = Ok (POk u) ->
  ubig_ok u /\ (numeral r s (uval u) \/ exists t, s = 43 :: t /\ numeral r t (uval u)).
Proof.
  intros Hr Hs. unfold ubig_from_str_radix. rewrite valid_ok by auto. cbn [bind]. intros E.
  apply unsigned_complete in E as [N Hu]; auto using slice_size_strip. split; [auto|].
  destruct (strip_plus_cases s) as [[_ E]|[_ E]]; rewrite E in *; [right; exists (strip_plus s)|left]; auto.
Qed.

Theorem ubig_from_str_radix_empty r : 2 <= r <= 36 ->
  ubig_from_str_radix [] r = Ok (PErr NoDigits) /\ ubig_from_str_radix [43] r = Ok (PErr NoDigits).
Proof. intros Hr. unfold ubig_from_str_radix. rewrite valid_ok by auto. cbn [bind].
  change (strip_plus []) with (@nil Z). change (strip_plus [43]) with (@nil Z). rewrite no_sign_empty by auto. auto.
Qed.

Theorem ubig_from_str_radix_rejects r k t : 2 <= r <= 36 -> slice_size (43 :: repeat 48 k ++ t) -> ~ starts 48 t ->
  repeat 48 k ++ t <> [] -> (forall v, ~ numeral r (repeat 48 k ++ t) v) ->
  (~ starts 43 (repeat 48 k ++ t) -> rejects r t (ubig_from_str_radix (repeat 48 k ++ t) r)) /\
  rejects r t (ubig_from_str_radix (43 :: repeat 48 k ++ t) r).
Proof.
  intros Hr Hs Ht NE N. unfold ubig_from_str_radix. rewrite valid_ok by auto. cbn [bind]. rewrite strip_plus_yes.
  apply slice_size_cons in Hs. split; [intros S; rewrite strip_plus_no by auto|]; apply unsigned_rejects; auto.
Qed.

Theorem from_str_radix_invalid r s : ~ 2 <= r <= 36 ->
  ubig_from_str_radix s r = Panic InvalidRadix /\ ibig_from_str_radix s r = Panic InvalidRadix.
Proof.
  intros H. unfold ubig_from_str_radix, ibig_from_str_radix, check_radix_valid. rewrite is_radix_invalid by auto. auto.
Qed.

(** ** IBig *)

Lemma strip_sign_cases s :
  (exists t, s = 45 :: t /\ strip_sign s = (Negative, t)) \/
  (exists t, s = 43 :: t /\ strip_sign s = (Positive, t)) \/
  (~ starts 45 s /\ ~ starts 43 s /\ strip_sign s = (Positive, s)).
Proof.
  destruct (starts_dec 45 s) as [(t & ->)|N]; [left; exists t; auto|right].
  unfold strip_sign. rewrite strip_char_no by auto. destruct (starts_dec 43 s) as [(t & ->)|N']; [left; exists t; auto|right].
  rewrite strip_plus_no by auto. auto.
Qed.

Lemma signed_accepts m sg v : 0 <= v -> accepts m v ->
  iaccepts (mag <-? m ;; Ok (POk (from_sign_magnitude sg mag))) (sign_val sg * v).
Proof.
  intros Hv [A1 A2]. assert (Z.abs (sign_val sg * v) = v) as Ea by (destruct sg; cbn [sign_val]; lia). split; rewrite Ea; intros H.
  - destruct (A1 H) as (u & -> & Hu & <-). cbn [pbind]. eexists. split; [reflexivity|].
    destruct (from_sign_magnitude_spec sg u Hu) as [K1 K2]. auto.
  - rewrite (A2 H). reflexivity.
Qed.

Lemma signed_rejects r t m sg : rejects r t m ->
  rejects r t (mag <-? m ;; Ok (POk (from_sign_magnitude sg mag))).
Proof.
  intros [R1 R2]. split.
  - destruct R1 as [-> | ->]; cbn [pbind]; auto.
  - intros H. rewrite (R2 H). reflexivity.
Qed.

Lemma numeral_nonneg r s v : 2 <= r -> numeral r s v -> 0 <= v.
Proof.
  intros Hr N. apply dig_numeral in N as (_ & ds & D & ->). apply dig_ok in D. apply DigitsProofs.digits_ok_rev in D.
  pose proof (DigitsProofs.num_bound r (rev ds) ltac:(lia) D). lia.
Qed.

Theorem ibig_from_str_radix_spec r s v : 2 <= r <= 36 -> slice_size (43 :: s) -> numeral r s v ->
  iaccepts (ibig_from_str_radix s r) v /\ iaccepts (ibig_from_str_radix (43 :: s) r) v /\
  iaccepts (ibig_from_str_radix (45 :: s) r) (- v).
Proof.
  intros Hr Hs N. pose proof (numeral_nonneg r s v ltac:(lia) N) as Hv. unfold ibig_from_str_radix. rewrite valid_ok by auto. cbn [bind].
  apply slice_size_cons in Hs. pose proof (unsigned_numeral r Hr s v Hs N) as U.
  destruct (strip_sign_cases s) as [(t & E & _)|[(t & E & _)|(_ & _ & ->)]];
    [exfalso; pose proof (numeral_starts _ _ _ 45 N (ex_intro _ t E)); lia
    |exfalso; pose proof (numeral_starts _ _ _ 43 N (ex_intro _ t E)); lia|].
  change (strip_sign (43 :: s)) with (Positive, s). change (strip_sign (45 :: s)) with (Negative, s). cbv beta iota.
  pose proof (signed_accepts _ Positive v Hv U) as P. pose proof (signed_accepts _ Negative v Hv U) as M.
  replace (sign_val Positive * v) with v in P by (cbn [sign_val]; lia). replace (sign_val Negative * v) with (- v) in M by (cbn [sign_val]; lia).
  auto.
Qed.

Theorem ibig_from_str_radix_complete r s x : 2 <= r <= 36 -> slice_size s -> ibig_from_str_radix s r = Ok (POk x) ->
  ibig_ok x /\ (numeral r s (ival x) \/ (exists t, s = 43 :: t /\ numeral r t (ival x)) \/
    (exists t, s = 45 :: t /\ numeral r t (- ival x))).
Proof.
  intros Hr Hs. unfold ibig_from_str_radix. rewrite valid_ok by auto. cbn [bind].
  assert (K : forall sg t, slice_size t -> (mag <-? from_str_radix_no_sign t r ;; Ok (POk (from_sign_magnitude sg mag))) = Ok (POk x) ->
    ibig_ok x /\ exists v, numeral r t v /\ ival x = sign_val sg * v).
  { intros sg t Ht E. destruct (from_str_radix_no_sign t r) as [[u|e]|p] eqn:Eu; cbn [pbind] in E; try discriminate.
    injection E as <-. apply unsigned_complete in Eu as [N Hu]; auto. destruct (from_sign_magnitude_spec sg u Hu) as [K1 K2].
    split; [auto|]. exists (uval u). auto. }
  destruct (strip_sign_cases s) as [(t & -> & ->)|[(t & -> & ->)|(_ & _ & ->)]]; intros E;
    apply K in E as (Hx & v & N & V); eauto using slice_size_cons; (split; [auto|]); cbn [sign_val] in V.
  - right; right. exists t. split; [auto|]. replace (- ival x) with v by lia. auto.
  - right; left. exists t. split; [auto|]. replace (ival x) with v by lia. auto.
  - left. replace (ival x) with v by lia. auto.
Qed.

Theorem ibig_from_str_radix_empty r : 2 <= r <= 36 ->
  ibig_from_str_radix [] r = Ok (PErr NoDigits) /\ ibig_from_str_radix [43] r = Ok (PErr NoDigits) /\
  ibig_from_str_radix [45] r = Ok (PErr NoDigits).
Proof.
  intros Hr. unfold ibig_from_str_radix. rewrite valid_ok by auto. cbn [bind].
  change (strip_sign []) with (Positive, @nil Z). change (strip_sign [43]) with (Positive, @nil Z).
  change (strip_sign [45]) with (Negative, @nil Z). cbv beta iota. rewrite no_sign_empty by auto. auto.
Qed.

Theorem ibig_from_str_radix_rejects r k t : 2 <= r <= 36 -> slice_size (43 :: repeat 48 k ++ t) -> ~ starts 48 t ->
  repeat 48 k ++ t <> [] -> (forall v, ~ numeral r (repeat 48 k ++ t) v) ->
  (~ starts 43 (repeat 48 k ++ t) -> ~ starts 45 (repeat 48 k ++ t) -> rejects r t (ibig_from_str_radix (repeat 48 k ++ t) r)) /\
  rejects r t (ibig_from_str_radix (43 :: repeat 48 k ++ t) r) /\
  rejects r t (ibig_from_str_radix (45 :: repeat 48 k ++ t) r).
Proof.
  intros Hr Hs Ht NE N. unfold ibig_from_str_radix. rewrite valid_ok by auto. cbn [bind]. apply slice_size_cons in Hs.
  change (strip_sign (43 :: repeat 48 k ++ t)) with (Positive, repeat 48 k ++ t).
  change (strip_sign (45 :: repeat 48 k ++ t)) with (Negative, repeat 48 k ++ t). cbv beta iota.
  pose proof (unsigned_rejects r Hr k t Hs Ht NE N) as R.
  split; [|split; apply signed_rejects; auto]. intros S1 S2.
  destruct (strip_sign_cases (repeat 48 k ++ t)) as [(t' & E & _)|[(t' & E & _)|(_ & _ & ->)]];
    [exfalso; apply S2; exists t'; auto|exfalso; apply S1; exists t'; auto|]. apply signed_rejects. auto.
Qed.

(** ** Radix prefixes *)

Lemma prefix_cases s : exists r t, prefixed s r t /\ from_str_with_radix_prefix_no_sign s = from_str_radix_no_sign t r.
Proof.
  unfold from_str_with_radix_prefix_no_sign, strip_two, prefixed.
  destruct s as [|a s]; cbn [strip_char]; [exists 10, []; split; [do 3 right; repeat split; try discriminate|auto]|].
  destruct (Z.eqb_spec a 48) as [->|N]; [|exists 10, (a :: s); split; [do 3 right; repeat split; congruence|auto]].
  destruct s as [|b s]; cbn [strip_char]; [exists 10, [48]; split; [do 3 right; repeat split; congruence|auto]|].
  destruct (Z.eqb_spec b 98) as [->|N1]; [exists 2, s; auto 10|].
  destruct (Z.eqb_spec b 111) as [->|N2]; [exists 8, s; auto 10|].
  destruct (Z.eqb_spec b 120) as [->|N3]; [exists 16, s; auto 10|].
  exists 10, (48 :: b :: s). split; [do 3 right; repeat split; congruence|auto].
Qed.

Lemma prefixed_fun s r t r' t' : prefixed s r t -> prefixed s r' t' -> r = r' /\ t = t'.
Proof.
  unfold prefixed. intros [[-> ->]|[[-> ->]|[[-> ->]|(N & -> & ->)]]] H.
  all: destruct H as [[E ->]|[[E ->]|[[E ->]|(N' & -> & E)]]]; try discriminate; try (injection E as <-; auto); auto.
  all: try (exfalso; destruct (N' t) as (? & ? & ?); congruence).
  all: exfalso; destruct (N t') as (? & ? & ?); congruence.
Qed.

Lemma prefix_no_sign s r t : prefixed s r t -> from_str_with_radix_prefix_no_sign s = from_str_radix_no_sign t r.
Proof. intros H. destruct (prefix_cases s) as (r' & t' & H' & ->). destruct (prefixed_fun _ _ _ _ _ H H') as [-> ->]. reflexivity. Qed.

Lemma prefixed_radix s r t : prefixed s r t -> 2 <= r <= 36.
Proof. unfold prefixed. lia. Qed.

Lemma prefixed_size s r t : prefixed s r t -> slice_size s -> slice_size t.
Proof.
  unfold prefixed. intros [[-> _]|[[-> _]|[[-> _]|(_ & _ & ->)]]] H; auto; apply slice_size_cons in H; apply slice_size_cons in H; auto.
Qed.

Theorem ubig_prefix_spec s r t v : slice_size (43 :: s) -> prefixed s r t -> numeral r t v ->
  accepts (ubig_from_str_with_radix_prefix s) v /\ accepts (ubig_from_str_with_radix_prefix (43 :: s)) v.
Proof.
  intros Hs P N. apply slice_size_cons in Hs. unfold ubig_from_str_with_radix_prefix. rewrite strip_plus_yes, strip_plus_no.
  - rewrite (prefix_no_sign s r t P). split; apply unsigned_numeral; eauto using prefixed_radix, prefixed_size.
  - intros (u & ->). destruct P as [[E _]|[[E _]|[[E _]|(_ & -> & <-)]]]; try discriminate.
    pose proof (numeral_starts _ _ _ 43 N (ex_intro _ u eq_refl)). lia.
Qed.

Theorem ibig_prefix_spec s r t v : slice_size (43 :: s) -> prefixed s r t -> numeral r t v ->
  iaccepts (ibig_from_str_with_radix_prefix s) v /\ iaccepts (ibig_from_str_with_radix_prefix (43 :: s)) v /\
  iaccepts (ibig_from_str_with_radix_prefix (45 :: s)) (- v).
Proof.
  intros Hs P N. apply slice_size_cons in Hs. pose proof (prefixed_radix s r t P) as Hr.
  assert (Hv : 0 <= v) by (eapply numeral_nonneg; [|eauto]; lia).
  pose proof (unsigned_numeral r Hr t v (prefixed_size s r t P Hs) N) as U. rewrite <- (prefix_no_sign s r t P) in U.
  unfold ibig_from_str_with_radix_prefix.
  assert (NS : forall c, c <> 48 -> c < 48 -> ~ starts c s).
  { intros c C C2 (u & ->). destruct P as [[E _]|[[E _]|[[E _]|(_ & -> & <-)]]]; try congruence.
    pose proof (numeral_starts _ _ _ c N (ex_intro _ u eq_refl)). lia. }
  destruct (strip_sign_cases s) as [(t' & E & _)|[(t' & E & _)|(_ & _ & ->)]];
    [exfalso; apply (NS 45); [lia|lia|exists t'; auto]|exfalso; apply (NS 43); [lia|lia|exists t'; auto]|].
  change (strip_sign (43 :: s)) with (Positive, s). change (strip_sign (45 :: s)) with (Negative, s). cbv beta iota.
  pose proof (signed_accepts _ Positive v Hv U) as Pp. pose proof (signed_accepts _ Negative v Hv U) as M.
  replace (sign_val Positive * v) with v in Pp by (cbn [sign_val]; lia). replace (sign_val Negative * v) with (- v) in M by (cbn [sign_val]; lia).
  auto.
Qed.

Theorem ubig_prefix_complete s u : slice_size s -> ubig_from_str_with_radix_prefix s = Ok (POk u) ->
  ubig_ok u /\ exists body r t, (s = body \/ s = 43 :: body) /\ prefixed body r t /\ numeral r t (uval u).
Proof.
  intros Hs E. unfold ubig_from_str_with_radix_prefix in E. destruct (prefix_cases (strip_plus s)) as (r & t & P & Ep).
  rewrite Ep in E. apply unsigned_complete in E as [N Hu]; eauto using prefixed_radix, prefixed_size, slice_size_strip.
  split; [auto|]. exists (strip_plus s), r, t. split; [|auto]. destruct (strip_plus_cases s) as [[_ E']|[_ E']]; auto.
Qed.

Theorem ibig_prefix_complete s x : slice_size s -> ibig_from_str_with_radix_prefix s = Ok (POk x) ->
  ibig_ok x /\ exists body r t, prefixed body r t /\
    (((s = body \/ s = 43 :: body) /\ numeral r t (ival x)) \/ (s = 45 :: body /\ numeral r t (- ival x))).
Proof.
  intros Hs. unfold ibig_from_str_with_radix_prefix.
  assert (K : forall sg b, slice_size b -> (mag <-? from_str_with_radix_prefix_no_sign b ;; Ok (POk (from_sign_magnitude sg mag))) = Ok (POk x) ->
    ibig_ok x /\ exists r t v, prefixed b r t /\ numeral r t v /\ ival x = sign_val sg * v).
  { intros sg b Hb E. destruct (prefix_cases b) as (r & t & P & Ep). rewrite Ep in E.
    destruct (from_str_radix_no_sign t r) as [[u|e]|p] eqn:Eu; cbn [pbind] in E; try discriminate.
    injection E as <-. apply unsigned_complete in Eu as [N Hu]; eauto using prefixed_radix, prefixed_size.
    destruct (from_sign_magnitude_spec sg u Hu) as [K1 K2]. split; [auto|]. exists r, t, (uval u). auto. }
  destruct (strip_sign_cases s) as [(b & -> & ->)|[(b & -> & ->)|(_ & _ & ->)]]; intros E;
    apply K in E as (Hx & r & t & v & P & N & V); eauto using slice_size_cons; (split; [auto|]); cbn [sign_val] in V.
  - exists b, r, t. split; [auto|]. right. split; [auto|]. replace (- ival x) with v by lia. auto.
  - exists b, r, t. split; [auto|]. left. split; [auto|]. replace (ival x) with v by lia. auto.
  - exists s, r, t. split; [auto|]. left. split; [auto|]. replace (ival x) with v by lia. auto.
Qed.

(** A prefix with no digits, and text that is not a numeral. *)
Theorem prefix_empty s r : prefixed s r [] ->
  ubig_from_str_with_radix_prefix (43 :: s) = Ok (PErr NoDigits) /\
  ubig_from_str_with_radix_prefix s = Ok (PErr NoDigits) /\
  ibig_from_str_with_radix_prefix s = Ok (PErr NoDigits) /\
  ibig_from_str_with_radix_prefix (43 :: s) = Ok (PErr NoDigits) /\
  ibig_from_str_with_radix_prefix (45 :: s) = Ok (PErr NoDigits).
Proof.
  intros P. pose proof (prefixed_radix _ _ _ P) as Hr.
  pose proof (prefix_no_sign _ _ _ P) as E. rewrite no_sign_empty in E by auto.
  unfold ubig_from_str_with_radix_prefix, ibig_from_str_with_radix_prefix.
  change (strip_sign (43 :: s)) with (Positive, s). change (strip_sign (45 :: s)) with (Negative, s). cbv beta iota.
  rewrite strip_plus_yes, E.
  assert (strip_plus s = s /\ strip_sign s = (Positive, s)) as [-> ->].
  { destruct P as [[-> _]|[[-> _]|[[-> _]|(_ & _ & ->)]]]; auto. }
  rewrite E. auto 10.
Qed.

Theorem ubig_prefix_rejects s r k t : slice_size (43 :: s) -> prefixed s r (repeat 48 k ++ t) -> ~ starts 48 t ->
  repeat 48 k ++ t <> [] -> (forall v, ~ numeral r (repeat 48 k ++ t) v) ->
  (~ starts 43 s -> rejects r t (ubig_from_str_with_radix_prefix s)) /\
  rejects r t (ubig_from_str_with_radix_prefix (43 :: s)).
Proof.
  intros Hs P Ht NE N. apply slice_size_cons in Hs. unfold ubig_from_str_with_radix_prefix. rewrite strip_plus_yes.
  assert (R : rejects r t (from_str_with_radix_prefix_no_sign s)).
  { rewrite (prefix_no_sign _ _ _ P). apply unsigned_rejects; eauto using prefixed_radix, prefixed_size. }
  split; [intros S; rewrite strip_plus_no by auto|]; auto.
Qed.

Theorem ibig_prefix_rejects s r k t : slice_size (43 :: s) -> prefixed s r (repeat 48 k ++ t) -> ~ starts 48 t ->
  repeat 48 k ++ t <> [] -> (forall v, ~ numeral r (repeat 48 k ++ t) v) ->
  (~ starts 43 s -> ~ starts 45 s -> rejects r t (ibig_from_str_with_radix_prefix s)) /\
  rejects r t (ibig_from_str_with_radix_prefix (43 :: s)) /\
  rejects r t (ibig_from_str_with_radix_prefix (45 :: s)).
Proof.
  intros Hs P Ht NE N. apply slice_size_cons in Hs. unfold ibig_from_str_with_radix_prefix.
  change (strip_sign (43 :: s)) with (Positive, s). change (strip_sign (45 :: s)) with (Negative, s). cbv beta iota.
  assert (R : rejects r t (from_str_with_radix_prefix_no_sign s)).
  { rewrite (prefix_no_sign _ _ _ P). apply unsigned_rejects; eauto using prefixed_radix, prefixed_size. }
  split; [|split; apply signed_rejects; auto]. intros S1 S2.
  destruct (strip_sign_cases s) as [(t' & E & _)|[(t' & E & _)|(_ & _ & ->)]];
    [exfalso; apply S2; exists t'; auto|exfalso; apply S1; exists t'; auto|]. apply signed_rejects. auto.
Qed.

(** Over-long text is refused before its digits are looked at. *)
Theorem overlong_panics : exists s, slice_size s /\ (forall v, ~ numeral 32 s v) /\ ubig_from_str_radix s 32 = Panic NumberTooLarge.
Proof.
  assert (Hu : 16 <= ubits) by (destruct ubits_cases as [-> | [-> | ->]]; lia).
  set (N := 2 ^ (ubits - 2)). assert (HN : 2 ^ 14 <= N) by (apply Z.pow_le_mono_r; lia).
  exists (repeat 33 (Z.to_nat N)).
  assert (Ln : Z.of_nat (length (repeat 33 (Z.to_nat N))) = N) by (rewrite repeat_length; lia).
  assert (E2 : 2 ^ (ubits - 1) = 2 * N) by (unfold N; rewrite <- Z.pow_succ_r by lia; f_equal; lia).
  assert (E4 : 2 ^ ubits = 4 * N) by (unfold N; change 4 with (2 ^ 2); rewrite <- Z.pow_add_r by lia; f_equal; lia).
  split; [unfold slice_size; lia|]. destruct (repeat 33 (Z.to_nat N)) as [|c s] eqn:Es; [cbn in Ln; lia|].
  assert (c = 33) as ->.
  { assert (In c (repeat 33 (Z.to_nat N))) as I by (rewrite Es; left; auto). apply repeat_spec in I. auto. }
  split; [intros v Nv; pose proof (numeral_starts _ _ _ 33 Nv (ex_intro _ s eq_refl)); lia|].
  unfold ubig_from_str_radix. rewrite valid_ok by lia. cbn [bind]. unfold strip_plus, strip_char. change (33 =? 43) with false. cbv beta iota.
  unfold from_str_radix_no_sign. rewrite check_true by reflexivity. cbn [bind strip_zeros]. change (33 =? 48) with false. cbv beta iota.
  change (is_pow2 32) with true. cbv beta iota. unfold p2_parse. rewrite check_true by reflexivity. cbn [bind].
  destruct (radix_info_p2 32 ltac:(lia) eq_refl) as (ri & lg & -> & (_ & _ & Hl & Et & Ed & _)). cbn [bind].
  change (z_tz 32) with 5 in Et. unfold len. rewrite Ln.
  rewrite (proj2 (Z.leb_gt _ _)).
  - unfold p2_parse_large. rewrite check_true by reflexivity. cbn [bind]. change (z_tz 32) with 5. unfold len. rewrite Ln.
    unfold USIZE_MAX. rewrite (proj2 (Z.ltb_lt _ _)) by lia. reflexivity.
  - rewrite Ed. pose proof wbits_cases. assert (wbits / lg <= wbits) by (apply Z.div_le_upper_bound; nia). lia.
Qed.

End ParseApi.
