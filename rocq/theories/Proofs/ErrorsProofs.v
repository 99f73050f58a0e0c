(** The texts of errors and panics. *)
From Verif Require Import Model.Base Model.Words Model.Buffer Model.UBig Model.IBig Model.Radix Model.Parse Model.ModularFmt Model.Errors
  Spec.Val Spec.Num Spec.Digits Spec.Text Spec.ParseResult Spec.FmtText Spec.ErrorText
  Proofs.Basics Proofs.DigitsProofs Proofs.FmtRound Proofs.ModularFmtProofs Proofs.ParseApi Proofs.LimitsProofs.
From Coq Require Import String List Lia.
Import ListNotations.
Open Scope Z_scope.
Open Scope list_scope.

Section Errors.
Context {A : Arch} {AOK : ArchOk A}.

Lemma radix_text r : 0 <= r < 2 ^ 32 ->
  exists ds, canonical 10 r ds /\ panic_text (AtRadix r) = Ok (str "Invalid radix: " ++ map (digit_text false) ds).
Proof.
  intros H. destruct (core_digits_spec 31 10 false r [] ltac:(lia)) as (ds & C & E).
  { change (10 ^ Z.of_nat 32) with (10 ^ 32). lia. }
  exists ds. split; [exact C|]. unfold panic_text. rewrite E. cbn [bind]. rewrite app_nil_r. reflexivity.
Qed.

Lemma too_large_text :
  exists ds, canonical 10 MAX_BIT_LEN ds /\
    panic_text AtTooLarge = Ok (str "number too large, maximum is " ++ map (digit_text false) ds ++ str " bits").
Proof.
  destruct max_len_limits as (_ & L & U & _ & _).
  assert (W : 16 <= wbits) by (destruct AOK as [W0 U0]; lia).
  assert (N : exists n, Z.to_nat ubits = S n /\ Z.of_nat (S n) = ubits).
  { exists (Z.to_nat ubits - 1)%nat. destruct AOK. lia. }
  destruct N as (n & E & E').
  destruct (core_digits_spec n 10 false MAX_BIT_LEN [] ltac:(lia)) as (ds & C & D).
  { rewrite E'. unfold MAX_BIT_LEN. split; [nia|].
    assert (P : 2 ^ ubits <= 10 ^ ubits) by (apply Z.pow_le_mono_l; lia). lia. }
  exists ds. split; [exact C|]. unfold panic_text. rewrite E, D. cbn [bind]. rewrite app_nil_r. reflexivity.
Qed.

Lemma panic_text_total s : site_ok s -> exists t, panic_text s = Ok t.
Proof.
  destruct s; intros H; try (eexists; reflexivity).
  - destruct too_large_text as (ds & _ & E). rewrite E. eauto.
  - destruct (radix_text radix H) as (ds & _ & E). rewrite E. eauto.
Qed.

Lemma digits_inj ds es : digits_ok 10 ds -> digits_ok 10 es -> map (digit_text false) ds = map (digit_text false) es -> ds = es.
Proof.
  revert es. induction ds as [|d ds IH]; intros [|e es] D E H; try discriminate; [reflexivity|].
  inversion D; inversion E; subst. cbn [map] in H. injection H as J1 J2. f_equal; [|apply IH; assumption].
  unfold digit_text in J1. destruct (Z.leb_spec d 9), (Z.leb_spec e 9); lia.
Qed.

Lemma panic_text_inj s s' t : site_ok s -> site_ok s' -> panic_text s = Ok t -> panic_text s' = Ok t -> s = s'.
Proof.
  intros H H' E E'.
  destruct too_large_text as (ms & _ & M).
  destruct s as [| | | | | | |r| | | | | |], s' as [| | | | | | |r'| | | | | |]; try reflexivity;
    try (destruct (radix_text r H) as (ds & C & R)); try (destruct (radix_text r' H') as (es & C' & R')).
  all: try rewrite M in E; try rewrite M in E'; try rewrite R in E; try rewrite R' in E'; try (cbn [panic_text] in E); try (cbn [panic_text] in E');
    rewrite <- E in E'; try discriminate E'.
  injection E' as E'. f_equal. destruct C as (D & N & _), C' as (D' & N' & _).
  assert (Q : es = ds) by (apply digits_inj; assumption). congruence.
Qed.

(** ** Parsing *)

Lemma leading_zeros s : exists k t, s = repeat 48 k ++ t /\ ~ starts 48 t.
Proof.
  induction s as [|c s (k & t & E & H)]; [exists 0%nat, []; split; [reflexivity|intros (t & [=])]|].
  destruct (Z.eq_dec c 48) as [->|N].
  - exists (S k), t. split; [cbn [repeat app]; congruence|exact H].
  - exists 0%nat, (c :: s). split; [reflexivity|]. intros (u & [=]). congruence.
Qed.

Lemma accepts_no_error m v e : accepts m v -> m = Ok (PErr e) -> False.
Proof.
  intros (S & L) E. destruct (Z.lt_ge_cases v MAXV) as [H|H]; [destruct (S H) as (u & Q & _)|pose proof (L H) as Q]; congruence.
Qed.
Lemma iaccepts_no_error m v e : iaccepts m v -> m = Ok (PErr e) -> False.
Proof.
  intros (S & L) E. destruct (Z.lt_ge_cases (Z.abs v) MAXV) as [H|H]; [destruct (S H) as (u & Q & _)|pose proof (L H) as Q]; congruence.
Qed.
Lemma rejects_no_digits {T} r t (m : res (presult T)) : rejects r t m -> m = Ok (PErr NoDigits) -> False.
Proof. intros ([H|H] & _) E; congruence. Qed.

Lemma ubig_no_digits r s : 2 <= r <= 36 -> slice_size (43 :: s) ->
  ubig_from_str_radix s r = Ok (PErr NoDigits) <-> s = [] \/ s = [43].
Proof.
  intros Hr Hs. destruct (ubig_from_str_radix_empty r Hr) as (E0 & E1).
  split; [|intros [->| ->]; assumption]. intros E.
  destruct s as [|c s]; [left; reflexivity|]. right.
  destruct (Z.eq_dec c 43) as [->|Nc].
  - destruct s as [|d s]; [reflexivity|]. exfalso.
    assert (Hs' : slice_size (43 :: d :: s)) by (unfold slice_size in *; cbn [length] in *; lia).
    destruct (leading_zeros (d :: s)) as (k & t & Q & St). rewrite Q in *.
    assert (NN : forall v, ~ numeral r (repeat 48 k ++ t) v).
    { intros v N. destruct (ubig_from_str_radix_spec r _ v Hr Hs' N) as (_ & B). exact (accepts_no_error _ _ _ B E). }
    destruct (ubig_from_str_radix_rejects r k t Hr Hs' St) as (_ & B); [intros Z; rewrite <- Q in Z; discriminate|exact NN|].
    exact (rejects_no_digits _ _ _ B E).
  - exfalso. destruct (leading_zeros (c :: s)) as (k & t & Q & St).
    assert (NS : ~ starts 43 (c :: s)) by (intros (u & [=]); congruence). rewrite Q in *.
    assert (NN : forall v, ~ numeral r (repeat 48 k ++ t) v).
    { intros v N. destruct (ubig_from_str_radix_spec r _ v Hr Hs N) as (B & _). exact (accepts_no_error _ _ _ B E). }
    destruct (ubig_from_str_radix_rejects r k t Hr Hs St) as (B & _); [intros Z; rewrite <- Q in Z; discriminate|exact NN|].
    exact (rejects_no_digits _ _ _ (B NS) E).
Qed.

Lemma ibig_no_digits r s : 2 <= r <= 36 -> slice_size (43 :: s) ->
  ibig_from_str_radix s r = Ok (PErr NoDigits) <-> s = [] \/ s = [43] \/ s = [45].
Proof.
  intros Hr Hs. destruct (ibig_from_str_radix_empty r Hr) as (E0 & E1 & E2).
  split; [|intros [->|[->| ->]]; assumption]. intros E.
  destruct s as [|c s]; [left; reflexivity|]. right.
  assert (Hs' : slice_size (43 :: s)) by (unfold slice_size in *; cbn [length] in *; lia).
  destruct (Z.eq_dec c 43) as [->|Nc]; [|destruct (Z.eq_dec c 45) as [->|Nd]].
  - destruct s as [|d s]; [left; reflexivity|]. exfalso.
    destruct (leading_zeros (d :: s)) as (k & t & Q & St). rewrite Q in *.
    assert (NN : forall v, ~ numeral r (repeat 48 k ++ t) v).
    { intros v N. destruct (ibig_from_str_radix_spec r _ v Hr Hs' N) as (_ & B & _). exact (iaccepts_no_error _ _ _ B E). }
    destruct (ibig_from_str_radix_rejects r k t Hr Hs' St) as (_ & B & _); [intros Z; rewrite <- Q in Z; discriminate|exact NN|].
    exact (rejects_no_digits _ _ _ B E).
  - destruct s as [|d s]; [right; reflexivity|]. exfalso.
    destruct (leading_zeros (d :: s)) as (k & t & Q & St). rewrite Q in *.
    assert (NN : forall v, ~ numeral r (repeat 48 k ++ t) v).
    { intros v N. destruct (ibig_from_str_radix_spec r _ v Hr Hs' N) as (_ & _ & B). exact (iaccepts_no_error _ _ _ B E). }
    destruct (ibig_from_str_radix_rejects r k t Hr Hs' St) as (_ & _ & B); [intros Z; rewrite <- Q in Z; discriminate|exact NN|].
    exact (rejects_no_digits _ _ _ B E).
  - exfalso. destruct (leading_zeros (c :: s)) as (k & t & Q & St).
    assert (NS : ~ starts 43 (c :: s)) by (intros (u & [=]); congruence).
    assert (NT : ~ starts 45 (c :: s)) by (intros (u & [=]); congruence). rewrite Q in *.
    assert (NN : forall v, ~ numeral r (repeat 48 k ++ t) v).
    { intros v N. destruct (ibig_from_str_radix_spec r _ v Hr Hs N) as (B & _). exact (iaccepts_no_error _ _ _ B E). }
    destruct (ibig_from_str_radix_rejects r k t Hr Hs St) as (B & _); [intros Z; rewrite <- Q in Z; discriminate|exact NN|].
    exact (rejects_no_digits _ _ _ (B NS NT) E).
Qed.

Lemma error_texts (b : Prop) e : (e = NoDigits <-> b) ->
  (parse_error_text e = str "no digits" /\ b) \/ (parse_error_text e = str "invalid digit" /\ ~ b).
Proof. intros H. destruct e; [left; split; [reflexivity|apply H; reflexivity]|right; split; [reflexivity|intros X; apply H in X; discriminate]]. Qed.

Lemma ubig_error_text r s e : 2 <= r <= 36 -> slice_size (43 :: s) -> ubig_from_str_radix s r = Ok (PErr e) ->
  (parse_error_text e = str "no digits" /\ (s = [] \/ s = [43])) \/ (parse_error_text e = str "invalid digit" /\ ~ (s = [] \/ s = [43])).
Proof.
  intros Hr Hs E. apply error_texts. rewrite <- (ubig_no_digits r s Hr Hs), E. split; [intros ->; reflexivity|intros [=]; assumption].
Qed.

Lemma ibig_error_text r s e : 2 <= r <= 36 -> slice_size (43 :: s) -> ibig_from_str_radix s r = Ok (PErr e) ->
  (parse_error_text e = str "no digits" /\ (s = [] \/ s = [43] \/ s = [45])) \/
  (parse_error_text e = str "invalid digit" /\ ~ (s = [] \/ s = [43] \/ s = [45])).
Proof.
  intros Hr Hs E. apply error_texts. rewrite <- (ibig_no_digits r s Hr Hs), E. split; [intros ->; reflexivity|intros [=]; assumption].
Qed.

Lemma too_large_text_true :
  exists ds, canonical 10 MAX_BIT_LEN ds /\
    panic_text AtTooLarge = Ok (str "number too large, maximum is " ++ map (digit_text false) ds ++ str " bits") /\
    forall v, 0 <= v < 2 ^ MAX_BIT_LEN <-> exists u, ubig_ok u /\ uval u = v.
Proof. destruct too_large_text as (ds & C & E). exists ds. split; [exact C|]. split; [exact E|exact supported]. Qed.

Lemma panic_texts_differ s s' t : site_ok s -> site_ok s' -> panic_text s = Ok t -> panic_text s' = Ok t -> s = s' /\ panic_of s = panic_of s'.
Proof. intros H H' E E'. assert (Q : s = s') by (eapply panic_text_inj; eassumption). subst. auto. Qed.

Lemma every_panic p : p <> Internal -> exists s, panic_of s = p /\ site_ok s.
Proof.
  destruct p; intros H; try congruence;
    [exists AtTooLarge|exists AtNegative|exists AtDivideByZero|exists AtGcd|exists (AtRadix 1)|exists AtZeroModulus|exists AtDifferentRings|exists AtDivision|exists AtEmptyRange|exists AtOutOfMemory];
    (split; [reflexivity|cbn; lia || exact I]).
Qed.

End Errors.
