(** C26: parsing accepts exactly the numerals and returns their value. *)
From Verif Require Import Model.Base Model.Words Model.Buffer Model.UBig Model.IBig Model.Radix Model.Parse
  Spec.Val Spec.Num Spec.Digits Spec.Text Spec.ParseResult Proofs.ParseApi Proofs.Samples Proofs.TextSamples.

(** [numeral r s v]: [s] is a non-empty string of digits below [r] in either case,
    with value [v].  43 is '+' and 45 is '-'.  [accepts]: the result is the number,
    in canonical form, if it is representable, and otherwise the documented panic.
    [slice_size]: the text is shorter than isize::MAX bytes, as every slice is. *)
Theorem C26_ubig_numeral (A : Arch) (AOK : ArchOk A) (r : Z) (s : list Z) (v : Z) :
  2 <= r <= 36 -> slice_size (43 :: s) -> numeral r s v ->
  accepts (ubig_from_str_radix s r) v /\ accepts (ubig_from_str_radix (43 :: s) r) v.
Proof. exact (ubig_from_str_radix_spec r s v). Qed.
Print Assumptions C26_ubig_numeral.

Theorem C26_ibig_numeral (A : Arch) (AOK : ArchOk A) (r : Z) (s : list Z) (v : Z) :
  2 <= r <= 36 -> slice_size (43 :: s) -> numeral r s v ->
  iaccepts (ibig_from_str_radix s r) v /\ iaccepts (ibig_from_str_radix (43 :: s) r) v /\
  iaccepts (ibig_from_str_radix (45 :: s) r) (- v).
Proof. exact (ibig_from_str_radix_spec r s v). Qed.
Print Assumptions C26_ibig_numeral.

(** Nothing else is accepted. *)
Theorem C26_ubig_only_numerals (A : Arch) (AOK : ArchOk A) (r : Z) (s : list Z) (u : ubig) :
  2 <= r <= 36 -> slice_size s -> ubig_from_str_radix s r = Ok (POk u) ->
  ubig_ok u /\ (numeral r s (uval u) \/ exists t, s = 43 :: t /\ numeral r t (uval u)).
Proof. exact (ubig_from_str_radix_complete r s u). Qed.
Print Assumptions C26_ubig_only_numerals.

Theorem C26_ibig_only_numerals (A : Arch) (AOK : ArchOk A) (r : Z) (s : list Z) (x : ibig) :
  2 <= r <= 36 -> slice_size s -> ibig_from_str_radix s r = Ok (POk x) ->
  ibig_ok x /\ (numeral r s (ival x) \/ (exists t, s = 43 :: t /\ numeral r t (ival x)) \/
    (exists t, s = 45 :: t /\ numeral r t (- ival x))).
Proof. exact (ibig_from_str_radix_complete r s x). Qed.
Print Assumptions C26_ibig_only_numerals.

(** The empty numeral. *)
Theorem C26_ubig_empty (A : Arch) (AOK : ArchOk A) (r : Z) : 2 <= r <= 36 ->
  ubig_from_str_radix [] r = Ok (PErr NoDigits) /\ ubig_from_str_radix [43] r = Ok (PErr NoDigits).
Proof. exact (ubig_from_str_radix_empty r). Qed.
Print Assumptions C26_ubig_empty.

Theorem C26_ibig_empty (A : Arch) (AOK : ArchOk A) (r : Z) : 2 <= r <= 36 ->
  ibig_from_str_radix [] r = Ok (PErr NoDigits) /\ ibig_from_str_radix [43] r = Ok (PErr NoDigits) /\
  ibig_from_str_radix [45] r = Ok (PErr NoDigits).
Proof. exact (ibig_from_str_radix_empty r). Qed.
Print Assumptions C26_ibig_empty.

(** Any other text, written as leading zeros (48) and a rest [t], is reported as
    InvalidDigit; see [rejects] for texts with too many digits. *)
Theorem C26_ubig_invalid (A : Arch) (AOK : ArchOk A) (r : Z) (k : nat) (t : list Z) :
  2 <= r <= 36 -> slice_size (43 :: repeat 48 k ++ t) -> ~ starts 48 t ->
  repeat 48 k ++ t <> [] -> (forall v, ~ numeral r (repeat 48 k ++ t) v) ->
  (~ starts 43 (repeat 48 k ++ t) -> rejects r t (ubig_from_str_radix (repeat 48 k ++ t) r)) /\
  rejects r t (ubig_from_str_radix (43 :: repeat 48 k ++ t) r).
Proof. exact (ubig_from_str_radix_rejects r k t). Qed.
Print Assumptions C26_ubig_invalid.

Theorem C26_ibig_invalid (A : Arch) (AOK : ArchOk A) (r : Z) (k : nat) (t : list Z) :
  2 <= r <= 36 -> slice_size (43 :: repeat 48 k ++ t) -> ~ starts 48 t ->
  repeat 48 k ++ t <> [] -> (forall v, ~ numeral r (repeat 48 k ++ t) v) ->
  (~ starts 43 (repeat 48 k ++ t) -> ~ starts 45 (repeat 48 k ++ t) ->
    rejects r t (ibig_from_str_radix (repeat 48 k ++ t) r)) /\
  rejects r t (ibig_from_str_radix (43 :: repeat 48 k ++ t) r) /\
  rejects r t (ibig_from_str_radix (45 :: repeat 48 k ++ t) r).
Proof. exact (ibig_from_str_radix_rejects r k t). Qed.
Print Assumptions C26_ibig_invalid.

(** The exception in [rejects] is real: an over-long text that is not a numeral can
    panic instead of being reported as invalid. *)
Theorem C26_overlong_invalid_refuted (A : Arch) (AOK : ArchOk A) :
  exists s, slice_size s /\ (forall v, ~ numeral 32 s v) /\ ubig_from_str_radix s 32 = Panic NumberTooLarge.
Proof. exact overlong_panics. Qed.
Print Assumptions C26_overlong_invalid_refuted.

Theorem C26_invalid_radix (A : Arch) (AOK : ArchOk A) (r : Z) (s : list Z) : ~ 2 <= r <= 36 ->
  ubig_from_str_radix s r = Panic InvalidRadix /\ ibig_from_str_radix s r = Panic InvalidRadix.
Proof. exact (from_str_radix_invalid r s). Qed.
Print Assumptions C26_invalid_radix.

(** [FromStr] reads decimal. *)
Theorem C26_from_str (A : Arch) (AOK : ArchOk A) (s : list Z) (v : Z) : slice_size (43 :: s) -> numeral 10 s v ->
  accepts (ubig_from_str s) v /\ accepts (ubig_from_str (43 :: s)) v /\
  iaccepts (ibig_from_str s) v /\ iaccepts (ibig_from_str (45 :: s)) (- v).
Proof.
  exact (fun Hs N => let '(conj a b) := ubig_from_str_radix_spec 10 s v ten_ok Hs N in
                     let '(conj c (conj _ d)) := ibig_from_str_radix_spec 10 s v ten_ok Hs N in
                     conj a (conj b (conj c d))).
Qed.
Print Assumptions C26_from_str.

(** ... and nothing else: it fails and panics as reading in radix 10 does. *)
Theorem C26_from_str_decimal (A : Arch) (s : list Z) :
  ubig_from_str s = ubig_from_str_radix s 10 /\ ibig_from_str s = ibig_from_str_radix s 10.
Proof. exact (conj eq_refl eq_refl). Qed.
Print Assumptions C26_from_str_decimal.

Example C26_numerals : numeral 10 (txt "00120") 120 /\ numeral 36 (txt "zZ") 1295 /\
  ~ (exists v, numeral 10 (txt "12a") v).
Proof.
  split; [numeral_by [0; 0; 1; 2; 0]|]. split; [numeral_by [35; 35]|]. exact not_numeral_12a.
Qed.

Example C26_values : let A := arch16 in
  parsed (ubig_from_str_radix (txt "+7ab") 32) = Ok (POk 7499) /\
  parsed (ubig_from_str_radix (txt "0000123456789012345678901234567890") 10) = Ok (POk 123456789012345678901234567890) /\
  parsed (ubig_from_str_radix (txt "123456789ABCDEFabcdef0") 16) = Ok (POk 0x123456789ABCDEFabcdef0) /\
  iparsed (ibig_from_str_radix (txt "-777777777777777777777") 8) = Ok (POk (1 - 8 ^ 21)) /\
  iparsed (ibig_from_str (txt "-0")) = Ok (POk 0) /\
  parsed (ubig_from_str_radix (txt "123456789012345678_") 10) = Ok (PErr InvalidDigit) /\
  parsed (ubig_from_str (txt "-1")) = Ok (PErr InvalidDigit) /\
  parsed (ubig_from_str (txt "++1")) = Ok (PErr InvalidDigit) /\
  iparsed (ibig_from_str (txt "")) = Ok (PErr NoDigits) /\
  parsed (ubig_from_str_radix (txt "1") 37) = Panic InvalidRadix.
Proof. cbv zeta. sample. Qed.
