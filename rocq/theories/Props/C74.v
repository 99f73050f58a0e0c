(** C74: the messages of errors and panics name their cause. *)
From Verif Require Import Model.Base Model.Words Model.Buffer Model.UBig Model.IBig Model.Parse Model.Errors
  Spec.Val Spec.Num Spec.Digits Spec.Text Spec.ParseResult Spec.FmtText Spec.ErrorText Proofs.ErrorsProofs Proofs.Samples Proofs.TextSamples.
From Coq Require Import List.
Import ListNotations.

(** When parsing fails, the message says "no digits" if there is nothing but a sign (43 is
    '+' and 45 is '-'), and "invalid digit" otherwise. *)
Theorem C74_parse_ubig (A : Arch) (AOK : ArchOk A) (r : Z) (s : list Z) (e : parse_error) :
  2 <= r <= 36 -> slice_size (43 :: s) -> ubig_from_str_radix s r = Ok (PErr e) ->
  (parse_error_text e = txt "no digits" /\ (s = [] \/ s = [43])) \/
  (parse_error_text e = txt "invalid digit" /\ ~ (s = [] \/ s = [43])).
Proof. exact (ubig_error_text r s e). Qed.
Print Assumptions C74_parse_ubig.

Theorem C74_parse_ibig (A : Arch) (AOK : ArchOk A) (r : Z) (s : list Z) (e : parse_error) :
  2 <= r <= 36 -> slice_size (43 :: s) -> ibig_from_str_radix s r = Ok (PErr e) ->
  (parse_error_text e = txt "no digits" /\ (s = [] \/ s = [43] \/ s = [45])) \/
  (parse_error_text e = txt "invalid digit" /\ ~ (s = [] \/ s = [43] \/ s = [45])).
Proof. exact (ibig_error_text r s e). Qed.
Print Assumptions C74_parse_ibig.

(** The maximum in the message about a number that is too large is written in decimal, and
    it is right: exactly the numbers of at most that many bits are representable. *)
Theorem C74_too_large (A : Arch) (AOK : ArchOk A) :
  exists ds, canonical 10 MAX_BIT_LEN ds /\
    panic_text AtTooLarge = Ok (txt "number too large, maximum is " ++ map (digit_text false) ds ++ txt " bits") /\
    forall v, 0 <= v < 2 ^ MAX_BIT_LEN <-> exists u, ubig_ok u /\ uval u = v.
Proof. exact too_large_text_true. Qed.
Print Assumptions C74_too_large.

(** The message about a radix quotes it in decimal. *)
Theorem C74_radix (A : Arch) (r : Z) : 0 <= r < 2 ^ 32 ->
  exists ds, canonical 10 r ds /\ panic_text (AtRadix r) = Ok (txt "Invalid radix: " ++ map (digit_text false) ds).
Proof. exact (radix_text r). Qed.
Print Assumptions C74_radix.

(** Writing the message of a panic does not fail. *)
Theorem C74_total (A : Arch) (AOK : ArchOk A) (s : site) : site_ok s -> exists t, panic_text s = Ok t.
Proof. exact (panic_text_total s). Qed.
Print Assumptions C74_total.

(** Every panic of the model other than [Internal] has a message, and a message determines
    which call of [panic!] was reached, and with which radix. *)
Theorem C74_distinct (A : Arch) (AOK : ArchOk A) :
  (forall p, p <> Internal -> exists s, panic_of s = p /\ site_ok s) /\
  forall s s' t, site_ok s -> site_ok s' -> panic_text s = Ok t -> panic_text s' = Ok t -> s = s' /\ panic_of s = panic_of s'.
Proof. exact (conj every_panic panic_texts_differ). Qed.
Print Assumptions C74_distinct.

Example C74_messages :
  panic_text (A := arch16) AtTooLarge = Ok (txt "number too large, maximum is 65504 bits") /\
  panic_text (A := arch16) (AtRadix 37) = Ok (txt "Invalid radix: 37") /\
  panic_text (A := arch16) (AtRadix 0) = Ok (txt "Invalid radix: 0") /\
  panic_text (A := arch16) AtGcd = Ok (txt "gcd(0, 0)") /\ out_of_bounds_text = txt "number out of bounds".
Proof. sample. Qed.
Example C74_parsing : let A := arch16 in
  slice_size (43 :: txt "12a") /\ ubig_from_str_radix (txt "12a") 10 = Ok (PErr InvalidDigit) /\
  slice_size (43 :: txt "-") /\ ibig_from_str_radix (txt "-") 10 = Ok (PErr NoDigits) /\
  ubig_from_str_radix (txt "-") 10 = Ok (PErr InvalidDigit).
Proof. sample. Qed.
