(** C27: radix prefixes. *)
From Verif Require Import Model.Base Model.Words Model.Buffer Model.UBig Model.IBig Model.Radix Model.Parse
  Spec.Val Spec.Num Spec.Digits Spec.Text Spec.ParseResult Proofs.ParseApi Proofs.Samples Proofs.TextSamples.

(** [prefixed s r t]: [s] is 0b, 0o or 0x followed by [t], or has no such prefix and
    is [t] itself; [r] is the radix selected. *)
Theorem C27_ubig_prefix (A : Arch) (AOK : ArchOk A) (s : list Z) (r : Z) (t : list Z) (v : Z) :
  slice_size (43 :: s) -> prefixed s r t -> numeral r t v ->
  accepts (ubig_from_str_with_radix_prefix s) v /\ accepts (ubig_from_str_with_radix_prefix (43 :: s)) v.
Proof. exact (ubig_prefix_spec s r t v). Qed.
Print Assumptions C27_ubig_prefix.

Theorem C27_ibig_prefix (A : Arch) (AOK : ArchOk A) (s : list Z) (r : Z) (t : list Z) (v : Z) :
  slice_size (43 :: s) -> prefixed s r t -> numeral r t v ->
  iaccepts (ibig_from_str_with_radix_prefix s) v /\ iaccepts (ibig_from_str_with_radix_prefix (43 :: s)) v /\
  iaccepts (ibig_from_str_with_radix_prefix (45 :: s)) (- v).
Proof. exact (ibig_prefix_spec s r t v). Qed.
Print Assumptions C27_ibig_prefix.

(** Nothing else is accepted. *)
Theorem C27_ubig_only (A : Arch) (AOK : ArchOk A) (s : list Z) (u : ubig) :
  slice_size s -> ubig_from_str_with_radix_prefix s = Ok (POk u) ->
  ubig_ok u /\ exists body r t, (s = body \/ s = 43 :: body) /\ prefixed body r t /\ numeral r t (uval u).
Proof. exact (ubig_prefix_complete s u). Qed.
Print Assumptions C27_ubig_only.

Theorem C27_ibig_only (A : Arch) (AOK : ArchOk A) (s : list Z) (x : ibig) :
  slice_size s -> ibig_from_str_with_radix_prefix s = Ok (POk x) ->
  ibig_ok x /\ exists body r t, prefixed body r t /\
    (((s = body \/ s = 43 :: body) /\ numeral r t (ival x)) \/ (s = 45 :: body /\ numeral r t (- ival x))).
Proof. exact (ibig_prefix_complete s x). Qed.
Print Assumptions C27_ibig_only.

Theorem C27_no_digits (A : Arch) (AOK : ArchOk A) (s : list Z) (r : Z) : prefixed s r [] ->
  ubig_from_str_with_radix_prefix (43 :: s) = Ok (PErr NoDigits) /\
  ubig_from_str_with_radix_prefix s = Ok (PErr NoDigits) /\
  ibig_from_str_with_radix_prefix s = Ok (PErr NoDigits) /\
  ibig_from_str_with_radix_prefix (43 :: s) = Ok (PErr NoDigits) /\
  ibig_from_str_with_radix_prefix (45 :: s) = Ok (PErr NoDigits).
Proof. exact (prefix_empty s r). Qed.
Print Assumptions C27_no_digits.

Theorem C27_ubig_invalid (A : Arch) (AOK : ArchOk A) (s : list Z) (r : Z) (k : nat) (t : list Z) :
  slice_size (43 :: s) -> prefixed s r (repeat 48 k ++ t) -> ~ starts 48 t ->
  repeat 48 k ++ t <> [] -> (forall v, ~ numeral r (repeat 48 k ++ t) v) ->
  (~ starts 43 s -> rejects r t (ubig_from_str_with_radix_prefix s)) /\
  rejects r t (ubig_from_str_with_radix_prefix (43 :: s)).
Proof. exact (ubig_prefix_rejects s r k t). Qed.
Print Assumptions C27_ubig_invalid.

Theorem C27_ibig_invalid (A : Arch) (AOK : ArchOk A) (s : list Z) (r : Z) (k : nat) (t : list Z) :
  slice_size (43 :: s) -> prefixed s r (repeat 48 k ++ t) -> ~ starts 48 t ->
  repeat 48 k ++ t <> [] -> (forall v, ~ numeral r (repeat 48 k ++ t) v) ->
  (~ starts 43 s -> ~ starts 45 s -> rejects r t (ibig_from_str_with_radix_prefix s)) /\
  rejects r t (ibig_from_str_with_radix_prefix (43 :: s)) /\
  rejects r t (ibig_from_str_with_radix_prefix (45 :: s)).
Proof. exact (ibig_prefix_rejects s r k t). Qed.
Print Assumptions C27_ibig_invalid.

Example C27_prefixes : prefixed (txt "0x1F") 16 (txt "1F") /\ numeral 16 (txt "1F") 31 /\ prefixed (txt "0b") 2 [].
Proof. split; [right; right; left; split; reflexivity|]. split; [numeral_by [1; 15]|left; split; reflexivity]. Qed.

Example C27_values : let A := arch16 in
  parsed (ubig_from_str_with_radix_prefix (txt "+0o17")) = Ok (POk 15) /\
  parsed (ubig_from_str_with_radix_prefix (txt "0x00123456789abcdef123456789ABCDEF")) = Ok (POk 0x123456789abcdef123456789ABCDEF) /\
  parsed (ubig_from_str_with_radix_prefix (txt "0b101")) = Ok (POk 5) /\
  parsed (ubig_from_str_with_radix_prefix (txt "0123")) = Ok (POk 123) /\
  iparsed (ibig_from_str_with_radix_prefix (txt "-0x1f")) = Ok (POk (- 31)) /\
  parsed (ubig_from_str_with_radix_prefix (txt "0x")) = Ok (PErr NoDigits) /\
  parsed (ubig_from_str_with_radix_prefix (txt "0x+1")) = Ok (PErr InvalidDigit) /\
  parsed (ubig_from_str_with_radix_prefix (txt "0X1f")) = Ok (PErr InvalidDigit).
Proof. cbv zeta. sample. Qed.
