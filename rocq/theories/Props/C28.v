(** C28: formatting prints the canonical numeral. *)
From Verif Require Import Model.Base Model.Buffer Model.UBig Model.IBig Model.Fmt
  Spec.Val Spec.Num Spec.Digits Spec.FmtText Proofs.FmtRound Proofs.Samples Proofs.TextSamples.

(** [prints m f radix upper prefix v]: the text is the sign of [v], the prefix, and
    the digits of [v] in base [radix], most significant first, without leading
    zeros, with letters in the case asked for.  [be] tells whether the machine is
    big endian. *)
Theorem C28_ubig (A : Arch) (AOK : ArchOk A) (be : bool) (u : ubig) (f : Formatter) :
  ubig_ok u -> f_width f = None ->
  prints (ubig_display be u f) f 10 false [] (uval u) /\
  prints (ubig_debug be u f) f 10 false [] (uval u) /\
  prints (ubig_binary be u f) f 2 false (alt_prefix f 98) (uval u) /\
  prints (ubig_octal be u f) f 8 false (alt_prefix f 111) (uval u) /\
  prints (ubig_lower_hex be u f) f 16 false (alt_prefix f 120) (uval u) /\
  prints (ubig_upper_hex be u f) f 16 true (alt_prefix f 120) (uval u).
Proof. exact (ubig_prints be u f). Qed.
Print Assumptions C28_ubig.

Theorem C28_ibig (A : Arch) (AOK : ArchOk A) (be : bool) (x : ibig) (f : Formatter) :
  ibig_ok x -> f_width f = None ->
  prints (ibig_display be x f) f 10 false [] (ival x) /\
  prints (ibig_debug be x f) f 10 false [] (ival x) /\
  prints (ibig_binary be x f) f 2 false (alt_prefix f 98) (ival x) /\
  prints (ibig_octal be x f) f 8 false (alt_prefix f 111) (ival x) /\
  prints (ibig_lower_hex be x f) f 16 false (alt_prefix f 120) (ival x) /\
  prints (ibig_upper_hex be x f) f 16 true (alt_prefix f 120) (ival x).
Proof. exact (ibig_prints be x f). Qed.
Print Assumptions C28_ibig.

(** [in_radix]: the alternate form asks for upper case letters. *)
Theorem C28_in_radix (A : Arch) (AOK : ArchOk A) (be : bool) (u : ubig) (x : ibig) (radix : Z) (f : Formatter) :
  ubig_ok u -> ibig_ok x -> f_width f = None -> 2 <= radix <= 36 ->
  prints (ubig_in_radix_text be u radix f) f radix (f_alternate f) [] (uval u) /\
  prints (ibig_in_radix_text be x radix f) f radix (f_alternate f) [] (ival x).
Proof. exact (in_radix_prints be u x radix f). Qed.
Print Assumptions C28_in_radix.

Theorem C28_invalid_radix (A : Arch) (u : ubig) (x : ibig) (radix : Z) : ~ 2 <= radix <= 36 ->
  ubig_in_radix u radix = Panic InvalidRadix /\ ibig_in_radix x radix = Panic InvalidRadix.
Proof. exact (in_radix_invalid u x radix). Qed.
Print Assumptions C28_invalid_radix.

(** The canonical digits are determined by the number, so the text is too. *)
Theorem C28_unique (radix v : Z) (ds es : list Z) : 2 <= radix ->
  canonical radix v ds -> canonical radix v es -> ds = es.
Proof. exact (canonical_unique radix v ds es). Qed.
Print Assumptions C28_unique.

Definition plain : Formatter := mkFormatter 32 None None false false false.

Example C28_case : let A := arch16 in
  ubig_ok (lg [4242; 7; 1]) /\ ibig_ok (neg (lg [4242; 7; 1])) /\
  ubig_display false (lg [4242; 7; 1]) plain = Ok (txt "4295430290") /\
  ubig_upper_hex true (lg [4242; 7; 1]) plain = Ok (txt "100071092") /\
  ibig_in_radix_text false (neg (lg [4242; 7; 1])) 36 plain = Ok (txt "-1z1dz82") /\
  ibig_octal false (neg (Small 65535)) (mkFormatter 32 None None true true false) = Ok (txt "-0o177777") /\
  ubig_binary false (Small 0) plain = Ok (txt "0").
Proof. cbv zeta. sample. Qed.
Example C28_digits : canonical 10 405 [4; 0; 5].
Proof. repeat split; [repeat constructor; discriminate|right; discriminate]. Qed.
