(** C30: width, fill and alignment. *)
From Verif Require Import Model.Base Model.Buffer Model.UBig Model.IBig Model.Fmt
  Spec.Val Spec.Num Spec.Digits Spec.FmtText Proofs.FmtRound Proofs.Samples Proofs.TextSamples.

(** [shows m f radix upper prefix v]: the text of [v] filled up to the requested
    width as [padded] says: zeros between prefix and digits when zero padding is
    asked for, otherwise the fill character around the number according to the
    alignment. *)
Theorem C30_ubig (A : Arch) (AOK : ArchOk A) (be : bool) (u : ubig) (f : Formatter) :
  ubig_ok u -> width_ok f ->
  shows (ubig_display be u f) f 10 false [] (uval u) /\
  shows (ubig_debug be u f) f 10 false [] (uval u) /\
  shows (ubig_binary be u f) f 2 false (alt_prefix f 98) (uval u) /\
  shows (ubig_octal be u f) f 8 false (alt_prefix f 111) (uval u) /\
  shows (ubig_lower_hex be u f) f 16 false (alt_prefix f 120) (uval u) /\
  shows (ubig_upper_hex be u f) f 16 true (alt_prefix f 120) (uval u).
Proof. exact (ubig_shows be u f). Qed.
Print Assumptions C30_ubig.

Theorem C30_ibig (A : Arch) (AOK : ArchOk A) (be : bool) (x : ibig) (f : Formatter) :
  ibig_ok x -> width_ok f ->
  shows (ibig_display be x f) f 10 false [] (ival x) /\
  shows (ibig_debug be x f) f 10 false [] (ival x) /\
  shows (ibig_binary be x f) f 2 false (alt_prefix f 98) (ival x) /\
  shows (ibig_octal be x f) f 8 false (alt_prefix f 111) (ival x) /\
  shows (ibig_lower_hex be x f) f 16 false (alt_prefix f 120) (ival x) /\
  shows (ibig_upper_hex be x f) f 16 true (alt_prefix f 120) (ival x).
Proof. exact (ibig_shows be x f). Qed.
Print Assumptions C30_ibig.

Theorem C30_ubig_in_radix (A : Arch) (AOK : ArchOk A) (be : bool) (u : ubig) (radix : Z) (f : Formatter) :
  ubig_ok u -> width_ok f -> 2 <= radix <= 36 ->
  shows (ubig_in_radix_text be u radix f) f radix (f_alternate f) [] (uval u).
Proof. exact (ubig_in_radix_shows be u radix f). Qed.
Print Assumptions C30_ubig_in_radix.

Theorem C30_ibig_in_radix (A : Arch) (AOK : ArchOk A) (be : bool) (x : ibig) (radix : Z) (f : Formatter) :
  ibig_ok x -> width_ok f -> 2 <= radix <= 36 ->
  shows (ibig_in_radix_text be x radix f) f radix (f_alternate f) [] (ival x).
Proof. exact (ibig_in_radix_shows be x radix f). Qed.
Print Assumptions C30_ibig_in_radix.

(** The output is exactly as long as the width or the number, whichever is longer. *)
Theorem C30_length (A : Arch) (m : res (list Z)) (f : Formatter) (radix : Z) (upper : bool) (prefix : list Z) (v : Z) :
  width_ok f -> shows m f radix upper prefix v ->
  exists t t0, m = Ok t /\ prints (Ok t0) f radix upper prefix v /\
    len t = Z.max (match f_width f with Some w => w | None => 0 end) (len t0).
Proof. exact (shows_length m f radix upper prefix v). Qed.
Print Assumptions C30_length.

Definition filled (a : option alignment) (zero : bool) : Formatter := mkFormatter 42 a (Some 12) true true zero.

Example C30_case : let A := arch16 in
  width_ok (filled None false) /\ ubig_ok (lg [4242; 7]) /\
  ubig_lower_hex false (lg [4242; 7]) (filled (Some AlignLeft) false) = Ok (txt "+0x71092****") /\
  ubig_lower_hex false (lg [4242; 7]) (filled (Some AlignCenter) false) = Ok (txt "**+0x71092**") /\
  ubig_lower_hex false (lg [4242; 7]) (filled (Some AlignRight) false) = Ok (txt "****+0x71092") /\
  ubig_lower_hex false (lg [4242; 7]) (filled None false) = Ok (txt "****+0x71092") /\
  ubig_lower_hex false (lg [4242; 7]) (filled None true) = Ok (txt "+0x000071092") /\
  ibig_display false (neg (lg [4242; 7])) (filled (Some AlignCenter) false) = Ok (txt "**-462994***") /\
  ibig_binary false (neg (Small 12345)) (filled None true) = Ok (txt "-0b11000000111001").
Proof. cbv zeta. split; [intros w E; injection E as <-; discriminate|]. sample. Qed.
