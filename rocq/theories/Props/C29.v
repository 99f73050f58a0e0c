(** C29: parsing the formatted text returns the number. *)
From Verif Require Import Model.Base Model.Buffer Model.UBig Model.IBig Model.Parse Model.Fmt
  Spec.Val Spec.Num Spec.Digits Spec.FmtText Spec.ParseResult Proofs.FmtRound Proofs.Samples Proofs.TextSamples.

(** [unfilled f]: the options do not put fill characters around the number; plus
    signs, zero padding and either letter case are allowed.  The text must be able
    to exist as a string: its length is below [isize::MAX]. *)
Theorem C29_ubig (A : Arch) (AOK : ArchOk A) (be : bool) (u : ubig) (radix : Z) (f : Formatter) :
  ubig_ok u -> width_ok f -> unfilled f -> 2 <= radix <= 36 ->
  exists t, ubig_in_radix_text be u radix f = Ok t /\
    (slice_size (43 :: t) -> reads_back (ubig_from_str_radix t radix) (uval u)).
Proof. exact (ubig_round be u radix f). Qed.
Print Assumptions C29_ubig.

Theorem C29_ibig (A : Arch) (AOK : ArchOk A) (be : bool) (x : ibig) (radix : Z) (f : Formatter) :
  ibig_ok x -> width_ok f -> unfilled f -> 2 <= radix <= 36 ->
  exists t, ibig_in_radix_text be x radix f = Ok t /\
    (slice_size (43 :: t) -> ireads_back (ibig_from_str_radix t radix) (ival x)).
Proof. exact (ibig_round be x radix f). Qed.
Print Assumptions C29_ibig.

(** [to_string] and [from_str]. *)
Theorem C29_display_ubig (A : Arch) (AOK : ArchOk A) (be : bool) (u : ubig) (f : Formatter) :
  ubig_ok u -> width_ok f -> unfilled f ->
  exists t, ubig_display be u f = Ok t /\ (slice_size (43 :: t) -> reads_back (ubig_from_str t) (uval u)).
Proof. exact (ubig_display_round be u f). Qed.
Print Assumptions C29_display_ubig.

Theorem C29_display_ibig (A : Arch) (AOK : ArchOk A) (be : bool) (x : ibig) (f : Formatter) :
  ibig_ok x -> width_ok f -> unfilled f ->
  exists t, ibig_display be x f = Ok t /\ (slice_size (43 :: t) -> ireads_back (ibig_from_str t) (ival x)).
Proof. exact (ibig_display_round be x f). Qed.
Print Assumptions C29_display_ibig.

(** The forms with prefix and [from_str_with_radix_prefix]. *)
Theorem C29_prefix_ubig (A : Arch) (AOK : ArchOk A) (be : bool) (u : ubig) (f : Formatter) :
  ubig_ok u -> width_ok f -> unfilled f -> f_alternate f = true ->
  forall m, In m [ubig_binary be u f; ubig_octal be u f; ubig_lower_hex be u f; ubig_upper_hex be u f] ->
  exists t, m = Ok t /\ (slice_size (43 :: t) -> reads_back (ubig_from_str_with_radix_prefix t) (uval u)).
Proof. exact (ubig_prefix_round be u f). Qed.
Print Assumptions C29_prefix_ubig.

Theorem C29_prefix_ibig (A : Arch) (AOK : ArchOk A) (be : bool) (x : ibig) (f : Formatter) :
  ibig_ok x -> width_ok f -> unfilled f -> f_alternate f = true ->
  forall m, In m [ibig_binary be x f; ibig_octal be x f; ibig_lower_hex be x f; ibig_upper_hex be x f] ->
  exists t, m = Ok t /\ (slice_size (43 :: t) -> ireads_back (ibig_from_str_with_radix_prefix t) (ival x)).
Proof. exact (ibig_prefix_round be x f). Qed.
Print Assumptions C29_prefix_ibig.

Definition zero_padded : Formatter := mkFormatter 42 None (Some 14) true true true.

Example C29_case : let A := arch16 in
  ubig_ok (lg [4242; 7; 1]) /\ ibig_ok (neg (lg [4242; 7; 1])) /\
  ibig_in_radix_text false (neg (lg [4242; 7; 1])) 36 zero_padded = Ok (txt "-0000001Z1DZ82") /\
  iparsed (ibig_from_str_radix (txt "-0000001Z1DZ82") 36) = Ok (POk (- 4295430290)) /\
  ubig_lower_hex false (lg [4242; 7; 1]) zero_padded = Ok (txt "+0x00100071092") /\
  parsed (ubig_from_str_with_radix_prefix (txt "+0x00100071092")) = Ok (POk 4295430290).
Proof. cbv zeta. sample. Qed.
Example C29_options : let A := arch16 in width_ok zero_padded /\ unfilled zero_padded /\ slice_size (txt "-0000001Z1DZ82").
Proof. split; [intros w E; injection E as <-; discriminate|]. split; [right; reflexivity|reflexivity]. Qed.
