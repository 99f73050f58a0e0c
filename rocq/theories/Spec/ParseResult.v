(** Outcomes of parsing.  Independent of how the model parses. *)
From Verif Require Import Model.Base Model.UBig Model.IBig Model.Parse Spec.Val Spec.Num Spec.Text.

Section ParseResult.
Context {A : Arch}.

(** Parsed as the number [v]: canonical if it is representable, and otherwise the
    documented panic. *)
Definition accepts (m : res (presult ubig)) (v : Z) : Prop :=
  (v < MAXV -> exists u, m = Ok (POk u) /\ ubig_ok u /\ uval u = v) /\
  (MAXV <= v -> m = Panic NumberTooLarge).
Definition iaccepts (m : res (presult ibig)) (v : Z) : Prop :=
  (Z.abs v < MAXV -> exists x, m = Ok (POk x) /\ ibig_ok x /\ ival x = v) /\
  (MAXV <= Z.abs v -> m = Panic NumberTooLarge).

(** Not a numeral, where [t] is the text after leading zeros: reported as
    [InvalidDigit], except that a text with more digits than any representable
    number may be reported as too large. *)
Definition rejects {T} (radix : Z) (t : list Z) (m : res (presult T)) : Prop :=
  (m = Ok (PErr InvalidDigit) \/ m = Panic NumberTooLarge) /\
  (radix ^ (Z.of_nat (length t) - 1) < MAXV -> m = Ok (PErr InvalidDigit)).

(** Byte slices are shorter than [isize::MAX]. *)
Definition slice_size (s : list Z) : Prop := Z.of_nat (length s) < 2 ^ (ubits - 1).

(** A text that starts with the character [c]. *)
Definition starts (c : Z) (s : list Z) : Prop := exists t, s = c :: t.

(** Parsed successfully as the number [v]. *)
Definition reads_back (m : res (presult ubig)) (v : Z) : Prop := exists u, m = Ok (POk u) /\ ubig_ok u /\ uval u = v.
Definition ireads_back (m : res (presult ibig)) (v : Z) : Prop := exists x, m = Ok (POk x) /\ ibig_ok x /\ ival x = v.

End ParseResult.
