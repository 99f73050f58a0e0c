(** Numbers as text.  A string is the list of its character codes (for ASCII
    text, its bytes).  Independent of the model. *)
From Coq Require Import ZArith List.
From Verif Require Import Spec.Digits.
Import ListNotations.
Open Scope Z_scope.

(** Character [c] is a way to write the digit [d]: 0-9, then a-z or A-Z. *)
Definition digit_char (c d : Z) : Prop :=
  (0 <= d <= 9 /\ c = 48 + d) \/
  (10 <= d <= 35 /\ (c = 97 + (d - 10) \/ c = 65 + (d - 10))).

(** [s] is a non-empty string of digits below [radix], most significant first,
    with value [v]. *)
Definition numeral (radix : Z) (s : list Z) (v : Z) : Prop :=
  s <> [] /\ exists ds, Forall2 digit_char s ds /\ digits_ok radix ds /\ v = num radix (rev ds).

(** [s] is one of the prefixes 0b, 0o, 0x followed by [t], and [r] the radix it
    selects; without a prefix the radix is ten. *)
Definition prefixed (s : list Z) (r : Z) (t : list Z) : Prop :=
  (s = 48 :: 98 :: t /\ r = 2) \/ (s = 48 :: 111 :: t /\ r = 8) \/ (s = 48 :: 120 :: t /\ r = 16) \/
  ((forall u, s <> 48 :: 98 :: u /\ s <> 48 :: 111 :: u /\ s <> 48 :: 120 :: u) /\ r = 10 /\ s = t).
