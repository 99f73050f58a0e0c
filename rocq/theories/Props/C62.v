(** C62: formatting costs what the documentation says. *)
From Coq Require Import ZArith List Lia.
From Verif Require Import Model.Base Model.Words Model.Buffer Model.UBig Model.IBig Model.Radix Model.Fmt Model.Cost Model.CostFmt
  Spec.Val Spec.Num Proofs.CostFmtProofs Proofs.CostFmtBounds Proofs.CostFmtSteps Proofs.CostFmtApi Proofs.Samples.
Import ListNotations.
Open Scope Z_scope.

(** Model/CostFmt.v repeats Model/Fmt.v with the counter of Model/Cost.v; each digit a
    loop can visit and each character given to the sink also count one.  The counter
    changes nothing. *)
Theorem C62_same_display (A : Arch) (big_endian : bool) (u : ubig) (x : ibig) (f : Formatter) :
  snd (c_ubig_display big_endian u f) = ubig_display big_endian u f /\
  snd (c_ibig_display big_endian x f) = ibig_display big_endian x f.
Proof. exact (display_erase big_endian u x f). Qed.
Print Assumptions C62_same_display.

Theorem C62_same_in_radix (A : Arch) (big_endian : bool) (u : ubig) (x : ibig) (radix : Z) (f : Formatter) :
  snd (c_ubig_in_radix_text big_endian u radix f) = ubig_in_radix_text big_endian u radix f /\
  snd (c_ibig_in_radix_text big_endian x radix f) = ibig_in_radix_text big_endian x radix f.
Proof. exact (in_radix_erase big_endian u x radix f). Qed.
Print Assumptions C62_same_in_radix.

(** The characters that the width of the format asks for. *)
Notation wanted f := (match f_width f with Some w => Z.max 0 w | None => 0 end).

(** CHANGELOG.md:128: [to_string] takes O(n^1.47).  For a number of N words, at most
    39700 * N^1.47 steps, and one for each character that the width asks for. *)
Theorem C62_ubig (A : Arch) (AOK : ArchOk A) (big_endian : bool) (u : ubig) (f : Formatter) (n : Z) (s : list Z) :
  ubig_ok u -> c_ubig_display big_endian u f = (n, Ok s) ->
  ubig_display big_endian u f = Ok s /\ 0 <= n /\
  exists m, n <= m + wanted f /\ m ^ 100 <= (39700 * ulen u) ^ 100 * ulen u ^ 47.
Proof. exact (ubig_display_steps big_endian u f n s). Qed.
Print Assumptions C62_ubig.

Theorem C62_ibig (A : Arch) (AOK : ArchOk A) (big_endian : bool) (x : ibig) (f : Formatter) (n : Z) (s : list Z) :
  ibig_ok x -> c_ibig_display big_endian x f = (n, Ok s) ->
  ibig_display big_endian x f = Ok s /\ 0 <= n /\
  exists m, n <= m + wanted f /\ m ^ 100 <= (39700 * ulen (imag x)) ^ 100 * ulen (imag x) ^ 47.
Proof. exact (ibig_display_steps big_endian x f n s). Qed.
Print Assumptions C62_ibig.

(** In any radix, and in linear time if the radix is a power of two. *)
Theorem C62_in_radix (A : Arch) (AOK : ArchOk A) (big_endian : bool) (u : ubig) (radix : Z) (f : Formatter) (n : Z) (s : list Z) :
  ubig_ok u -> c_ubig_in_radix_text big_endian u radix f = (n, Ok s) ->
  ubig_in_radix_text big_endian u radix f = Ok s /\ 0 <= n /\
  exists m, n <= m + wanted f /\ m ^ 100 <= (39700 * ulen u) ^ 100 * ulen u ^ 47.
Proof. exact (in_radix_steps big_endian u radix f n s). Qed.
Print Assumptions C62_in_radix.

(** [Binary], [Octal], [LowerHex] and [UpperHex] also go this way, with a prefix. *)
Theorem C62_power_two (A : Arch) (AOK : ArchOk A) (big_endian : bool) (self : InRadixFull) (f : Formatter) (n : Z) (s : list Z) :
  ubig_ok (irf_magnitude self) -> In (irf_radix self) [2; 4; 8; 16; 32] -> c_fmt_full big_endian self f = (n, Ok s) ->
  fmt_full big_endian self f = Ok s /\
  0 <= n <= 574 * ulen (irf_magnitude self) + len (irf_prefix self) + wanted f.
Proof. exact (power_two_steps big_endian self f n s). Qed.
Print Assumptions C62_power_two.

(** -99999999999999999999 with width 30, 2^256 + 7 in hexadecimal, and a number long
    enough to be divided by a power of the radix. *)
Example C62_decimal : let A := arch16 in
  exists s, c_ibig_display false (neg (lg [65535; 25359; 24109; 27591; 5])) (mkFormatter 32 None (Some 30) false false false) = (328, Ok s) /\
    s = repeat 32 9 ++ 45 :: repeat 57 20.
Proof. cbv zeta. eexists. split; vm_compute; reflexivity. Qed.

Example C62_hexadecimal : let A := arch16 in
  exists s, c_ubig_in_radix_text true (lg (7 :: repeat 0 15 ++ [1])) 16 (mkFormatter 32 None None false false false) = (364, Ok s) /\
    s = 49 :: repeat 48 63 ++ [55].
Proof. cbv zeta. eexists. split; vm_compute; reflexivity. Qed.

Example C62_large : let A := arch16 in
  exists s, c_ubig_display true (lg (repeat 65535 20)) (mkFormatter 32 None None false false false) = (2078, Ok s) /\
    length s = 97%nat.
Proof. cbv zeta. eexists. split; vm_compute; reflexivity. Qed.

(** One word, centered. *)
Example C62_short : let A := arch16 in
  c_ubig_in_radix_text true (Small 65000) 16 (mkFormatter 32 (Some AlignCenter) (Some 10) false false false) = (91, Ok [32; 32; 32; 102; 100; 101; 56; 32; 32; 32]).
Proof. vm_compute. reflexivity. Qed.
