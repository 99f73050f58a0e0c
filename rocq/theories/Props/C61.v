(** C61: parsing costs what the documentation says. *)
From Coq Require Import ZArith List Lia.
From Verif Require Import Model.Base Model.Words Model.Buffer Model.UBig Model.IBig Model.Radix Model.Parse Model.Cost Model.CostParse
  Spec.Val Proofs.CostParseProofs Proofs.Samples.
Import ListNotations.
Open Scope Z_scope.

(** Model/CostParse.v repeats Model/Parse.v with the counter of Model/Cost.v; each
    byte a loop can visit also counts one.  The counter changes nothing. *)
Theorem C61_same_ubig (A : Arch) (src : list Z) (radix : Z) :
  snd (c_ubig_from_str_radix src radix) = ubig_from_str_radix src radix.
Proof. exact (ubig_parse_erase src radix). Qed.
Print Assumptions C61_same_ubig.

Theorem C61_same_ibig (A : Arch) (src : list Z) (radix : Z) :
  snd (c_ibig_from_str_radix src radix) = ibig_from_str_radix src radix.
Proof. exact (ibig_parse_erase src radix). Qed.
Print Assumptions C61_same_ibig.

(** CHANGELOG.md:127: parsing takes O(n^1.47).  For a text of [len src] bytes, accepted
    or rejected, at most 4050 * (len src)^1.47 steps. *)
Theorem C61_ubig (A : Arch) (AOK : ArchOk A) (src : list Z) (radix n : Z) (r : presult ubig) :
  len src < 2 ^ ubits -> c_ubig_from_str_radix src radix = (n, Ok r) ->
  ubig_from_str_radix src radix = Ok r /\ 0 <= n /\ n ^ 100 <= (4050 * len src) ^ 100 * len src ^ 47.
Proof. exact (ubig_parse_steps src radix n r). Qed.
Print Assumptions C61_ubig.

Theorem C61_ibig (A : Arch) (AOK : ArchOk A) (src : list Z) (radix n : Z) (r : presult ibig) :
  len src < 2 ^ ubits -> c_ibig_from_str_radix src radix = (n, Ok r) ->
  ibig_from_str_radix src radix = Ok r /\ 0 <= n /\ n ^ 100 <= (4050 * len src) ^ 100 * len src ^ 47.
Proof. exact (ibig_parse_steps src radix n r). Qed.
Print Assumptions C61_ibig.

(** Linear for the radices 2, 4, 8, 16 and 32. *)
Theorem C61_power_two (A : Arch) (AOK : ArchOk A) (src : list Z) (radix n : Z) (r : presult ubig) :
  is_pow2 radix = true -> c_ubig_from_str_radix src radix = (n, Ok r) -> n <= 10 * len src + 1.
Proof. exact (parse_p2_steps src radix n r). Qed.
Print Assumptions C61_power_two.

(** "99999999999999999999", in decimal and hexadecimal, and with a letter at the end. *)
Example C61_decimal : let A := arch16 in
  exists b, c_ubig_from_str_radix (repeat 57 20) 10 = (78, Ok (POk (Large b))) /\ words b = [65535; 25359; 24109; 27591; 5].
Proof. cbv zeta. eexists. split; vm_compute; reflexivity. Qed.

Example C61_hexadecimal : let A := arch16 in
  exists x, c_ibig_from_str_radix (45 :: repeat 57 20) 16 = (58, Ok (POk x)) /\ as_words (imag x) = repeat 39321 5.
Proof. cbv zeta. eexists. split; vm_compute; reflexivity. Qed.

Example C61_invalid : let A := arch16 in
  c_ubig_from_str_radix (repeat 57 20 ++ [90]) 10 = (67, Ok (PErr InvalidDigit)).
Proof. vm_compute. reflexivity. Qed.

Example C61_short : let A := arch16 in
  c_ubig_from_str_radix [49; 50; 51] 16 = (8, Ok (POk (Small 291))).
Proof. vm_compute. reflexivity. Qed.
