(** C69: bit operations and conversions to and from bytes take linear time. *)
From Coq Require Import ZArith List Lia.
From Verif Require Import Model.Base Model.Words Model.Buffer Model.UBig Model.IBig Model.Convert Model.Bits
  Model.Cost Model.CostBits Spec.Val Spec.Num Proofs.CostBitsApi Proofs.Samples.
Import ListNotations.
Open Scope Z_scope.

(** Model/CostBits.v repeats src/bits.rs and part of src/convert.rs with the counter of
    Model/Cost.v.  The counter changes nothing. *)
Theorem C69_same_unsigned (A : Arch) (f : ubig -> ubig -> counted ubig) (g : ubig -> ubig -> res ubig) (a : ubig) (b : ubig) :
  In (f, g) [(c_ubig_and_vv, ubig_and_vv); (c_ubig_and_vr, ubig_and_vr); (c_ubig_and_rv, ubig_and_rv); (c_ubig_and_rr, ubig_and_rr);
             (c_ubig_or_vv, ubig_or_vv); (c_ubig_or_vr, ubig_or_vr); (c_ubig_or_rv, ubig_or_rv); (c_ubig_or_rr, ubig_or_rr);
             (c_ubig_xor_vv, ubig_xor_vv); (c_ubig_xor_vr, ubig_xor_vr); (c_ubig_xor_rv, ubig_xor_rv); (c_ubig_xor_rr, ubig_xor_rr);
             (c_ubig_and_not_vv, ubig_and_not_vv); (c_ubig_and_not_vr, ubig_and_not_vr); (c_ubig_and_not_rv, ubig_and_not_rv); (c_ubig_and_not_rr, ubig_and_not_rr)] ->
  snd (f a b) = g a b.
Proof. exact (unsigned_same f g a b). Qed.
Print Assumptions C69_same_unsigned.

Theorem C69_same_signed (A : Arch) (f : ibig -> ibig -> counted ibig) (g : ibig -> ibig -> res ibig) (x : ibig) (y : ibig) :
  In (f, g) [(c_ibig_and_vv, ibig_and_vv); (c_ibig_and_vr, ibig_and_vr); (c_ibig_and_rv, ibig_and_rv); (c_ibig_and_rr, ibig_and_rr);
             (c_ibig_or_vv, ibig_or_vv); (c_ibig_or_vr, ibig_or_vr); (c_ibig_or_rv, ibig_or_rv); (c_ibig_or_rr, ibig_or_rr);
             (c_ibig_xor_vv, ibig_xor_vv); (c_ibig_xor_vr, ibig_xor_vr); (c_ibig_xor_rv, ibig_xor_rv); (c_ibig_xor_rr, ibig_xor_rr);
             (c_ibig_and_not_vv, ibig_and_not_vv); (c_ibig_and_not_vr, ibig_and_not_vr); (c_ibig_and_not_rv, ibig_and_not_rv); (c_ibig_and_not_rr, ibig_and_not_rr)] ->
  snd (f x y) = g x y.
Proof. exact (signed_same f g x y). Qed.
Print Assumptions C69_same_signed.

Theorem C69_same_others (A : Arch) (u : ubig) (n : Z) (bytes : list Z) :
  snd (c_set_bit u n) = set_bit u n /\ snd (c_clear_bit u n) = clear_bit u n /\ snd (c_is_power_of_two u) = is_power_of_two u /\
  snd (c_next_power_of_two_v u) = next_power_of_two_v u /\ snd (c_next_power_of_two_r u) = next_power_of_two_r u /\
  snd (c_from_le_bytes bytes) = from_le_bytes bytes /\ snd (c_from_be_bytes bytes) = from_be_bytes bytes /\
  snd (c_to_le_bytes u) = to_le_bytes u /\ snd (c_to_be_bytes u) = to_be_bytes u.
Proof. exact (others_same u n bytes). Qed.
Print Assumptions C69_same_others.

(** The conjunction looks at no more words than the shorter operand has. *)
Theorem C69_and (A : Arch) (AOK : ArchOk A) (f : ubig -> ubig -> counted ubig) (g : ubig -> ubig -> res ubig) (a : ubig) (b : ubig) (k : Z) (x : ubig) :
  In (f, g) [(c_ubig_and_vv, ubig_and_vv); (c_ubig_and_vr, ubig_and_vr); (c_ubig_and_rv, ubig_and_rv); (c_ubig_and_rr, ubig_and_rr)] ->
  1 <= ulen a -> 1 <= ulen b -> f a b = (k, Ok x) -> g a b = Ok x /\ 0 <= k <= 8 * Z.min (ulen a) (ulen b).
Proof. exact (and_steps f g a b k x). Qed.
Print Assumptions C69_and.

Theorem C69_or (A : Arch) (AOK : ArchOk A) (f : ubig -> ubig -> counted ubig) (g : ubig -> ubig -> res ubig) (a : ubig) (b : ubig) (k : Z) (x : ubig) :
  In (f, g) [(c_ubig_or_vv, ubig_or_vv); (c_ubig_or_vr, ubig_or_vr); (c_ubig_or_rv, ubig_or_rv); (c_ubig_or_rr, ubig_or_rr);
             (c_ubig_xor_vv, ubig_xor_vv); (c_ubig_xor_vr, ubig_xor_vr); (c_ubig_xor_rv, ubig_xor_rv); (c_ubig_xor_rr, ubig_xor_rr)] ->
  1 <= ulen a -> 1 <= ulen b -> f a b = (k, Ok x) -> g a b = Ok x /\ 0 <= k <= 10 * Z.max (ulen a) (ulen b).
Proof. exact (or_steps f g a b k x). Qed.
Print Assumptions C69_or.

(** [and_not] looks at no more words than the first operand has. *)
Theorem C69_and_not (A : Arch) (AOK : ArchOk A) (f : ubig -> ubig -> counted ubig) (g : ubig -> ubig -> res ubig) (a : ubig) (b : ubig) (k : Z) (x : ubig) :
  In (f, g) [(c_ubig_and_not_vv, ubig_and_not_vv); (c_ubig_and_not_vr, ubig_and_not_vr); (c_ubig_and_not_rv, ubig_and_not_rv); (c_ubig_and_not_rr, ubig_and_not_rr)] ->
  1 <= ulen a -> f a b = (k, Ok x) -> g a b = Ok x /\ 0 <= k <= 7 * ulen a.
Proof. exact (and_not_steps f g a b k x). Qed.
Print Assumptions C69_and_not.

(** Signed numbers, as if in two's complement: still linear, also when negative. *)
Theorem C69_signed (A : Arch) (AOK : ArchOk A) (f : ibig -> ibig -> counted ibig) (g : ibig -> ibig -> res ibig) (x : ibig) (y : ibig) (k : Z) (z : ibig) :
  In (f, g) [(c_ibig_and_vv, ibig_and_vv); (c_ibig_and_vr, ibig_and_vr); (c_ibig_and_rv, ibig_and_rv); (c_ibig_and_rr, ibig_and_rr);
             (c_ibig_or_vv, ibig_or_vv); (c_ibig_or_vr, ibig_or_vr); (c_ibig_or_rv, ibig_or_rv); (c_ibig_or_rr, ibig_or_rr);
             (c_ibig_xor_vv, ibig_xor_vv); (c_ibig_xor_vr, ibig_xor_vr); (c_ibig_xor_rv, ibig_xor_rv); (c_ibig_xor_rr, ibig_xor_rr);
             (c_ibig_and_not_vv, ibig_and_not_vv); (c_ibig_and_not_vr, ibig_and_not_vr); (c_ibig_and_not_rv, ibig_and_not_rv); (c_ibig_and_not_rr, ibig_and_not_rr)] ->
  ibig_ok x -> ibig_ok y -> f x y = (k, Ok z) -> g x y = Ok z /\ 0 <= k <= 67 * Z.max (ulen (imag x)) (ulen (imag y)).
Proof. exact (signed_steps f g x y k z). Qed.
Print Assumptions C69_signed.

Theorem C69_not (A : Arch) (AOK : ArchOk A) (f : ibig -> counted ibig) (g : ibig -> res ibig) (x : ibig) (k : Z) (z : ibig) :
  In (f, g) [(c_ibig_not_v, ibig_not_v); (c_ibig_not_r, ibig_not_r)] ->
  ibig_ok x -> f x = (k, Ok z) -> g x = Ok z /\ 0 <= k <= 19 * ulen (imag x).
Proof. exact (not_steps f g x k z). Qed.
Print Assumptions C69_not.

(** Setting a bit beyond the end makes room for it. *)
Theorem C69_set_bit (A : Arch) (AOK : ArchOk A) (u : ubig) (n : Z) (k : Z) (x : ubig) :
  1 <= ulen u -> 0 <= n -> c_set_bit u n = (k, Ok x) -> set_bit u n = Ok x /\ 0 <= k <= 2 * ulen u + 3 * (n / wbits) + 6.
Proof. exact (set_bit_steps u n k x). Qed.
Print Assumptions C69_set_bit.

Theorem C69_clear_bit (A : Arch) (AOK : ArchOk A) (u : ubig) (n : Z) (k : Z) (x : ubig) :
  1 <= ulen u -> c_clear_bit u n = (k, Ok x) -> clear_bit u n = Ok x /\ 0 <= k <= 2 * ulen u + 1.
Proof. exact (clear_bit_steps u n k x). Qed.
Print Assumptions C69_clear_bit.

Theorem C69_is_power_of_two (A : Arch) (AOK : ArchOk A) (u : ubig) (k : Z) (x : bool) :
  1 <= ulen u -> c_is_power_of_two u = (k, Ok x) -> is_power_of_two u = Ok x /\ 0 <= k <= ulen u.
Proof. exact (is_power_steps u k x). Qed.
Print Assumptions C69_is_power_of_two.

Theorem C69_next_power_of_two (A : Arch) (AOK : ArchOk A) (f : ubig -> counted ubig) (g : ubig -> res ubig) (u : ubig) (k : Z) (x : ubig) :
  In (f, g) [(c_next_power_of_two_v, next_power_of_two_v); (c_next_power_of_two_r, next_power_of_two_r)] ->
  1 <= ulen u -> f u = (k, Ok x) -> g u = Ok x /\ 0 <= k <= 12 * ulen u.
Proof. exact (next_power_steps f g u k x). Qed.
Print Assumptions C69_next_power_of_two.

(** Each byte is charged. *)
Theorem C69_from_bytes (A : Arch) (AOK : ArchOk A) (f : list Z -> counted ubig) (g : list Z -> res ubig) (bytes : list Z) (k : Z) (x : ubig) :
  In (f, g) [(c_from_le_bytes, from_le_bytes); (c_from_be_bytes, from_be_bytes)] ->
  f bytes = (k, Ok x) -> g bytes = Ok x /\ 0 <= k <= 3 * Z.of_nat (length bytes) + 14.
Proof. exact (from_bytes_steps f g bytes k x). Qed.
Print Assumptions C69_from_bytes.

Theorem C69_to_bytes (A : Arch) (AOK : ArchOk A) (f : ubig -> counted (list Z)) (g : ubig -> res (list Z)) (u : ubig) (k : Z) (x : list Z) :
  In (f, g) [(c_to_le_bytes, to_le_bytes); (c_to_be_bytes, to_be_bytes)] ->
  1 <= ulen u -> f u = (k, Ok x) -> g u = Ok x /\ 0 <= k <= (wbits / 8 + 1) * ulen u.
Proof. exact (to_bytes_steps f g u k x). Qed.
Print Assumptions C69_to_bytes.

Example C69_case : let A := arch16 in ubig_ok (lg [1; 2; 3; 4; 5; 6]) /\ ulen (lg [1; 2; 3; 4; 5; 6]) = 6 /\ ulen (lg [7; 7]) = 2.
Proof. split; [sample|split; reflexivity]. Qed.

(** The steps and the value. *)
Definition C69_run {A : Arch} (m : counted ubig) : res (Z * Z) := let '(k, r) := m in u <- r ;; Ok (k, uval u).

Example C69_short : let A := arch16 in
  map (fun f => C69_run (f (lg [1; 2; 3; 4; 5; 6]) (lg [7; 7]))) [c_ubig_and_vv; c_ubig_and_rr; c_ubig_or_vv; c_ubig_xor_rr; c_ubig_and_not_rr] =
  [Ok (8, 1 + 2 ^ 17); Ok (11, 1 + 2 ^ 17); Ok (16, val [7; 7; 3; 4; 5; 6]); Ok (23, val [6; 5; 3; 4; 5; 6]); Ok (23, val [0; 0; 3; 4; 5; 6])].
Proof. vm_compute. reflexivity. Qed.
Example C69_negative : let A := arch16 in
  (let '(k, r) := c_ibig_and_rr (neg (lg [1; 2; 3])) (neg (lg [5; 0; 3; 1])) in x <- r ;; Ok (k, ival x)) = Ok (64, Z.land (- val [1; 2; 3]) (- val [5; 0; 3; 1])).
Proof. vm_compute. reflexivity. Qed.
Example C69_bytes : let A := arch16 in
  (C69_run (c_from_be_bytes [1; 2; 3; 4; 5]), c_to_le_bytes (lg [1; 2; 3]), C69_run (c_set_bit (lg [1; 2; 3]) 100), C69_run (c_next_power_of_two_r (lg [1; 2; 65535])))
  = (Ok (18, 4328719365), (9, Ok [1; 0; 2; 0; 3]), Ok (24, 2 ^ 100 + val [1; 2; 3]), Ok (21, 2 ^ 48)).
Proof. vm_compute. reflexivity. Qed.
Example C69_long : let A := arch16 in
  map (fun f => C69_run (f (lg [7; 7]) (lg [1; 2; 3; 4; 5; 6]))) [c_ubig_or_vv; c_ubig_xor_vv; c_ubig_or_vr; c_ubig_xor_vr] =
  [Ok (16, val [7; 7; 3; 4; 5; 6]); Ok (16, val [6; 5; 3; 4; 5; 6]); Ok (24, val [7; 7; 3; 4; 5; 6]); Ok (24, val [6; 5; 3; 4; 5; 6])].
Proof. vm_compute. reflexivity. Qed.
Example C69_powers_of_two : let A := arch16 in
  (C69_run (c_set_bit (Small 1) 50), map c_is_power_of_two [lg [0; 0; 4]; lg [0; 1; 4]; Small 4]) =
  (Ok (15, 2 ^ 50 + 1), [(3, Ok true); (3, Ok false); (1, Ok true)]).
Proof. vm_compute. reflexivity. Qed.
Example C69_from_bytes_cases : let A := arch16 in
  map (fun f => map (fun b => C69_run (f b)) [[1]; [1; 2]; [1; 2; 3]; [1; 2; 3; 4; 5]]) [c_from_le_bytes; c_from_be_bytes] =
  [[Ok (3, 1); Ok (3, 513); Ok (13, 197121); Ok (18, 21542142465)]; [Ok (3, 1); Ok (3, 258); Ok (13, 66051); Ok (18, 4328719365)]].
Proof. vm_compute. reflexivity. Qed.
Example C69_to_bytes_cases : let A := arch16 in
  map (fun f => map f [Small 0; Small 258; lg [1; 2; 3]]) [c_to_le_bytes; c_to_be_bytes] =
  [[(3, Ok []); (3, Ok [2; 1]); (9, Ok [1; 0; 2; 0; 3])]; [(3, Ok []); (3, Ok [1; 2]); (9, Ok [3; 0; 2; 0; 1])]].
Proof. vm_compute. reflexivity. Qed.
