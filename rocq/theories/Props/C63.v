(** C63: sums, differences and shifts take linear time, greatest common divisors quadratic time. *)
From Coq Require Import ZArith List Lia.
From Verif Require Import Model.Base Model.Words Model.Buffer Model.UBig Model.IBig Model.AddOps Model.ShiftOps Model.Gcd
  Model.Cost Model.CostOps Model.CostGcd Spec.Val Spec.Num Proofs.CostOpsProofs Proofs.CostGcdProofs Proofs.CostGcdTheorems Proofs.Samples.
Import ListNotations.
Open Scope Z_scope.

(** Model/CostGcd.v repeats src/add_ops.rs, src/shift_ops.rs and src/gcd.rs with the
    counter of Model/Cost.v.  The counter changes nothing. *)
Theorem C63_same_gcd (A : Arch) (a b : ubig) :
  snd (c_ubig_gcd a b) = ubig_gcd a b /\ snd (c_ubig_extended_gcd a b) = ubig_extended_gcd a b.
Proof. exact (conj (gcd_erase a b) (extended_gcd_erase a b)). Qed.
Print Assumptions C63_same_gcd.

Theorem C63_same_linear (A : Arch) (a b : ubig) (k : Z) :
  snd (c_ubig_add_vr a b) = ubig_add_vr a b /\ snd (c_ubig_add_rr a b) = ubig_add_rr a b /\
  snd (c_ubig_sub_vr a b) = ubig_sub_vr a b /\ snd (c_ubig_sub_rv a b) = ubig_sub_rv a b /\ snd (c_ubig_sub_rr a b) = ubig_sub_rr a b /\
  snd (c_ubig_shl_v a k) = ubig_shl_v a k /\ snd (c_ubig_shl_r a k) = ubig_shl_r a k /\
  snd (c_ubig_shr_v a k) = ubig_shr_v a k /\ snd (c_ubig_shr_r a k) = ubig_shr_r a k.
Proof.
  exact (conj (add_vr_erase a b) (conj (add_rr_erase a b) (conj (sub_vr_erase a b) (conj (sub_rv_erase a b) (conj (sub_rr_erase a b)
    (conj (shl_v_erase a k) (conj (shl_r_erase a k) (conj (shr_v_erase a k) (shr_r_erase a k))))))))).
Qed.
Print Assumptions C63_same_linear.

Theorem C63_add (A : Arch) (AOK : ArchOk A) (f : ubig -> ubig -> counted ubig) (g : ubig -> ubig -> res ubig) (a b : ubig) (n : Z) (x : ubig) :
  In (f, g) [(c_ubig_add_vv, ubig_add_vv); (c_ubig_add_vr, ubig_add_vr); (c_ubig_add_rr, ubig_add_rr)] ->
  1 <= ulen a -> 1 <= ulen b -> f a b = (n, Ok x) -> g a b = Ok x /\ 0 <= n <= 18 * Z.max (ulen a) (ulen b).
Proof. exact (add_op_steps f g a b n x). Qed.
Print Assumptions C63_add.

Theorem C63_sub (A : Arch) (AOK : ArchOk A) (f : ubig -> ubig -> counted ubig) (g : ubig -> ubig -> res ubig) (a b : ubig) (n : Z) (x : ubig) :
  In (f, g) [(c_ubig_sub_vr, ubig_sub_vr); (c_ubig_sub_rv, ubig_sub_rv); (c_ubig_sub_rr, ubig_sub_rr)] ->
  1 <= ulen a -> f a b = (n, Ok x) -> g a b = Ok x /\ 0 <= n <= 11 * ulen a.
Proof. exact (sub_op_steps f g a b n x). Qed.
Print Assumptions C63_sub.

(** A shift to the left is linear in the length of the result. *)
Theorem C63_shl (A : Arch) (AOK : ArchOk A) (f : ubig -> Z -> counted ubig) (g : ubig -> Z -> res ubig) (u : ubig) (k n : Z) (x : ubig) :
  In (f, g) [(c_ubig_shl_v, ubig_shl_v); (c_ubig_shl_r, ubig_shl_r)] ->
  1 <= ulen u -> 0 <= k -> f u k = (n, Ok x) -> g u k = Ok x /\ 0 <= n <= 14 * ulen u + 3 * (k / wbits).
Proof. exact (shl_op_steps f g u k n x). Qed.
Print Assumptions C63_shl.

Theorem C63_shr (A : Arch) (AOK : ArchOk A) (f : ubig -> Z -> counted ubig) (g : ubig -> Z -> res ubig) (u : ubig) (k n : Z) (x : ubig) :
  In (f, g) [(c_ubig_shr_v, ubig_shr_v); (c_ubig_shr_r, ubig_shr_r)] ->
  1 <= ulen u -> f u k = (n, Ok x) -> g u k = Ok x /\ 0 <= n <= 8 * ulen u.
Proof. exact (shr_op_steps f g u k n x). Qed.
Print Assumptions C63_shr.

(** Each turn of the binary algorithm clears a bit and passes over the words of the
    shorter number; one division first makes the longer number as short. *)
Theorem C63_gcd (A : Arch) (AOK : ArchOk A) (a b : ubig) (n : Z) (x : ubig) :
  ubig_ok a -> ubig_ok b -> c_ubig_gcd a b = (n, Ok x) ->
  ubig_gcd a b = Ok x /\
  0 <= n <= (4000 * Z.max (ulen a) (ulen b) + 36 * wbits * Z.min (ulen a) (ulen b)) * Z.min (ulen a) (ulen b).
Proof. exact (gcd_steps a b n x). Qed.
Print Assumptions C63_gcd.

Theorem C63_extended_gcd (A : Arch) (AOK : ArchOk A) (a b : ubig) (n : Z) (x : ubig * ibig * ibig) :
  ubig_ok a -> ubig_ok b -> c_ubig_extended_gcd a b = (n, Ok x) ->
  ubig_extended_gcd a b = Ok x /\ 0 <= n <= (4100 + 280 * wbits) * (ulen a * ulen b).
Proof. exact (extended_gcd_steps a b n x). Qed.
Print Assumptions C63_extended_gcd.

(** 11 * (2^64 + 2^33 + 1) with 7 * 11^5 * 13, and 18446744073709551616 with 12345678901234567890. *)
Example C63_gcd_small : let A := arch16 in
  exists x, c_ubig_gcd (lg [11; 0; 22; 0; 11]) (lg [41113; 223]) = (306, Ok x) /\ uval x = 11.
Proof. cbv zeta. eexists. split; vm_compute; reflexivity. Qed.

Example C63_extended : let A := arch16 in
  exists x, c_ubig_extended_gcd (lg [0; 0; 0; 0; 1]) (lg [2770; 60191; 43404; 43860]) = (8205, Ok x) /\ uval (fst (fst x)) = 2.
Proof. cbv zeta. eexists. split; vm_compute; reflexivity. Qed.

Example C63_shift : let A := arch16 in
  exists x, c_ubig_shl_r (lg [5; 0; 7]) 100 = (38, Ok x) /\ uval x = (5 + 7 * 2 ^ 32) * 2 ^ 100.
Proof. cbv zeta. eexists. split; vm_compute; reflexivity. Qed.

Example C63_difference : let A := arch16 in
  exists x, c_ubig_sub_rv (lg [5; 0; 7; 1]) (lg [6; 1]) = (23, Ok x) /\ uval x = 5 + 7 * 2 ^ 32 + 2 ^ 48 - 65542.
Proof. cbv zeta. eexists. split; vm_compute; reflexivity. Qed.

Example C63_sum : let A := arch16 in
  exists x, c_ubig_add_rr (lg [65535; 65535; 65535]) (lg [1; 1]) = (25, Ok x) /\ uval x = 2 ^ 48 + 65536.
Proof. cbv zeta. eexists. split; vm_compute; reflexivity. Qed.

Example C63_one_word : let A := arch16 in
  (exists x, c_ubig_shl_r (Small 3) 50 = (18, Ok x) /\ uval x = 3 * 2 ^ 50) /\ c_ubig_rem_vr (lg [1; 2; 3]) (Small 7) = (4, Ok (Small 3)).
Proof. cbv zeta. split; [eexists; split|]; vm_compute; reflexivity. Qed.
