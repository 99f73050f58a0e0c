(** C42: the num-traits implementations. *)
From Verif Require Import Model.Base Model.Words Model.Buffer Model.UBig Model.IBig Model.Convert Model.AddOps Model.Pow Model.Parse Model.NumTraits
  Spec.Val Spec.Num Spec.Prim Spec.Text Spec.ParseResult Proofs.PowProofs Proofs.ParseApi Proofs.NumTraitsProofs Proofs.Samples.

Theorem C42_zero_one (A : Arch) (AOK : ArchOk A) :
  returns nt_ubig_zero 0 /\ returns nt_ubig_one 1 /\ ireturns nt_ibig_zero 0 /\ ireturns nt_ibig_one 1.
Proof. exact (conj (proj1 zero_ubig) (conj (proj2 zero_ubig) zero_ibig)). Qed.
Print Assumptions C42_zero_one.

Theorem C42_ubig_is_zero (A : Arch) (AOK : ArchOk A) (u : ubig) :
  ubig_ok u -> nt_ubig_is_zero u = Ok (uval u =? 0).
Proof. exact (ubig_is_zero_spec u). Qed.
Print Assumptions C42_ubig_is_zero.

Theorem C42_ibig_is_zero (A : Arch) (AOK : ArchOk A) (x : ibig) :
  ibig_ok x -> nt_ibig_is_zero x = Ok (ival x =? 0).
Proof. exact (ibig_is_zero_spec x). Qed.
Print Assumptions C42_ibig_is_zero.

Theorem C42_signed (A : Arch) (AOK : ArchOk A) (x : ibig) :
  ibig_ok x ->
  ireturns (nt_abs x) (Z.abs (ival x)) /\ ireturns (nt_signum x) (Z.sgn (ival x)) /\
  nt_is_positive x = Ok (0 <? ival x) /\ nt_is_negative x = Ok (ival x <? 0).
Proof. exact (signed_spec x). Qed.
Print Assumptions C42_signed.

Theorem C42_pow (A : Arch) (AOK : ArchOk A) (u : ubig) (x : ibig) (e : Z) :
  ubig_ok u -> ibig_ok x -> 0 <= e < 2 ^ ubits ->
  yields (nt_ubig_pow_v u e) (uval u ^ e) /\ yields (nt_ubig_pow_r u e) (uval u ^ e) /\
  iyields (nt_ibig_pow_v x e) (ival x ^ e) /\ iyields (nt_ibig_pow_r x e) (ival x ^ e).
Proof.
  exact (fun Hu Hx He => conj (ubig_pow_spec u e Hu He) (conj (ubig_pow_spec u e Hu He)
           (conj (ibig_pow_spec x e Hx He) (ibig_pow_spec x e Hx He)))).
Qed.
Print Assumptions C42_pow.

Theorem C42_from_str_radix (A : Arch) (AOK : ArchOk A) (r : Z) (s : list Z) (v : Z) :
  2 <= r <= 36 -> slice_size (43 :: s) -> numeral r s v ->
  (accepts (nt_ubig_from_str_radix s r) v /\ accepts (nt_ubig_from_str_radix (43 :: s) r) v) /\
  iaccepts (nt_ibig_from_str_radix s r) v /\ iaccepts (nt_ibig_from_str_radix (43 :: s) r) v /\
  iaccepts (nt_ibig_from_str_radix (45 :: s) r) (- v).
Proof.
  exact (fun Hr Hs N => conj (ubig_from_str_radix_spec r s v Hr Hs N) (ibig_from_str_radix_spec r s v Hr Hs N)).
Qed.
Print Assumptions C42_from_str_radix.

(** The contract of [Signed::abs_sub] is "the positive difference of two numbers",
    zero if the first is not greater than the second.  It holds only when it is. *)
Theorem C42_abs_sub_partial (A : Arch) (AOK : ArchOk A) (x y : ibig) :
  ibig_ok x -> ibig_ok y -> ival y <= ival x -> iyields (nt_abs_sub x y) (Z.max (ival x - ival y) 0).
Proof. exact (abs_sub_ge x y). Qed.
Print Assumptions C42_abs_sub_partial.

Theorem C42_abs_sub_refuted (A : Arch) (AOK : ArchOk A) :
  exists x y d, ibig_ok x /\ ibig_ok y /\ nt_abs_sub x y = Ok d /\ ival d <> Z.max (ival x - ival y) 0.
Proof. exact abs_sub_wrong. Qed.
Print Assumptions C42_abs_sub_refuted.

(** What the code computes instead: the distance. *)
Theorem C42_abs_sub_distance (A : Arch) (AOK : ArchOk A) (x y : ibig) :
  ibig_ok x -> ibig_ok y -> iyields (nt_abs_sub x y) (Z.abs (ival x - ival y)).
Proof. exact (abs_sub_all x y). Qed.
Print Assumptions C42_abs_sub_distance.

Example C42_values : let A := arch16 in
  let a := lg [1; 1] in ubig_ok a /\ ibig_ok (neg a) /\
  nt_ubig_is_zero a = Ok false /\ nt_ubig_is_zero (Small 0) = Ok true /\
  nt_is_positive (neg a) = Ok false /\ nt_is_negative (neg a) = Ok true /\ nt_is_positive (pos (Small 0)) = Ok false /\
  iresult (nt_signum (neg a)) = Ok (-1) /\ iresult (nt_abs (neg a)) = Ok 65537 /\
  iresult (nt_abs_sub (pos (Small 5)) (pos (Small 3))) = Ok 2 /\
  iresult (nt_abs_sub (pos (Small 3)) (pos (Small 5))) = Ok 2.
Proof. cbv zeta. sample. Qed.
