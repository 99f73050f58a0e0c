(** C08: reciprocal-based word division equals true division. *)
From Verif Require Import Model.Base Model.Words Model.Memory Model.FastDivide Model.Mul Model.Div Model.Buffer Model.UBig Model.IBig Model.Convert Model.AddOps Model.MulOps Model.ShiftOps Model.Bits Model.DivOps Model.PrimOps
  Spec.Val Spec.Num Spec.Prim Spec.Digits
  Proofs.FastDivideProofs Proofs.Bounds Proofs.ApiProofs Proofs.Samples.

(** Two words by one word, for every normalized divisor. *)
Theorem C08_normalized (A : Arch) (AOK : ArchOk A) (d : Z) :
  B <= 2 * d -> d < B ->
  exists f, fdn_new d = Ok f /\
    (forall a, 0 <= a < d * B -> fdn_div_rem f a = Ok (a / d, a mod d)) /\
    (forall a, 0 <= a < B -> fdn_div_rem_word f a = Ok (a / d, a mod d)).
Proof. exact (normalized_division d). Qed.
Print Assumptions C08_normalized.

(** One word by a constant, for every divisor of at least two. *)
Theorem C08_small (A : Arch) (AOK : ArchOk A) (d : Z) :
  2 <= d < B ->
  exists f, fds_new d = Ok f /\ forall a, 0 <= a < B -> fds_div_rem f a = Ok (a / d, a mod d).
Proof. exact (small_division d). Qed.
Print Assumptions C08_small.

Example C08_values : let A := arch64 in
  (match fdn_new (2 ^ 63 + 3) with
   | Ok f => fdn_div_rem f ((2 ^ 63 + 3) * 2 ^ 64 - 1) = Ok (2 ^ 64 - 1, 2 ^ 63 + 2) | _ => False end) /\
  (match fds_new (10 ^ 19) with
   | Ok f => fds_div_rem f (2 ^ 64 - 1) = Ok ((2 ^ 64 - 1) / 10 ^ 19, (2 ^ 64 - 1) mod 10 ^ 19) | _ => False end).
Proof. cbv zeta. sample. Qed.

