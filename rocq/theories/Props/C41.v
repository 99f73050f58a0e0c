(** C41: sign operations. *)
From Verif Require Import Model.Base Model.Words Model.Memory Model.FastDivide Model.Mul Model.Div Model.Buffer Model.UBig Model.IBig Model.Convert Model.AddOps Model.MulOps Model.ShiftOps Model.Bits Model.DivOps Model.PrimOps
  Spec.Val Spec.Num Spec.Prim Spec.Digits
  Proofs.BufferProofs Proofs.ConvertProofs Proofs.DivOpsProofs Proofs.ApiProofs Proofs.Bounds Proofs.ApiProofs Proofs.Samples.

Theorem C41_sign_ops (A : Arch) (AOK : ArchOk A) (x : ibig) (s : sign) :
  ibig_ok x ->
  ireturns (Ok (ibig_neg x)) (- ival x) /\ ireturns (ibig_neg_ref x) (- ival x) /\
  ireturns (Ok (ibig_abs x)) (Z.abs (ival x)) /\ ireturns (ibig_abs_ref x) (Z.abs (ival x)) /\
  returns (Ok (unsigned_abs x)) (Z.abs (ival x)) /\ returns (unsigned_abs_ref x) (Z.abs (ival x)) /\
  ireturns (signum x) (Z.sgn (ival x)) /\
  ireturns (Ok (sign_mul_ibig s x)) (sign_val s * ival x).
Proof. exact (sign_ops x s). Qed.
Print Assumptions C41_sign_ops.

Theorem C41_sign_mul (s t : sign) :
  sign_val (sign_mul s t) = sign_val s * sign_val t /\ sign_val (sign_neg s) = - sign_val s.
Proof. exact (sign_mul_val s t). Qed.
Print Assumptions C41_sign_mul.

Example C41_values : let A := arch64 in
  let x := neg (lg [12; 10]) in
  ibig_ok x /\ ibig_neg x = pos (lg [12; 10]) /\ signum x = Ok (neg (Small 1)) /\ ibig_neg (pos (Small 0)) = pos (Small 0).
Proof. cbv zeta. sample. Qed.

