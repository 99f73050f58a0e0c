(** C09: IBig division truncates toward zero. *)
From Verif Require Import Model.Base Model.Words Model.Memory Model.FastDivide Model.Mul Model.Div Model.Buffer Model.UBig Model.IBig Model.Convert Model.AddOps Model.MulOps Model.ShiftOps Model.Bits Model.DivOps Model.PrimOps
  Spec.Val Spec.Num Spec.Prim Spec.Digits
  Proofs.DivOpsProofs Proofs.Bounds Proofs.ApiProofs Proofs.Samples.

Theorem C09_ibig_div_exact (A : Arch) (AOK : ArchOk A) (x y : ibig) :
  ibig_ok x -> ibig_ok y ->
  Forall (fun f => idiv_yields (ival y) (f x y) (Z.quot (ival x) (ival y)))
    [ibig_div_vv; ibig_div_vr; ibig_div_rv; ibig_div_rr; ibig_div_assign_v; ibig_div_assign_r].
Proof.
  intros Hx Hy.
  apply Forall_cons; [exact ((ibig_div_vv_yields _ _ Hx Hy))|].
  apply Forall_cons; [exact ((ibig_div_vr_yields _ _ Hx Hy))|].
  apply Forall_cons; [exact ((ibig_div_rv_yields _ _ Hx Hy))|].
  apply Forall_cons; [exact ((ibig_div_rr_yields _ _ Hx Hy))|].
  apply Forall_cons; [exact ((ibig_div_vv_yields _ _ Hx Hy))|].
  apply Forall_cons; [exact ((ibig_div_vr_yields _ _ Hx Hy))|].
  apply Forall_nil.
Qed.
Print Assumptions C09_ibig_div_exact.

Theorem C09_ibig_rem_exact (A : Arch) (AOK : ArchOk A) (x y : ibig) :
  ibig_ok x -> ibig_ok y ->
  Forall (fun f => idiv_yields (ival y) (f x y) (Z.rem (ival x) (ival y)))
    [ibig_rem_vv; ibig_rem_vr; ibig_rem_rv; ibig_rem_rr; ibig_rem_assign_v; ibig_rem_assign_r].
Proof.
  intros Hx Hy.
  apply Forall_cons; [exact ((ibig_rem_vv_yields _ _ Hx Hy))|].
  apply Forall_cons; [exact ((ibig_rem_vr_yields _ _ Hx Hy))|].
  apply Forall_cons; [exact ((ibig_rem_rv_yields _ _ Hx Hy))|].
  apply Forall_cons; [exact ((ibig_rem_rr_yields _ _ Hx Hy))|].
  apply Forall_cons; [exact ((ibig_rem_vv_yields _ _ Hx Hy))|].
  apply Forall_cons; [exact ((ibig_rem_vr_yields _ _ Hx Hy))|].
  apply Forall_nil.
Qed.
Print Assumptions C09_ibig_rem_exact.

Theorem C09_ibig_div_rem_exact (A : Arch) (AOK : ArchOk A) (x y : ibig) :
  ibig_ok x -> ibig_ok y ->
  Forall (fun f => idiv_rem_yields (ival y) (f x y) (Z.quot (ival x) (ival y)) (Z.rem (ival x) (ival y)))
    [ibig_div_rem_vv; ibig_div_rem_vr; ibig_div_rem_rv; ibig_div_rem_rr].
Proof.
  intros Hx Hy.
  apply Forall_cons; [exact ((ibig_div_rem_vv_yields _ _ Hx Hy))|].
  apply Forall_cons; [exact ((ibig_div_rem_vr_yields _ _ Hx Hy))|].
  apply Forall_cons; [exact ((ibig_div_rem_rv_yields _ _ Hx Hy))|].
  apply Forall_cons; [exact ((ibig_div_rem_rr_yields _ _ Hx Hy))|].
  apply Forall_nil.
Qed.
Print Assumptions C09_ibig_div_rem_exact.

(** What truncating division means: the remainder is smaller than the divisor
    and has the sign of the dividend. *)
Theorem C09_truncation (a b : Z) : b <> 0 ->
  a = b * Z.quot a b + Z.rem a b /\ Z.abs (Z.rem a b) < Z.abs b /\ 0 <= Z.rem a b * a.
Proof. exact (truncation a b). Qed.
Print Assumptions C09_truncation.

Example C09_signs : let A := arch64 in
  let x := neg (lg [7; 1]) in let y := pos (Small 10) in
  ibig_ok x /\ ibig_ok y /\ iresult2 (ibig_div_rem_vv x y) = Ok (- 1844674407370955162, -3) /\
  ibig_rem_rr x (pos (Small 0)) = Panic DivideByZero.
Proof. cbv zeta. sample. Qed.

