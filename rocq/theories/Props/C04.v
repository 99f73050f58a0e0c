(** C04: multiplication is exact for every operand size. *)
From Verif Require Import Model.Base Model.Words Model.Memory Model.FastDivide Model.Mul Model.Div Model.Buffer Model.UBig Model.IBig Model.Convert Model.AddOps Model.MulOps Model.ShiftOps Model.Bits Model.DivOps Model.PrimOps
  Spec.Val Spec.Num Spec.Prim Spec.Digits
  Proofs.MulOpsProofs Proofs.Bounds Proofs.ApiProofs Proofs.Limits Proofs.Samples.

Theorem C04_ubig_mul_exact (A : Arch) (AOK : ArchOk A) (a b : ubig) :
  ubig_ok a -> ubig_ok b ->
  Forall (fun f => yields (f a b) (uval a * uval b))
    [ubig_mul_vv; ubig_mul_vr; ubig_mul_rv; ubig_mul_rr; ubig_mul_assign_v; ubig_mul_assign_r].
Proof.
  intros Ha Hb.
  apply Forall_cons; [exact ((ubig_mul_vv_yields _ _ Ha Hb))|].
  apply Forall_cons; [exact ((ubig_mul_vr_yields _ _ Ha Hb))|].
  apply Forall_cons; [exact ((ubig_mul_rv_yields _ _ Ha Hb))|].
  apply Forall_cons; [exact ((ubig_mul_rr_yields _ _ Ha Hb))|].
  apply Forall_cons; [exact ((ubig_mul_vv_yields _ _ Ha Hb))|].
  apply Forall_cons; [exact ((ubig_mul_vr_yields _ _ Ha Hb))|].
  apply Forall_nil.
Qed.
Print Assumptions C04_ubig_mul_exact.

Theorem C04_ibig_mul_exact (A : Arch) (AOK : ArchOk A) (x y : ibig) :
  ibig_ok x -> ibig_ok y ->
  Forall (fun f => iyields (f x y) (ival x * ival y))
    [ibig_mul_vv; ibig_mul_vr; ibig_mul_rv; ibig_mul_rr; ibig_mul_assign_v; ibig_mul_assign_r].
Proof.
  intros Hx Hy.
  apply Forall_cons; [exact ((ibig_mul_vv_yields _ _ Hx Hy))|].
  apply Forall_cons; [exact ((ibig_mul_vr_yields _ _ Hx Hy))|].
  apply Forall_cons; [exact ((ibig_mul_rv_yields _ _ Hx Hy))|].
  apply Forall_cons; [exact ((ibig_mul_rr_yields _ _ Hx Hy))|].
  apply Forall_cons; [exact ((ibig_mul_vv_yields _ _ Hx Hy))|].
  apply Forall_cons; [exact ((ibig_mul_vr_yields _ _ Hx Hy))|].
  apply Forall_nil.
Qed.
Print Assumptions C04_ibig_mul_exact.

(** 25 words are multiplied by the Karatsuba algorithm. *)
Example C04_sizes : let A := arch16 in
  let a := lg (repeat (2 ^ 16 - 1) 25) in let b := lg (repeat (2 ^ 16 - 1) 4) in
  ubig_ok a /\ ubig_ok b /\
  uresult (ubig_mul_vv a a) = Ok ((2 ^ 400 - 1) * (2 ^ 400 - 1)) /\
  iresult (ibig_mul_rr (neg a) (pos b)) = Ok (- ((2 ^ 400 - 1) * (2 ^ 64 - 1))).
Proof. cbv zeta. sample. Qed.

Example C04_too_large (A : Arch) (AOK : ArchOk A) :
  exists a, ubig_ok a /\ ubig_mul_vv a (Small 2) = Panic NumberTooLarge.
Proof. exact mul_too_large. Qed.

