(** C06: UBig division and remainder are exact. *)
From Verif Require Import Model.Base Model.Words Model.Memory Model.FastDivide Model.Mul Model.Div Model.Buffer Model.UBig Model.IBig Model.Convert Model.AddOps Model.MulOps Model.ShiftOps Model.Bits Model.DivOps Model.PrimOps
  Spec.Val Spec.Num Spec.Prim Spec.Digits
  Proofs.DivOpsProofs Proofs.Bounds Proofs.ApiProofs Proofs.Limits Proofs.Samples.

Theorem C06_ubig_div_exact (A : Arch) (AOK : ArchOk A) (a b : ubig) :
  ubig_ok a -> ubig_ok b ->
  Forall (fun f => div_yields (uval b) (f a b) (uval a / uval b))
    [ubig_div_vv; ubig_div_vr; ubig_div_rv; ubig_div_rr; ubig_div_assign_v; ubig_div_assign_r; ubig_div_euclid_vv; ubig_div_euclid_vr; ubig_div_euclid_rv; ubig_div_euclid_rr].
Proof.
  intros Ha Hb.
  apply Forall_cons; [exact ((ubig_div_vv_yields _ _ Ha Hb))|].
  apply Forall_cons; [exact ((ubig_div_vr_yields _ _ Ha Hb))|].
  apply Forall_cons; [exact ((ubig_div_rv_yields _ _ Ha Hb))|].
  apply Forall_cons; [exact ((ubig_div_rr_yields _ _ Ha Hb))|].
  apply Forall_cons; [exact ((ubig_div_vv_yields _ _ Ha Hb))|].
  apply Forall_cons; [exact ((ubig_div_vr_yields _ _ Ha Hb))|].
  apply Forall_cons; [exact ((ubig_div_vv_yields _ _ Ha Hb))|].
  apply Forall_cons; [exact ((ubig_div_vr_yields _ _ Ha Hb))|].
  apply Forall_cons; [exact ((ubig_div_rv_yields _ _ Ha Hb))|].
  apply Forall_cons; [exact ((ubig_div_rr_yields _ _ Ha Hb))|].
  apply Forall_nil.
Qed.
Print Assumptions C06_ubig_div_exact.

Theorem C06_ubig_rem_exact (A : Arch) (AOK : ArchOk A) (a b : ubig) :
  ubig_ok a -> ubig_ok b ->
  Forall (fun f => div_yields (uval b) (f a b) (uval a mod uval b))
    [ubig_rem_vv; ubig_rem_vr; ubig_rem_rv; ubig_rem_rr; ubig_rem_assign_v; ubig_rem_assign_r; ubig_rem_euclid_vv; ubig_rem_euclid_vr; ubig_rem_euclid_rv; ubig_rem_euclid_rr].
Proof.
  intros Ha Hb.
  apply Forall_cons; [exact ((ubig_rem_vv_yields _ _ Ha Hb))|].
  apply Forall_cons; [exact ((ubig_rem_vr_yields _ _ Ha Hb))|].
  apply Forall_cons; [exact ((ubig_rem_rv_yields _ _ Ha Hb))|].
  apply Forall_cons; [exact ((ubig_rem_rr_yields _ _ Ha Hb))|].
  apply Forall_cons; [exact ((ubig_rem_vv_yields _ _ Ha Hb))|].
  apply Forall_cons; [exact ((ubig_rem_vr_yields _ _ Ha Hb))|].
  apply Forall_cons; [exact ((ubig_rem_vv_yields _ _ Ha Hb))|].
  apply Forall_cons; [exact ((ubig_rem_vr_yields _ _ Ha Hb))|].
  apply Forall_cons; [exact ((ubig_rem_rv_yields _ _ Ha Hb))|].
  apply Forall_cons; [exact ((ubig_rem_rr_yields _ _ Ha Hb))|].
  apply Forall_nil.
Qed.
Print Assumptions C06_ubig_rem_exact.

Theorem C06_ubig_div_rem_exact (A : Arch) (AOK : ArchOk A) (a b : ubig) :
  ubig_ok a -> ubig_ok b ->
  Forall (fun f => div_rem_yields (uval b) (f a b) (uval a / uval b) (uval a mod uval b))
    [ubig_div_rem_vv; ubig_div_rem_vr; ubig_div_rem_rv; ubig_div_rem_rr; ubig_div_rem_euclid_vv; ubig_div_rem_euclid_vr; ubig_div_rem_euclid_rv; ubig_div_rem_euclid_rr].
Proof.
  intros Ha Hb.
  apply Forall_cons; [exact ((ubig_div_rem_vv_yields _ _ Ha Hb))|].
  apply Forall_cons; [exact ((ubig_div_rem_vr_yields _ _ Ha Hb))|].
  apply Forall_cons; [exact ((ubig_div_rem_rv_yields _ _ Ha Hb))|].
  apply Forall_cons; [exact ((ubig_div_rem_rr_yields _ _ Ha Hb))|].
  apply Forall_cons; [exact ((ubig_div_rem_vv_yields _ _ Ha Hb))|].
  apply Forall_cons; [exact ((ubig_div_rem_vr_yields _ _ Ha Hb))|].
  apply Forall_cons; [exact ((ubig_div_rem_rv_yields _ _ Ha Hb))|].
  apply Forall_cons; [exact ((ubig_div_rem_rr_yields _ _ Ha Hb))|].
  apply Forall_nil.
Qed.
Print Assumptions C06_ubig_div_rem_exact.

(** The quotient and remainder of the statements above are the only ones possible. *)
Theorem C06_div_rem_unique (a b q r : Z) :
  0 <= r < b -> a = q * b + r -> q = a / b /\ r = a mod b.
Proof. exact (div_rem_unique a b q r). Qed.
Print Assumptions C06_div_rem_unique.

(** A divisor of more than 32 words is handled by divide and conquer. *)
Example C06_large : let A := arch16 in
  let a := lg (repeat (2 ^ 16 - 1) 36) in let b := lg (7 :: repeat (2 ^ 16 - 1) 32) in
  ubig_ok a /\ ubig_ok b /\ uval b <> 0 /\
  uresult2 (ubig_div_rem_vv a b) = Ok (uval a / uval b, uval a mod uval b) /\
  ubig_div_rr a (Small 0) = Panic DivideByZero.
Proof. cbv zeta. sample. Qed.

