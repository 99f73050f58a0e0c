(** C02: UBig subtraction is exact or panics. *)
From Verif Require Import Model.Base Model.Words Model.Memory Model.FastDivide Model.Mul Model.Div Model.Buffer Model.UBig Model.IBig Model.Convert Model.AddOps Model.MulOps Model.ShiftOps Model.Bits Model.DivOps Model.PrimOps
  Spec.Val Spec.Num Spec.Prim Spec.Digits
  Proofs.AddOpsProofs Proofs.Bounds Proofs.Bounds Proofs.ApiProofs Proofs.Samples.

(** The exact difference when it is not negative, the documented panic when it is. *)
Theorem C02_ubig_sub_exact (A : Arch) (AOK : ArchOk A) (a b : ubig) :
  ubig_ok a -> ubig_ok b ->
  Forall (fun f => yields_nat (f a b) (uval a - uval b))
    [ubig_sub_vv; ubig_sub_vr; ubig_sub_rv; ubig_sub_rr; ubig_sub_assign_v; ubig_sub_assign_r].
Proof.
  intros Ha Hb.
  apply Forall_cons; [exact ((ubig_sub_vv_yields _ _ Ha Hb))|].
  apply Forall_cons; [exact ((ubig_sub_vr_yields _ _ Ha Hb))|].
  apply Forall_cons; [exact ((ubig_sub_rv_yields _ _ Ha Hb))|].
  apply Forall_cons; [exact ((ubig_sub_rr_yields _ _ Ha Hb))|].
  apply Forall_cons; [exact ((ubig_sub_vv_yields _ _ Ha Hb))|].
  apply Forall_cons; [exact ((ubig_sub_vr_yields _ _ Ha Hb))|].
  apply Forall_nil.
Qed.
Print Assumptions C02_ubig_sub_exact.

(** A difference of two numbers always fits: no other panic is possible. *)
Theorem C02_ubig_sub_total (A : Arch) (AOK : ArchOk A) (a b : ubig) :
  ubig_ok a -> ubig_ok b -> uval b <= uval a ->
  Forall (fun f => returns (f a b) (uval a - uval b))
    [ubig_sub_vv; ubig_sub_vr; ubig_sub_rv; ubig_sub_rr; ubig_sub_assign_v; ubig_sub_assign_r].
Proof.
  intros Ha Hb L. eapply Forall_impl; [|exact (C02_ubig_sub_exact A AOK a b Ha Hb)].
  intros f Y. exact (yields_nat_returns _ _ _ _ Ha Hb L eq_refl Y).
Qed.
Print Assumptions C02_ubig_sub_total.

(** A borrow through every word; the reverse difference panics. *)
Example C02_borrow : let A := arch64 in
  let a := lg [0; 0; 1] in let b := Small 1 in
  ubig_ok a /\ ubig_ok b /\ uval b <= uval a /\ uresult (ubig_sub_rr a b) = Ok (2 ^ 128 - 1) /\
  ubig_sub_rr b a = Panic NegativeUBig.
Proof. cbv zeta. sample. Qed.

