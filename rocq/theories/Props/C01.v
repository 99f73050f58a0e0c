(** C01: UBig addition is exact. *)
From Verif Require Import Model.Base Model.Words Model.Memory Model.FastDivide Model.Mul Model.Div Model.Buffer Model.UBig Model.IBig Model.Convert Model.AddOps Model.MulOps Model.ShiftOps Model.Bits Model.DivOps Model.PrimOps
  Spec.Val Spec.Num Spec.Prim Spec.Digits
  Proofs.AddOpsProofs Proofs.Bounds Proofs.ApiProofs Proofs.Limits Proofs.Samples.

Theorem C01_ubig_add_exact (A : Arch) (AOK : ArchOk A) (a b : ubig) :
  ubig_ok a -> ubig_ok b ->
  Forall (fun f => yields (f a b) (uval a + uval b))
    [ubig_add_vv; ubig_add_vr; ubig_add_rv; ubig_add_rr; ubig_add_assign_v; ubig_add_assign_r].
Proof.
  intros Ha Hb.
  apply Forall_cons; [exact ((ubig_add_vv_yields _ _ Ha Hb))|].
  apply Forall_cons; [exact ((ubig_add_vr_yields _ _ Ha Hb))|].
  apply Forall_cons; [exact ((ubig_add_rv_yields _ _ Ha Hb))|].
  apply Forall_cons; [exact ((ubig_add_rr_yields _ _ Ha Hb))|].
  apply Forall_cons; [exact ((ubig_add_vv_yields _ _ Ha Hb))|].
  apply Forall_cons; [exact ((ubig_add_vr_yields _ _ Ha Hb))|].
  apply Forall_nil.
Qed.
Print Assumptions C01_ubig_add_exact.

(** A carry through every word makes the number longer. *)
Example C01_carry : let A := arch64 in
  let a := lg [(2 ^ 64 - 1); (2 ^ 64 - 1)] in let b := Small 1 in
  ubig_ok a /\ ubig_ok b /\ uresult (ubig_add_vv a b) = Ok (2 ^ 128).
Proof. cbv zeta. sample. Qed.

(** The largest number is one step from the panic. *)
Example C01_too_large (A : Arch) (AOK : ArchOk A) :
  exists a, ubig_ok a /\ ubig_add_rr a (Small 1) = Panic NumberTooLarge.
Proof. exact add_too_large. Qed.

