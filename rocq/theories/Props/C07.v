(** C07: division scratch memory is always sufficient. *)
From Verif Require Import Model.Base Model.Words Model.Memory Model.FastDivide Model.Mul Model.Div Model.Buffer Model.UBig Model.IBig Model.Convert Model.AddOps Model.MulOps Model.ShiftOps Model.Bits Model.DivOps Model.PrimOps
  Spec.Val Spec.Num Spec.Prim Spec.Digits
  Proofs.DivProofs Proofs.DivOpsProofs Proofs.FastDivideProofs Proofs.Bounds Proofs.Bounds Proofs.ApiProofs Proofs.Limits Proofs.Samples.

(** In-place long division by a normalized divisor, given at least the scratch
    memory announced for the two lengths. *)
Theorem C07_div_memory_sufficient (A : Arch) (AOK : ArchOk A) (lhs rhs : list Z) :
  wf lhs -> wf rhs -> (2 <= length rhs <= length lhs)%nat -> B <= 2 * last rhs 0 ->
  exists f need, fdn_new (last rhs 0) = Ok f /\ div_memory (length lhs) (length rhs) = Ok need /\
  forall mem, need <= mem ->
  exists rem q o, div_rem_in_place lhs rhs f mem = Ok (rem ++ q, o) /\
    wf rem /\ wf q /\ length rem = length rhs /\ length q = (length lhs - length rhs)%nat /\
    val lhs = val rem + val rhs * (val q + B ^ Z.of_nat (length q) * Z.b2z o) /\ val rem < val rhs.
Proof. exact (div_memory_sufficient lhs rhs). Qed.
Print Assumptions C07_div_memory_sufficient.

Theorem C07_ubig_div_no_internal_panic (A : Arch) (AOK : ArchOk A) (a b : ubig) :
  ubig_ok a -> ubig_ok b ->
  Forall (fun f => f a b <> Panic Internal)
    [ubig_div_vv; ubig_div_vr; ubig_div_rv; ubig_div_rr; ubig_div_assign_v; ubig_div_assign_r;
     ubig_div_euclid_vv; ubig_div_euclid_vr; ubig_div_euclid_rv; ubig_div_euclid_rr].
Proof.
  intros Ha Hb.
  apply Forall_cons; [exact (div_yields_not_internal _ _ _ (ubig_div_vv_yields _ _ Ha Hb))|].
  apply Forall_cons; [exact (div_yields_not_internal _ _ _ (ubig_div_vr_yields _ _ Ha Hb))|].
  apply Forall_cons; [exact (div_yields_not_internal _ _ _ (ubig_div_rv_yields _ _ Ha Hb))|].
  apply Forall_cons; [exact (div_yields_not_internal _ _ _ (ubig_div_rr_yields _ _ Ha Hb))|].
  apply Forall_cons; [exact (div_yields_not_internal _ _ _ (ubig_div_vv_yields _ _ Ha Hb))|].
  apply Forall_cons; [exact (div_yields_not_internal _ _ _ (ubig_div_vr_yields _ _ Ha Hb))|].
  apply Forall_cons; [exact (div_yields_not_internal _ _ _ (ubig_div_vv_yields _ _ Ha Hb))|].
  apply Forall_cons; [exact (div_yields_not_internal _ _ _ (ubig_div_vr_yields _ _ Ha Hb))|].
  apply Forall_cons; [exact (div_yields_not_internal _ _ _ (ubig_div_rv_yields _ _ Ha Hb))|].
  apply Forall_cons; [exact (div_yields_not_internal _ _ _ (ubig_div_rr_yields _ _ Ha Hb))|].
  apply Forall_nil.
Qed.
Print Assumptions C07_ubig_div_no_internal_panic.

Theorem C07_ubig_rem_no_internal_panic (A : Arch) (AOK : ArchOk A) (a b : ubig) :
  ubig_ok a -> ubig_ok b ->
  Forall (fun f => f a b <> Panic Internal)
    [ubig_rem_vv; ubig_rem_vr; ubig_rem_rv; ubig_rem_rr; ubig_rem_assign_v; ubig_rem_assign_r;
     ubig_rem_euclid_vv; ubig_rem_euclid_vr; ubig_rem_euclid_rv; ubig_rem_euclid_rr].
Proof.
  intros Ha Hb.
  apply Forall_cons; [exact (div_yields_not_internal _ _ _ (ubig_rem_vv_yields _ _ Ha Hb))|].
  apply Forall_cons; [exact (div_yields_not_internal _ _ _ (ubig_rem_vr_yields _ _ Ha Hb))|].
  apply Forall_cons; [exact (div_yields_not_internal _ _ _ (ubig_rem_rv_yields _ _ Ha Hb))|].
  apply Forall_cons; [exact (div_yields_not_internal _ _ _ (ubig_rem_rr_yields _ _ Ha Hb))|].
  apply Forall_cons; [exact (div_yields_not_internal _ _ _ (ubig_rem_vv_yields _ _ Ha Hb))|].
  apply Forall_cons; [exact (div_yields_not_internal _ _ _ (ubig_rem_vr_yields _ _ Ha Hb))|].
  apply Forall_cons; [exact (div_yields_not_internal _ _ _ (ubig_rem_vv_yields _ _ Ha Hb))|].
  apply Forall_cons; [exact (div_yields_not_internal _ _ _ (ubig_rem_vr_yields _ _ Ha Hb))|].
  apply Forall_cons; [exact (div_yields_not_internal _ _ _ (ubig_rem_rv_yields _ _ Ha Hb))|].
  apply Forall_cons; [exact (div_yields_not_internal _ _ _ (ubig_rem_rr_yields _ _ Ha Hb))|].
  apply Forall_nil.
Qed.
Print Assumptions C07_ubig_rem_no_internal_panic.

Theorem C07_ubig_div_rem_no_internal_panic (A : Arch) (AOK : ArchOk A) (a b : ubig) :
  ubig_ok a -> ubig_ok b ->
  Forall (fun f => f a b <> Panic Internal)
    [ubig_div_rem_vv; ubig_div_rem_vr; ubig_div_rem_rv; ubig_div_rem_rr;
     ubig_div_rem_euclid_vv; ubig_div_rem_euclid_vr; ubig_div_rem_euclid_rv; ubig_div_rem_euclid_rr].
Proof.
  intros Ha Hb.
  apply Forall_cons; [exact (div_rem_yields_not_internal _ _ _ _ (ubig_div_rem_vv_yields _ _ Ha Hb))|].
  apply Forall_cons; [exact (div_rem_yields_not_internal _ _ _ _ (ubig_div_rem_vr_yields _ _ Ha Hb))|].
  apply Forall_cons; [exact (div_rem_yields_not_internal _ _ _ _ (ubig_div_rem_rv_yields _ _ Ha Hb))|].
  apply Forall_cons; [exact (div_rem_yields_not_internal _ _ _ _ (ubig_div_rem_rr_yields _ _ Ha Hb))|].
  apply Forall_cons; [exact (div_rem_yields_not_internal _ _ _ _ (ubig_div_rem_vv_yields _ _ Ha Hb))|].
  apply Forall_cons; [exact (div_rem_yields_not_internal _ _ _ _ (ubig_div_rem_vr_yields _ _ Ha Hb))|].
  apply Forall_cons; [exact (div_rem_yields_not_internal _ _ _ _ (ubig_div_rem_rv_yields _ _ Ha Hb))|].
  apply Forall_cons; [exact (div_rem_yields_not_internal _ _ _ _ (ubig_div_rem_rr_yields _ _ Ha Hb))|].
  apply Forall_nil.
Qed.
Print Assumptions C07_ubig_div_rem_no_internal_panic.

Example C07_needed : let A := arch16 in
  let lhs := repeat (2 ^ 16 - 1) 132 in let rhs := 7 :: repeat (2 ^ 16 - 1) 65 in
  wf lhs /\ wf rhs /\ B <= 2 * last rhs 0 /\
  (match fdn_new (last rhs 0), div_memory 132 66 with
   | Ok f, Ok need =>
     (match div_rem_in_place lhs rhs f need with
      | Ok (r, o) => val (firstn 66 r) = val lhs mod val rhs /\ o = true | Panic _ => False end)
     /\ div_rem_in_place lhs rhs f 0 = Panic Internal
   | _, _ => False end).
Proof. cbv zeta. sample. Qed.

