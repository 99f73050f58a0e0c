(** C05: multiplication scratch memory is always sufficient. *)
From Verif Require Import Model.Base Model.Words Model.Memory Model.FastDivide Model.Mul Model.Div Model.Buffer Model.UBig Model.IBig Model.Convert Model.AddOps Model.MulOps Model.ShiftOps Model.Bits Model.DivOps Model.PrimOps
  Spec.Val Spec.Num Spec.Prim Spec.Digits
  Proofs.MulOpsProofs Proofs.MulWordProofs Proofs.MulFull Proofs.Bounds Proofs.Bounds Proofs.ApiProofs Proofs.Limits Proofs.Samples.

(** The word-slice multiplication, given at least the scratch memory announced
    for the shorter operand, adds the exact signed product and returns the carry. *)
Theorem C05_mul_memory_sufficient (A : Arch) (AOK : ArchOk A) (c a b : list Z) (s : sign) (mem : Z) :
  wf c -> wf a -> wf b -> length c = (length a + length b)%nat ->
  mul_memory (Nat.min (length a) (length b)) <= mem ->
  exists c' k, add_signed_mul c s a b mem = Ok (c', k) /\ wf c' /\ length c' = length c /\
    val c + sign_val s * (val a * val b) = val c' + B ^ Z.of_nat (length c) * k.
Proof. exact (mul_memory_sufficient c a b s mem). Qed.
Print Assumptions C05_mul_memory_sufficient.

Theorem C05_ubig_mul_no_internal_panic (A : Arch) (AOK : ArchOk A) (a b : ubig) :
  ubig_ok a -> ubig_ok b ->
  Forall (fun f => f a b <> Panic Internal)
    [ubig_mul_vv; ubig_mul_vr; ubig_mul_rv; ubig_mul_rr; ubig_mul_assign_v; ubig_mul_assign_r].
Proof.
  intros Ha Hb.
  apply Forall_cons; [exact (yields_not_internal _ _ (ubig_mul_vv_yields _ _ Ha Hb))|].
  apply Forall_cons; [exact (yields_not_internal _ _ (ubig_mul_vr_yields _ _ Ha Hb))|].
  apply Forall_cons; [exact (yields_not_internal _ _ (ubig_mul_rv_yields _ _ Ha Hb))|].
  apply Forall_cons; [exact (yields_not_internal _ _ (ubig_mul_rr_yields _ _ Ha Hb))|].
  apply Forall_cons; [exact (yields_not_internal _ _ (ubig_mul_vv_yields _ _ Ha Hb))|].
  apply Forall_cons; [exact (yields_not_internal _ _ (ubig_mul_vr_yields _ _ Ha Hb))|].
  apply Forall_nil.
Qed.
Print Assumptions C05_ubig_mul_no_internal_panic.

Theorem C05_ibig_mul_no_internal_panic (A : Arch) (AOK : ArchOk A) (x y : ibig) :
  ibig_ok x -> ibig_ok y ->
  Forall (fun f => f x y <> Panic Internal)
    [ibig_mul_vv; ibig_mul_vr; ibig_mul_rv; ibig_mul_rr; ibig_mul_assign_v; ibig_mul_assign_r].
Proof.
  intros Hx Hy.
  apply Forall_cons; [exact (iyields_not_internal _ _ (ibig_mul_vv_yields _ _ Hx Hy))|].
  apply Forall_cons; [exact (iyields_not_internal _ _ (ibig_mul_vr_yields _ _ Hx Hy))|].
  apply Forall_cons; [exact (iyields_not_internal _ _ (ibig_mul_rv_yields _ _ Hx Hy))|].
  apply Forall_cons; [exact (iyields_not_internal _ _ (ibig_mul_rr_yields _ _ Hx Hy))|].
  apply Forall_cons; [exact (iyields_not_internal _ _ (ibig_mul_vv_yields _ _ Hx Hy))|].
  apply Forall_cons; [exact (iyields_not_internal _ _ (ibig_mul_vr_yields _ _ Hx Hy))|].
  apply Forall_nil.
Qed.
Print Assumptions C05_ibig_mul_no_internal_panic.

(** Too little scratch memory is a panic in the model. *)
Example C05_needed : let A := arch16 in
  let a := repeat (2 ^ 16 - 1) 25 in let c := repeat 0 50 in
  wf a /\ wf c /\ length c = (length a + length a)%nat /\
  (match add_signed_mul c Positive a a (mul_memory 25) with Ok (c', k) => val c' = val a * val a /\ k = 0 | _ => False end) /\
  add_signed_mul c Positive a a 20 = Panic Internal.
Proof. cbv zeta. sample. Qed.

