(** C03: IBig addition and subtraction are exact. *)
From Verif Require Import Model.Base Model.Words Model.Memory Model.FastDivide Model.Mul Model.Div Model.Buffer Model.UBig Model.IBig Model.Convert Model.AddOps Model.MulOps Model.ShiftOps Model.Bits Model.DivOps Model.PrimOps
  Spec.Val Spec.Num Spec.Prim Spec.Digits
  Proofs.AddOpsProofs Proofs.Bounds Proofs.ApiProofs Proofs.Samples.

Theorem C03_ibig_add_exact (A : Arch) (AOK : ArchOk A) (x y : ibig) :
  ibig_ok x -> ibig_ok y ->
  Forall (fun f => iyields (f x y) (ival x + ival y))
    [ibig_add_vv; ibig_add_vr; ibig_add_rv; ibig_add_rr; ibig_add_assign_v; ibig_add_assign_r].
Proof.
  intros Hx Hy.
  apply Forall_cons; [exact ((ibig_add_vv_yields _ _ Hx Hy))|].
  apply Forall_cons; [exact ((ibig_add_vr_yields _ _ Hx Hy))|].
  apply Forall_cons; [exact ((ibig_add_rv_yields _ _ Hx Hy))|].
  apply Forall_cons; [exact ((ibig_add_rr_yields _ _ Hx Hy))|].
  apply Forall_cons; [exact ((ibig_add_vv_yields _ _ Hx Hy))|].
  apply Forall_cons; [exact ((ibig_add_vr_yields _ _ Hx Hy))|].
  apply Forall_nil.
Qed.
Print Assumptions C03_ibig_add_exact.

Theorem C03_ibig_sub_exact (A : Arch) (AOK : ArchOk A) (x y : ibig) :
  ibig_ok x -> ibig_ok y ->
  Forall (fun f => iyields (f x y) (ival x - ival y))
    [ibig_sub_vv; ibig_sub_vr; ibig_sub_rv; ibig_sub_rr; ibig_sub_assign_v; ibig_sub_assign_r].
Proof.
  intros Hx Hy.
  apply Forall_cons; [exact ((ibig_sub_vv_yields _ _ Hx Hy))|].
  apply Forall_cons; [exact ((ibig_sub_vr_yields _ _ Hx Hy))|].
  apply Forall_cons; [exact ((ibig_sub_rv_yields _ _ Hx Hy))|].
  apply Forall_cons; [exact ((ibig_sub_rr_yields _ _ Hx Hy))|].
  apply Forall_cons; [exact ((ibig_sub_vv_yields _ _ Hx Hy))|].
  apply Forall_cons; [exact ((ibig_sub_vr_yields _ _ Hx Hy))|].
  apply Forall_nil.
Qed.
Print Assumptions C03_ibig_sub_exact.

(** Cancellation gives the positive zero. *)
Example C03_mixed_signs : let A := arch64 in
  let x := neg (lg [0; 1]) in let y := pos (lg [1; 1]) in
  ibig_ok x /\ ibig_ok y /\ ibig_add_vv x y = Ok (pos (Small 1)) /\ ibig_add_rr x (ibig_neg x) = Ok (pos (Small 0)) /\
  iresult (ibig_sub_vr x y) = Ok (- (2 ^ 65 + 1)).
Proof. cbv zeta. sample. Qed.

