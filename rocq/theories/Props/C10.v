(** C10: IBig Euclidean division. *)
From Verif Require Import Model.Base Model.Words Model.Memory Model.FastDivide Model.Mul Model.Div Model.Buffer Model.UBig Model.IBig Model.Convert Model.AddOps Model.MulOps Model.ShiftOps Model.Bits Model.DivOps Model.PrimOps
  Spec.Val Spec.Num Spec.Prim Spec.Digits
  Proofs.DivOpsProofs Proofs.Bounds Proofs.ApiProofs Proofs.Samples.

Theorem C10_ibig_div_euclid_exact (A : Arch) (AOK : ArchOk A) (x y : ibig) :
  ibig_ok x -> ibig_ok y ->
  Forall (fun f => idiv_yields (ival y) (f x y) (ediv (ival x) (ival y)))
    [ibig_div_euclid_vv; ibig_div_euclid_vr; ibig_div_euclid_rv; ibig_div_euclid_rr].
Proof.
  intros Hx Hy.
  apply Forall_cons; [exact ((ibig_div_euclid_vv_yields _ _ Hx Hy))|].
  apply Forall_cons; [exact ((ibig_div_euclid_vr_yields _ _ Hx Hy))|].
  apply Forall_cons; [exact ((ibig_div_euclid_rv_yields _ _ Hx Hy))|].
  apply Forall_cons; [exact ((ibig_div_euclid_rr_yields _ _ Hx Hy))|].
  apply Forall_nil.
Qed.
Print Assumptions C10_ibig_div_euclid_exact.

Theorem C10_ibig_rem_euclid_exact (A : Arch) (AOK : ArchOk A) (x y : ibig) :
  ibig_ok x -> ibig_ok y ->
  Forall (fun f => idiv_yields (ival y) (f x y) (emod (ival x) (ival y)))
    [ibig_rem_euclid_vv; ibig_rem_euclid_vr; ibig_rem_euclid_rv; ibig_rem_euclid_rr].
Proof.
  intros Hx Hy.
  apply Forall_cons; [exact ((ibig_rem_euclid_vv_yields _ _ Hx Hy))|].
  apply Forall_cons; [exact ((ibig_rem_euclid_vr_yields _ _ Hx Hy))|].
  apply Forall_cons; [exact ((ibig_rem_euclid_rv_yields _ _ Hx Hy))|].
  apply Forall_cons; [exact ((ibig_rem_euclid_rr_yields _ _ Hx Hy))|].
  apply Forall_nil.
Qed.
Print Assumptions C10_ibig_rem_euclid_exact.

Theorem C10_ibig_div_rem_euclid_exact (A : Arch) (AOK : ArchOk A) (x y : ibig) :
  ibig_ok x -> ibig_ok y ->
  Forall (fun f => idiv_rem_yields (ival y) (f x y) (ediv (ival x) (ival y)) (emod (ival x) (ival y)))
    [ibig_div_rem_euclid_vv; ibig_div_rem_euclid_vr; ibig_div_rem_euclid_rv; ibig_div_rem_euclid_rr].
Proof.
  intros Hx Hy.
  apply Forall_cons; [exact ((ibig_div_rem_euclid_vv_yields _ _ Hx Hy))|].
  apply Forall_cons; [exact ((ibig_div_rem_euclid_vr_yields _ _ Hx Hy))|].
  apply Forall_cons; [exact ((ibig_div_rem_euclid_rv_yields _ _ Hx Hy))|].
  apply Forall_cons; [exact ((ibig_div_rem_euclid_rr_yields _ _ Hx Hy))|].
  apply Forall_nil.
Qed.
Print Assumptions C10_ibig_div_rem_euclid_exact.

(** [ediv] and [emod] are the quotient and remainder of Euclidean division, and
    the only ones. *)
Theorem C10_euclid (a b q r : Z) : b <> 0 ->
  (a = b * q + r /\ 0 <= r < Z.abs b) <-> (q = ediv a b /\ r = emod a b).
Proof. exact (euclid_iff a b q r). Qed.
Print Assumptions C10_euclid.

Example C10_signs : let A := arch64 in
  let x := neg (lg [7; 1]) in let y := neg (Small 10) in
  ibig_ok x /\ ibig_ok y /\ iresult2 (ibig_div_rem_euclid_rv x y) = Ok (1844674407370955163, 7) /\
  ibig_rem_euclid_rr x (pos (Small 0)) = Panic DivideByZero.
Proof. cbv zeta. sample. Qed.

