(** C14: right shift is floor division by a power of two. *)
From Verif Require Import Model.Base Model.Words Model.Memory Model.FastDivide Model.Mul Model.Div Model.Buffer Model.UBig Model.IBig Model.Convert Model.AddOps Model.MulOps Model.ShiftOps Model.Bits Model.DivOps Model.PrimOps
  Spec.Val Spec.Num Spec.Prim Spec.Digits
  Proofs.ShiftOpsProofs Proofs.Bounds Proofs.Bounds Proofs.ApiProofs Proofs.Samples.

Theorem C14_ubig_shr_exact (A : Arch) (AOK : ArchOk A) (u : ubig) (n : Z) :
  ubig_ok u -> 0 <= n ->
  Forall (fun f => returns (f u n) (uval u / 2 ^ n))
    [ubig_shr_v; ubig_shr_r; ubig_shr_assign].
Proof.
  intros Hu Hn.
  apply Forall_cons; [exact (shr_returns _ _ _ Hu Hn (ubig_shr_v_yields _ _ Hu Hn))|].
  apply Forall_cons; [exact (shr_returns _ _ _ Hu Hn (ubig_shr_r_yields _ _ Hu Hn))|].
  apply Forall_cons; [exact (shr_returns _ _ _ Hu Hn (ubig_shr_v_yields _ _ Hu Hn))|].
  apply Forall_nil.
Qed.
Print Assumptions C14_ubig_shr_exact.

(** Z division rounds toward negative infinity. *)
Theorem C14_ibig_shr_exact (A : Arch) (AOK : ArchOk A) (x : ibig) (n : Z) :
  ibig_ok x -> 0 <= n ->
  Forall (fun f => ireturns (f x n) (ival x / 2 ^ n))
    [ibig_shr_v; ibig_shr_r; ibig_shr_assign].
Proof.
  intros Hx Hn.
  apply Forall_cons; [exact (ishr_returns _ _ _ Hx Hn (ibig_shr_v_yields _ _ Hx Hn))|].
  apply Forall_cons; [exact (ishr_returns _ _ _ Hx Hn (ibig_shr_r_yields _ _ Hx Hn))|].
  apply Forall_cons; [exact (ishr_returns _ _ _ Hx Hn (ibig_shr_v_yields _ _ Hx Hn))|].
  apply Forall_nil.
Qed.
Print Assumptions C14_ibig_shr_exact.

Example C14_values : let A := arch64 in
  let a := lg [1; 5; 1] in
  ubig_ok a /\ uresult (ubig_shr_v a 65) = Ok (2 ^ 63 + 2) /\ iresult (ibig_shr_r (neg a) 128) = Ok (-2) /\
  iresult (ibig_shr_v (neg a) (2 ^ 64 - 1)) = Ok (-1).
Proof. cbv zeta. sample. Qed.

