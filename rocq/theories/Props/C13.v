(** C13: left shift multiplies by a power of two. *)
From Verif Require Import Model.Base Model.Words Model.Memory Model.FastDivide Model.Mul Model.Div Model.Buffer Model.UBig Model.IBig Model.Convert Model.AddOps Model.MulOps Model.ShiftOps Model.Bits Model.DivOps Model.PrimOps
  Spec.Val Spec.Num Spec.Prim Spec.Digits
  Proofs.ShiftOpsProofs Proofs.Bounds Proofs.Bounds Proofs.ApiProofs Proofs.Limits Proofs.Samples.

Theorem C13_ubig_shl_exact (A : Arch) (AOK : ArchOk A) (u : ubig) (n : Z) :
  ubig_ok u -> 0 <= n < 2 ^ ubits ->
  Forall (fun f => yields (f u n) (uval u * 2 ^ n))
    [ubig_shl_v; ubig_shl_r; ubig_shl_assign].
Proof.
  intros Hu Hn.
  apply Forall_cons; [exact (ubig_shl_v_yields _ _ Hu Hn)|].
  apply Forall_cons; [exact (ubig_shl_r_yields _ _ Hu Hn)|].
  apply Forall_cons; [exact (ubig_shl_v_yields _ _ Hu Hn)|].
  apply Forall_nil.
Qed.
Print Assumptions C13_ubig_shl_exact.

Theorem C13_ibig_shl_exact (A : Arch) (AOK : ArchOk A) (x : ibig) (n : Z) :
  ibig_ok x -> 0 <= n < 2 ^ ubits ->
  Forall (fun f => iyields (f x n) (ival x * 2 ^ n))
    [ibig_shl_v; ibig_shl_r; ibig_shl_assign].
Proof.
  intros Hx Hn.
  apply Forall_cons; [exact (ibig_shl_v_yields _ _ Hx Hn)|].
  apply Forall_cons; [exact (ibig_shl_r_yields _ _ Hx Hn)|].
  apply Forall_cons; [exact (ibig_shl_v_yields _ _ Hx Hn)|].
  apply Forall_nil.
Qed.
Print Assumptions C13_ibig_shl_exact.

(** Shifting zero never panics: the result above is zero, which always fits. *)
Theorem C13_zero (A : Arch) (AOK : ArchOk A) (u : ubig) (n : Z) :
  ubig_ok u -> uval u = 0 -> 0 <= n < 2 ^ ubits -> returns (ubig_shl_v u n) 0 /\ returns (ubig_shl_r u n) 0.
Proof. exact (shl_zero u n). Qed.
Print Assumptions C13_zero.

Example C13_values : let A := arch64 in
  let a := Large (mkBuffer [(2 ^ 64 - 1); (2 ^ 64 - 1)] 6) in
  ubig_ok a /\ uresult (ubig_shl_v a 67) = Ok ((2 ^ 128 - 1) * 2 ^ 67) /\
  iresult (ibig_shl_r (neg a) 1) = Ok (- (2 ^ 129 - 2)) /\ ubig_shl_v (Small 0) (2 ^ 64 - 1) = Ok (Small 0).
Proof. cbv zeta. sample. Qed.

Example C13_too_large (A : Arch) (AOK : ArchOk A) :
  exists n, 0 <= n < 2 ^ ubits /\ ubig_shl_v (Small 1) n = Panic NumberTooLarge.
Proof. exact shl_too_large. Qed.

(** The largest power of two is still representable. *)
Example C13_limit (A : Arch) (AOK : ArchOk A) : exists n, 0 <= n < 2 ^ ubits /\ returns (ubig_shl_v (Small 1) n) (MAXV / 2).
Proof. exact shl_limit. Qed.

