(** C45: operand forms are interchangeable. *)
From Verif Require Import Model.Base Model.Words Model.Memory Model.FastDivide Model.Mul Model.Div Model.Buffer Model.UBig Model.IBig Model.Convert Model.AddOps Model.MulOps Model.ShiftOps Model.Bits Model.DivOps Model.PrimOps
  Spec.Val Spec.Num Spec.Prim Spec.Digits
  Proofs.AddOpsProofs Proofs.MulOpsProofs Proofs.DivOpsProofs Proofs.BitsProofs Proofs.ShiftOpsProofs Proofs.ApiProofs Proofs.Bounds Proofs.ApiProofs Proofs.Samples.

Theorem C45_ubig_add (A : Arch) (AOK : ArchOk A) (a b : ubig) :
  ubig_ok a -> ubig_ok b ->
  ForallOrdPairs (fun f g => agree (f a b) (g a b))
    [ubig_add_vv; ubig_add_vr; ubig_add_rv; ubig_add_rr; ubig_add_assign_v; ubig_add_assign_r].
Proof.
  intros Ha Hb.
  apply (Forall_pairs (fun f => yields (f a b) (uval a + uval b))).
  - apply Forall_cons; [exact (ubig_add_vv_yields _ _ Ha Hb)|].
    apply Forall_cons; [exact (ubig_add_vr_yields _ _ Ha Hb)|].
    apply Forall_cons; [exact (ubig_add_rv_yields _ _ Ha Hb)|].
    apply Forall_cons; [exact (ubig_add_rr_yields _ _ Ha Hb)|].
    apply Forall_cons; [exact (ubig_add_vv_yields _ _ Ha Hb)|].
    apply Forall_cons; [exact (ubig_add_vr_yields _ _ Ha Hb)|]. apply Forall_nil.
  - intros f g. exact (yields_agree _ _ _).
Qed.
Print Assumptions C45_ubig_add.

Theorem C45_ibig_add (A : Arch) (AOK : ArchOk A) (x y : ibig) :
  ibig_ok x -> ibig_ok y ->
  ForallOrdPairs (fun f g => iagree (f x y) (g x y))
    [ibig_add_vv; ibig_add_vr; ibig_add_rv; ibig_add_rr; ibig_add_assign_v; ibig_add_assign_r].
Proof.
  intros Hx Hy.
  apply (Forall_pairs (fun f => iyields (f x y) (ival x + ival y))).
  - apply Forall_cons; [exact (ibig_add_vv_yields _ _ Hx Hy)|].
    apply Forall_cons; [exact (ibig_add_vr_yields _ _ Hx Hy)|].
    apply Forall_cons; [exact (ibig_add_rv_yields _ _ Hx Hy)|].
    apply Forall_cons; [exact (ibig_add_rr_yields _ _ Hx Hy)|].
    apply Forall_cons; [exact (ibig_add_vv_yields _ _ Hx Hy)|].
    apply Forall_cons; [exact (ibig_add_vr_yields _ _ Hx Hy)|]. apply Forall_nil.
  - intros f g. exact (iyields_agree _ _ _).
Qed.
Print Assumptions C45_ibig_add.

Theorem C45_ubig_sub (A : Arch) (AOK : ArchOk A) (a b : ubig) :
  ubig_ok a -> ubig_ok b ->
  ForallOrdPairs (fun f g => agree (f a b) (g a b))
    [ubig_sub_vv; ubig_sub_vr; ubig_sub_rv; ubig_sub_rr; ubig_sub_assign_v; ubig_sub_assign_r].
Proof.
  intros Ha Hb.
  apply (Forall_pairs (fun f => yields_nat (f a b) (uval a - uval b))).
  - apply Forall_cons; [exact (ubig_sub_vv_yields _ _ Ha Hb)|].
    apply Forall_cons; [exact (ubig_sub_vr_yields _ _ Ha Hb)|].
    apply Forall_cons; [exact (ubig_sub_rv_yields _ _ Ha Hb)|].
    apply Forall_cons; [exact (ubig_sub_rr_yields _ _ Ha Hb)|].
    apply Forall_cons; [exact (ubig_sub_vv_yields _ _ Ha Hb)|].
    apply Forall_cons; [exact (ubig_sub_vr_yields _ _ Ha Hb)|]. apply Forall_nil.
  - intros f g. exact (yields_nat_agree _ _ _).
Qed.
Print Assumptions C45_ubig_sub.

Theorem C45_ibig_sub (A : Arch) (AOK : ArchOk A) (x y : ibig) :
  ibig_ok x -> ibig_ok y ->
  ForallOrdPairs (fun f g => iagree (f x y) (g x y))
    [ibig_sub_vv; ibig_sub_vr; ibig_sub_rv; ibig_sub_rr; ibig_sub_assign_v; ibig_sub_assign_r].
Proof.
  intros Hx Hy.
  apply (Forall_pairs (fun f => iyields (f x y) (ival x - ival y))).
  - apply Forall_cons; [exact (ibig_sub_vv_yields _ _ Hx Hy)|].
    apply Forall_cons; [exact (ibig_sub_vr_yields _ _ Hx Hy)|].
    apply Forall_cons; [exact (ibig_sub_rv_yields _ _ Hx Hy)|].
    apply Forall_cons; [exact (ibig_sub_rr_yields _ _ Hx Hy)|].
    apply Forall_cons; [exact (ibig_sub_vv_yields _ _ Hx Hy)|].
    apply Forall_cons; [exact (ibig_sub_vr_yields _ _ Hx Hy)|]. apply Forall_nil.
  - intros f g. exact (iyields_agree _ _ _).
Qed.
Print Assumptions C45_ibig_sub.

Theorem C45_ubig_mul (A : Arch) (AOK : ArchOk A) (a b : ubig) :
  ubig_ok a -> ubig_ok b ->
  ForallOrdPairs (fun f g => agree (f a b) (g a b))
    [ubig_mul_vv; ubig_mul_vr; ubig_mul_rv; ubig_mul_rr; ubig_mul_assign_v; ubig_mul_assign_r].
Proof.
  intros Ha Hb.
  apply (Forall_pairs (fun f => yields (f a b) (uval a * uval b))).
  - apply Forall_cons; [exact (ubig_mul_vv_yields _ _ Ha Hb)|].
    apply Forall_cons; [exact (ubig_mul_vr_yields _ _ Ha Hb)|].
    apply Forall_cons; [exact (ubig_mul_rv_yields _ _ Ha Hb)|].
    apply Forall_cons; [exact (ubig_mul_rr_yields _ _ Ha Hb)|].
    apply Forall_cons; [exact (ubig_mul_vv_yields _ _ Ha Hb)|].
    apply Forall_cons; [exact (ubig_mul_vr_yields _ _ Ha Hb)|]. apply Forall_nil.
  - intros f g. exact (yields_agree _ _ _).
Qed.
Print Assumptions C45_ubig_mul.

Theorem C45_ibig_mul (A : Arch) (AOK : ArchOk A) (x y : ibig) :
  ibig_ok x -> ibig_ok y ->
  ForallOrdPairs (fun f g => iagree (f x y) (g x y))
    [ibig_mul_vv; ibig_mul_vr; ibig_mul_rv; ibig_mul_rr; ibig_mul_assign_v; ibig_mul_assign_r].
Proof.
  intros Hx Hy.
  apply (Forall_pairs (fun f => iyields (f x y) (ival x * ival y))).
  - apply Forall_cons; [exact (ibig_mul_vv_yields _ _ Hx Hy)|].
    apply Forall_cons; [exact (ibig_mul_vr_yields _ _ Hx Hy)|].
    apply Forall_cons; [exact (ibig_mul_rv_yields _ _ Hx Hy)|].
    apply Forall_cons; [exact (ibig_mul_rr_yields _ _ Hx Hy)|].
    apply Forall_cons; [exact (ibig_mul_vv_yields _ _ Hx Hy)|].
    apply Forall_cons; [exact (ibig_mul_vr_yields _ _ Hx Hy)|]. apply Forall_nil.
  - intros f g. exact (iyields_agree _ _ _).
Qed.
Print Assumptions C45_ibig_mul.

Theorem C45_ubig_and (A : Arch) (AOK : ArchOk A) (a b : ubig) :
  ubig_ok a -> ubig_ok b ->
  ForallOrdPairs (fun f g => agree (f a b) (g a b))
    [ubig_and_vv; ubig_and_vr; ubig_and_rv; ubig_and_rr; ubig_and_assign_v; ubig_and_assign_r].
Proof.
  intros Ha Hb.
  apply (Forall_pairs (fun f => yields (f a b) (Z.land (uval a) (uval b)))).
  - apply Forall_cons; [exact (ubig_and_vv_yields _ _ Ha Hb)|].
    apply Forall_cons; [exact (ubig_and_vr_yields _ _ Ha Hb)|].
    apply Forall_cons; [exact (ubig_and_rv_yields _ _ Ha Hb)|].
    apply Forall_cons; [exact (ubig_and_rr_yields _ _ Ha Hb)|].
    apply Forall_cons; [exact (ubig_and_vv_yields _ _ Ha Hb)|].
    apply Forall_cons; [exact (ubig_and_vr_yields _ _ Ha Hb)|]. apply Forall_nil.
  - intros f g. exact (yields_agree _ _ _).
Qed.
Print Assumptions C45_ubig_and.

Theorem C45_ibig_and (A : Arch) (AOK : ArchOk A) (x y : ibig) :
  ibig_ok x -> ibig_ok y ->
  ForallOrdPairs (fun f g => iagree (f x y) (g x y))
    [ibig_and_vv; ibig_and_vr; ibig_and_rv; ibig_and_rr; ibig_and_assign_v; ibig_and_assign_r].
Proof.
  intros Hx Hy.
  apply (Forall_pairs (fun f => iyields (f x y) (Z.land (ival x) (ival y)))).
  - apply Forall_cons; [exact (ibig_and_vv_yields _ _ Hx Hy)|].
    apply Forall_cons; [exact (ibig_and_vr_yields _ _ Hx Hy)|].
    apply Forall_cons; [exact (ibig_and_rv_yields _ _ Hx Hy)|].
    apply Forall_cons; [exact (ibig_and_rr_yields _ _ Hx Hy)|].
    apply Forall_cons; [exact (ibig_and_vv_yields _ _ Hx Hy)|].
    apply Forall_cons; [exact (ibig_and_vr_yields _ _ Hx Hy)|]. apply Forall_nil.
  - intros f g. exact (iyields_agree _ _ _).
Qed.
Print Assumptions C45_ibig_and.

Theorem C45_ubig_or (A : Arch) (AOK : ArchOk A) (a b : ubig) :
  ubig_ok a -> ubig_ok b ->
  ForallOrdPairs (fun f g => agree (f a b) (g a b))
    [ubig_or_vv; ubig_or_vr; ubig_or_rv; ubig_or_rr; ubig_or_assign_v; ubig_or_assign_r].
Proof.
  intros Ha Hb.
  apply (Forall_pairs (fun f => yields (f a b) (Z.lor (uval a) (uval b)))).
  - apply Forall_cons; [exact (ubig_or_vv_yields _ _ Ha Hb)|].
    apply Forall_cons; [exact (ubig_or_vr_yields _ _ Ha Hb)|].
    apply Forall_cons; [exact (ubig_or_rv_yields _ _ Ha Hb)|].
    apply Forall_cons; [exact (ubig_or_rr_yields _ _ Ha Hb)|].
    apply Forall_cons; [exact (ubig_or_vv_yields _ _ Ha Hb)|].
    apply Forall_cons; [exact (ubig_or_vr_yields _ _ Ha Hb)|]. apply Forall_nil.
  - intros f g. exact (yields_agree _ _ _).
Qed.
Print Assumptions C45_ubig_or.

Theorem C45_ibig_or (A : Arch) (AOK : ArchOk A) (x y : ibig) :
  ibig_ok x -> ibig_ok y ->
  ForallOrdPairs (fun f g => iagree (f x y) (g x y))
    [ibig_or_vv; ibig_or_vr; ibig_or_rv; ibig_or_rr; ibig_or_assign_v; ibig_or_assign_r].
Proof.
  intros Hx Hy.
  apply (Forall_pairs (fun f => iyields (f x y) (Z.lor (ival x) (ival y)))).
  - apply Forall_cons; [exact (ibig_or_vv_yields _ _ Hx Hy)|].
    apply Forall_cons; [exact (ibig_or_vr_yields _ _ Hx Hy)|].
    apply Forall_cons; [exact (ibig_or_rv_yields _ _ Hx Hy)|].
    apply Forall_cons; [exact (ibig_or_rr_yields _ _ Hx Hy)|].
    apply Forall_cons; [exact (ibig_or_vv_yields _ _ Hx Hy)|].
    apply Forall_cons; [exact (ibig_or_vr_yields _ _ Hx Hy)|]. apply Forall_nil.
  - intros f g. exact (iyields_agree _ _ _).
Qed.
Print Assumptions C45_ibig_or.

Theorem C45_ubig_xor (A : Arch) (AOK : ArchOk A) (a b : ubig) :
  ubig_ok a -> ubig_ok b ->
  ForallOrdPairs (fun f g => agree (f a b) (g a b))
    [ubig_xor_vv; ubig_xor_vr; ubig_xor_rv; ubig_xor_rr; ubig_xor_assign_v; ubig_xor_assign_r].
Proof.
  intros Ha Hb.
  apply (Forall_pairs (fun f => yields (f a b) (Z.lxor (uval a) (uval b)))).
  - apply Forall_cons; [exact (ubig_xor_vv_yields _ _ Ha Hb)|].
    apply Forall_cons; [exact (ubig_xor_vr_yields _ _ Ha Hb)|].
    apply Forall_cons; [exact (ubig_xor_rv_yields _ _ Ha Hb)|].
    apply Forall_cons; [exact (ubig_xor_rr_yields _ _ Ha Hb)|].
    apply Forall_cons; [exact (ubig_xor_vv_yields _ _ Ha Hb)|].
    apply Forall_cons; [exact (ubig_xor_vr_yields _ _ Ha Hb)|]. apply Forall_nil.
  - intros f g. exact (yields_agree _ _ _).
Qed.
Print Assumptions C45_ubig_xor.

Theorem C45_ibig_xor (A : Arch) (AOK : ArchOk A) (x y : ibig) :
  ibig_ok x -> ibig_ok y ->
  ForallOrdPairs (fun f g => iagree (f x y) (g x y))
    [ibig_xor_vv; ibig_xor_vr; ibig_xor_rv; ibig_xor_rr; ibig_xor_assign_v; ibig_xor_assign_r].
Proof.
  intros Hx Hy.
  apply (Forall_pairs (fun f => iyields (f x y) (Z.lxor (ival x) (ival y)))).
  - apply Forall_cons; [exact (ibig_xor_vv_yields _ _ Hx Hy)|].
    apply Forall_cons; [exact (ibig_xor_vr_yields _ _ Hx Hy)|].
    apply Forall_cons; [exact (ibig_xor_rv_yields _ _ Hx Hy)|].
    apply Forall_cons; [exact (ibig_xor_rr_yields _ _ Hx Hy)|].
    apply Forall_cons; [exact (ibig_xor_vv_yields _ _ Hx Hy)|].
    apply Forall_cons; [exact (ibig_xor_vr_yields _ _ Hx Hy)|]. apply Forall_nil.
  - intros f g. exact (iyields_agree _ _ _).
Qed.
Print Assumptions C45_ibig_xor.

Theorem C45_ubig_and_not (A : Arch) (AOK : ArchOk A) (a b : ubig) :
  ubig_ok a -> ubig_ok b ->
  ForallOrdPairs (fun f g => agree (f a b) (g a b))
    [ubig_and_not_vv; ubig_and_not_vr; ubig_and_not_rv; ubig_and_not_rr].
Proof.
  intros Ha Hb.
  apply (Forall_pairs (fun f => yields (f a b) (Z.ldiff (uval a) (uval b)))).
  - apply Forall_cons; [exact (ubig_and_not_vv_yields _ _ Ha Hb)|].
    apply Forall_cons; [exact (ubig_and_not_vr_yields _ _ Ha Hb)|].
    apply Forall_cons; [exact (ubig_and_not_rv_yields _ _ Ha Hb)|].
    apply Forall_cons; [exact (ubig_and_not_rr_yields _ _ Ha Hb)|]. apply Forall_nil.
  - intros f g. exact (yields_agree _ _ _).
Qed.
Print Assumptions C45_ubig_and_not.

Theorem C45_ibig_and_not (A : Arch) (AOK : ArchOk A) (x y : ibig) :
  ibig_ok x -> ibig_ok y ->
  ForallOrdPairs (fun f g => iagree (f x y) (g x y))
    [ibig_and_not_vv; ibig_and_not_vr; ibig_and_not_rv; ibig_and_not_rr].
Proof.
  intros Hx Hy.
  apply (Forall_pairs (fun f => iyields (f x y) (Z.ldiff (ival x) (ival y)))).
  - apply Forall_cons; [exact (ibig_and_not_vv_yields _ _ Hx Hy)|].
    apply Forall_cons; [exact (ibig_and_not_vr_yields _ _ Hx Hy)|].
    apply Forall_cons; [exact (ibig_and_not_rv_yields _ _ Hx Hy)|].
    apply Forall_cons; [exact (ibig_and_not_rr_yields _ _ Hx Hy)|]. apply Forall_nil.
  - intros f g. exact (iyields_agree _ _ _).
Qed.
Print Assumptions C45_ibig_and_not.

Theorem C45_ubig_div (A : Arch) (AOK : ArchOk A) (a b : ubig) :
  ubig_ok a -> ubig_ok b ->
  ForallOrdPairs (fun f g => agree (f a b) (g a b))
    [ubig_div_vv; ubig_div_vr; ubig_div_rv; ubig_div_rr; ubig_div_assign_v; ubig_div_assign_r].
Proof.
  intros Ha Hb.
  apply (Forall_pairs (fun f => div_yields (uval b) (f a b) (uval a / uval b))).
  - apply Forall_cons; [exact (ubig_div_vv_yields _ _ Ha Hb)|].
    apply Forall_cons; [exact (ubig_div_vr_yields _ _ Ha Hb)|].
    apply Forall_cons; [exact (ubig_div_rv_yields _ _ Ha Hb)|].
    apply Forall_cons; [exact (ubig_div_rr_yields _ _ Ha Hb)|].
    apply Forall_cons; [exact (ubig_div_vv_yields _ _ Ha Hb)|].
    apply Forall_cons; [exact (ubig_div_vr_yields _ _ Ha Hb)|]. apply Forall_nil.
  - intros f g. exact (div_yields_agree _ _ _ _).
Qed.
Print Assumptions C45_ubig_div.

Theorem C45_ibig_div (A : Arch) (AOK : ArchOk A) (x y : ibig) :
  ibig_ok x -> ibig_ok y ->
  ForallOrdPairs (fun f g => iagree (f x y) (g x y))
    [ibig_div_vv; ibig_div_vr; ibig_div_rv; ibig_div_rr; ibig_div_assign_v; ibig_div_assign_r].
Proof.
  intros Hx Hy.
  apply (Forall_pairs (fun f => idiv_yields (ival y) (f x y) (Z.quot (ival x) (ival y)))).
  - apply Forall_cons; [exact (ibig_div_vv_yields _ _ Hx Hy)|].
    apply Forall_cons; [exact (ibig_div_vr_yields _ _ Hx Hy)|].
    apply Forall_cons; [exact (ibig_div_rv_yields _ _ Hx Hy)|].
    apply Forall_cons; [exact (ibig_div_rr_yields _ _ Hx Hy)|].
    apply Forall_cons; [exact (ibig_div_vv_yields _ _ Hx Hy)|].
    apply Forall_cons; [exact (ibig_div_vr_yields _ _ Hx Hy)|]. apply Forall_nil.
  - intros f g. exact (idiv_yields_agree _ _ _ _).
Qed.
Print Assumptions C45_ibig_div.

Theorem C45_ubig_rem (A : Arch) (AOK : ArchOk A) (a b : ubig) :
  ubig_ok a -> ubig_ok b ->
  ForallOrdPairs (fun f g => agree (f a b) (g a b))
    [ubig_rem_vv; ubig_rem_vr; ubig_rem_rv; ubig_rem_rr; ubig_rem_assign_v; ubig_rem_assign_r].
Proof.
  intros Ha Hb.
  apply (Forall_pairs (fun f => div_yields (uval b) (f a b) (uval a mod uval b))).
  - apply Forall_cons; [exact (ubig_rem_vv_yields _ _ Ha Hb)|].
    apply Forall_cons; [exact (ubig_rem_vr_yields _ _ Ha Hb)|].
    apply Forall_cons; [exact (ubig_rem_rv_yields _ _ Ha Hb)|].
    apply Forall_cons; [exact (ubig_rem_rr_yields _ _ Ha Hb)|].
    apply Forall_cons; [exact (ubig_rem_vv_yields _ _ Ha Hb)|].
    apply Forall_cons; [exact (ubig_rem_vr_yields _ _ Ha Hb)|]. apply Forall_nil.
  - intros f g. exact (div_yields_agree _ _ _ _).
Qed.
Print Assumptions C45_ubig_rem.

Theorem C45_ibig_rem (A : Arch) (AOK : ArchOk A) (x y : ibig) :
  ibig_ok x -> ibig_ok y ->
  ForallOrdPairs (fun f g => iagree (f x y) (g x y))
    [ibig_rem_vv; ibig_rem_vr; ibig_rem_rv; ibig_rem_rr; ibig_rem_assign_v; ibig_rem_assign_r].
Proof.
  intros Hx Hy.
  apply (Forall_pairs (fun f => idiv_yields (ival y) (f x y) (Z.rem (ival x) (ival y)))).
  - apply Forall_cons; [exact (ibig_rem_vv_yields _ _ Hx Hy)|].
    apply Forall_cons; [exact (ibig_rem_vr_yields _ _ Hx Hy)|].
    apply Forall_cons; [exact (ibig_rem_rv_yields _ _ Hx Hy)|].
    apply Forall_cons; [exact (ibig_rem_rr_yields _ _ Hx Hy)|].
    apply Forall_cons; [exact (ibig_rem_vv_yields _ _ Hx Hy)|].
    apply Forall_cons; [exact (ibig_rem_vr_yields _ _ Hx Hy)|]. apply Forall_nil.
  - intros f g. exact (idiv_yields_agree _ _ _ _).
Qed.
Print Assumptions C45_ibig_rem.

Theorem C45_ibig_div_euclid (A : Arch) (AOK : ArchOk A) (x y : ibig) :
  ibig_ok x -> ibig_ok y ->
  ForallOrdPairs (fun f g => iagree (f x y) (g x y))
    [ibig_div_euclid_vv; ibig_div_euclid_vr; ibig_div_euclid_rv; ibig_div_euclid_rr].
Proof.
  intros Hx Hy.
  apply (Forall_pairs (fun f => idiv_yields (ival y) (f x y) (ediv (ival x) (ival y)))).
  - apply Forall_cons; [exact (ibig_div_euclid_vv_yields _ _ Hx Hy)|].
    apply Forall_cons; [exact (ibig_div_euclid_vr_yields _ _ Hx Hy)|].
    apply Forall_cons; [exact (ibig_div_euclid_rv_yields _ _ Hx Hy)|].
    apply Forall_cons; [exact (ibig_div_euclid_rr_yields _ _ Hx Hy)|]. apply Forall_nil.
  - intros f g. exact (idiv_yields_agree _ _ _ _).
Qed.
Print Assumptions C45_ibig_div_euclid.

Theorem C45_ibig_rem_euclid (A : Arch) (AOK : ArchOk A) (x y : ibig) :
  ibig_ok x -> ibig_ok y ->
  ForallOrdPairs (fun f g => iagree (f x y) (g x y))
    [ibig_rem_euclid_vv; ibig_rem_euclid_vr; ibig_rem_euclid_rv; ibig_rem_euclid_rr].
Proof.
  intros Hx Hy.
  apply (Forall_pairs (fun f => idiv_yields (ival y) (f x y) (emod (ival x) (ival y)))).
  - apply Forall_cons; [exact (ibig_rem_euclid_vv_yields _ _ Hx Hy)|].
    apply Forall_cons; [exact (ibig_rem_euclid_vr_yields _ _ Hx Hy)|].
    apply Forall_cons; [exact (ibig_rem_euclid_rv_yields _ _ Hx Hy)|].
    apply Forall_cons; [exact (ibig_rem_euclid_rr_yields _ _ Hx Hy)|]. apply Forall_nil.
  - intros f g. exact (idiv_yields_agree _ _ _ _).
Qed.
Print Assumptions C45_ibig_rem_euclid.

Theorem C45_shifts (A : Arch) (AOK : ArchOk A) (u : ubig) (x : ibig) (n : Z) :
  ubig_ok u -> ibig_ok x -> 0 <= n < 2 ^ ubits ->
  agree (ubig_shl_v u n) (ubig_shl_r u n) /\ agree (ubig_shl_v u n) (ubig_shl_assign u n) /\
  agree (ubig_shr_v u n) (ubig_shr_r u n) /\ agree (ubig_shr_v u n) (ubig_shr_assign u n) /\
  iagree (ibig_shl_v x n) (ibig_shl_r x n) /\ iagree (ibig_shl_v x n) (ibig_shl_assign x n) /\
  iagree (ibig_shr_v x n) (ibig_shr_r x n) /\ iagree (ibig_shr_v x n) (ibig_shr_assign x n).
Proof. exact (shifts_agree u x n). Qed.
Print Assumptions C45_shifts.

Example C45_values : let A := arch64 in
  let a := lg [(2 ^ 64 - 1); 3] in let b := Small 9 in
  ubig_ok a /\ ubig_ok b /\ ForallOrdPairs (fun f g => agree (f a b) (g a b)) [ubig_sub_vv; ubig_sub_rr] /\
  ubig_sub_vv b a = Panic NegativeUBig /\ ubig_sub_rr b a = Panic NegativeUBig.
Proof. cbv zeta. repeat split; try (repeat constructor; vm_compute; reflexivity); sample. Qed.

