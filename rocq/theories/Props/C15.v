(** C15: UBig bitwise operations act bit by bit. *)
From Verif Require Import Model.Base Model.Words Model.Memory Model.FastDivide Model.Mul Model.Div Model.Buffer Model.UBig Model.IBig Model.Convert Model.AddOps Model.MulOps Model.ShiftOps Model.Bits Model.DivOps Model.PrimOps
  Spec.Val Spec.Num Spec.Prim Spec.Digits
  Proofs.BitsProofs Proofs.ApiProofs Proofs.Bounds Proofs.ApiProofs Proofs.Samples.

Theorem C15_ubig_and (A : Arch) (AOK : ArchOk A) (a b : ubig) :
  ubig_ok a -> ubig_ok b ->
  Forall (fun f => exists u, f a b = Ok u /\ ubig_ok u /\
    forall i, 0 <= i -> Z.testbit (uval u) i = andb (Z.testbit (uval a) i) (Z.testbit (uval b) i))
    [ubig_and_vv; ubig_and_vr; ubig_and_rv; ubig_and_rr; ubig_and_assign_v; ubig_and_assign_r].
Proof.
  intros Ha Hb.
  apply Forall_cons; [exact (yields_bits _ _ _ _ _ land_bitwise Ha Hb (ubig_and_vv_yields _ _ Ha Hb))|].
  apply Forall_cons; [exact (yields_bits _ _ _ _ _ land_bitwise Ha Hb (ubig_and_vr_yields _ _ Ha Hb))|].
  apply Forall_cons; [exact (yields_bits _ _ _ _ _ land_bitwise Ha Hb (ubig_and_rv_yields _ _ Ha Hb))|].
  apply Forall_cons; [exact (yields_bits _ _ _ _ _ land_bitwise Ha Hb (ubig_and_rr_yields _ _ Ha Hb))|].
  apply Forall_cons; [exact (yields_bits _ _ _ _ _ land_bitwise Ha Hb (ubig_and_vv_yields _ _ Ha Hb))|].
  apply Forall_cons; [exact (yields_bits _ _ _ _ _ land_bitwise Ha Hb (ubig_and_vr_yields _ _ Ha Hb))|].
  apply Forall_nil.
Qed.
Print Assumptions C15_ubig_and.

Theorem C15_ubig_or (A : Arch) (AOK : ArchOk A) (a b : ubig) :
  ubig_ok a -> ubig_ok b ->
  Forall (fun f => exists u, f a b = Ok u /\ ubig_ok u /\
    forall i, 0 <= i -> Z.testbit (uval u) i = orb (Z.testbit (uval a) i) (Z.testbit (uval b) i))
    [ubig_or_vv; ubig_or_vr; ubig_or_rv; ubig_or_rr; ubig_or_assign_v; ubig_or_assign_r].
Proof.
  intros Ha Hb.
  apply Forall_cons; [exact (yields_bits _ _ _ _ _ lor_bitwise Ha Hb (ubig_or_vv_yields _ _ Ha Hb))|].
  apply Forall_cons; [exact (yields_bits _ _ _ _ _ lor_bitwise Ha Hb (ubig_or_vr_yields _ _ Ha Hb))|].
  apply Forall_cons; [exact (yields_bits _ _ _ _ _ lor_bitwise Ha Hb (ubig_or_rv_yields _ _ Ha Hb))|].
  apply Forall_cons; [exact (yields_bits _ _ _ _ _ lor_bitwise Ha Hb (ubig_or_rr_yields _ _ Ha Hb))|].
  apply Forall_cons; [exact (yields_bits _ _ _ _ _ lor_bitwise Ha Hb (ubig_or_vv_yields _ _ Ha Hb))|].
  apply Forall_cons; [exact (yields_bits _ _ _ _ _ lor_bitwise Ha Hb (ubig_or_vr_yields _ _ Ha Hb))|].
  apply Forall_nil.
Qed.
Print Assumptions C15_ubig_or.

Theorem C15_ubig_xor (A : Arch) (AOK : ArchOk A) (a b : ubig) :
  ubig_ok a -> ubig_ok b ->
  Forall (fun f => exists u, f a b = Ok u /\ ubig_ok u /\
    forall i, 0 <= i -> Z.testbit (uval u) i = xorb (Z.testbit (uval a) i) (Z.testbit (uval b) i))
    [ubig_xor_vv; ubig_xor_vr; ubig_xor_rv; ubig_xor_rr; ubig_xor_assign_v; ubig_xor_assign_r].
Proof.
  intros Ha Hb.
  apply Forall_cons; [exact (yields_bits _ _ _ _ _ lxor_bitwise Ha Hb (ubig_xor_vv_yields _ _ Ha Hb))|].
  apply Forall_cons; [exact (yields_bits _ _ _ _ _ lxor_bitwise Ha Hb (ubig_xor_vr_yields _ _ Ha Hb))|].
  apply Forall_cons; [exact (yields_bits _ _ _ _ _ lxor_bitwise Ha Hb (ubig_xor_rv_yields _ _ Ha Hb))|].
  apply Forall_cons; [exact (yields_bits _ _ _ _ _ lxor_bitwise Ha Hb (ubig_xor_rr_yields _ _ Ha Hb))|].
  apply Forall_cons; [exact (yields_bits _ _ _ _ _ lxor_bitwise Ha Hb (ubig_xor_vv_yields _ _ Ha Hb))|].
  apply Forall_cons; [exact (yields_bits _ _ _ _ _ lxor_bitwise Ha Hb (ubig_xor_vr_yields _ _ Ha Hb))|].
  apply Forall_nil.
Qed.
Print Assumptions C15_ubig_xor.

Theorem C15_ubig_and_not (A : Arch) (AOK : ArchOk A) (a b : ubig) :
  ubig_ok a -> ubig_ok b ->
  Forall (fun f => exists u, f a b = Ok u /\ ubig_ok u /\
    forall i, 0 <= i -> Z.testbit (uval u) i = (fun p q => p && negb q) (Z.testbit (uval a) i) (Z.testbit (uval b) i))
    [ubig_and_not_vv; ubig_and_not_vr; ubig_and_not_rv; ubig_and_not_rr].
Proof.
  intros Ha Hb.
  apply Forall_cons; [exact (yields_bits _ _ _ _ _ ldiff_bitwise Ha Hb (ubig_and_not_vv_yields _ _ Ha Hb))|].
  apply Forall_cons; [exact (yields_bits _ _ _ _ _ ldiff_bitwise Ha Hb (ubig_and_not_vr_yields _ _ Ha Hb))|].
  apply Forall_cons; [exact (yields_bits _ _ _ _ _ ldiff_bitwise Ha Hb (ubig_and_not_rv_yields _ _ Ha Hb))|].
  apply Forall_cons; [exact (yields_bits _ _ _ _ _ ldiff_bitwise Ha Hb (ubig_and_not_rr_yields _ _ Ha Hb))|].
  apply Forall_nil.
Qed.
Print Assumptions C15_ubig_and_not.

Example C15_values : let A := arch64 in
  let a := lg [12; 10; 1] in let b := lg [10; 6] in
  ubig_ok a /\ ubig_ok b /\ ubig_and_vr a b = Ok (Large (mkBuffer [8; 2] 4)) /\
  uresult (ubig_xor_vv a a) = Ok 0 /\ uresult (ubig_or_rr a b) = Ok (14 + 14 * 2 ^ 64 + 2 ^ 128) /\
  uresult (ubig_and_not_rv a b) = Ok (4 + 8 * 2 ^ 64 + 2 ^ 128).
Proof. cbv zeta. sample. Qed.

