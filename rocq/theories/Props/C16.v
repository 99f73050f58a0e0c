(** C16: IBig bitwise operations are infinite two's complement. *)
From Verif Require Import Model.Base Model.Words Model.Memory Model.FastDivide Model.Mul Model.Div Model.Buffer Model.UBig Model.IBig Model.Convert Model.AddOps Model.MulOps Model.ShiftOps Model.Bits Model.DivOps Model.PrimOps
  Spec.Val Spec.Num Spec.Prim Spec.Digits
  Proofs.BitsProofs Proofs.ApiProofs Proofs.Bounds Proofs.Bounds Proofs.ApiProofs Proofs.Samples.

(** [Z.testbit z i] for negative [z] is bit [i] of the infinite two's complement
    representation of [z]; the bits determine [z].  The result is too large only when the number with
    these bits is [- 2 ^ MAX_BIT_LEN]. *)
Theorem C16_bits_determine (y z : Z) : (forall i, 0 <= i -> Z.testbit y i = Z.testbit z i) -> y = z.
Proof. exact (Z.bits_inj' y z). Qed.
Print Assumptions C16_bits_determine.

Theorem C16_ibig_and (A : Arch) (AOK : ArchOk A) (x y : ibig) :
  ibig_ok x -> ibig_ok y ->
  Forall (fun f => exists z, iyields (f x y) z /\
    forall i, 0 <= i -> Z.testbit z i = andb (Z.testbit (ival x) i) (Z.testbit (ival y) i))
    [ibig_and_vv; ibig_and_vr; ibig_and_rv; ibig_and_rr; ibig_and_assign_v; ibig_and_assign_r].
Proof.
  intros Hx Hy.
  apply Forall_cons; [exact (iyields_bits _ _ _ _ _ land_bitwise (ibig_and_vv_yields _ _ Hx Hy))|].
  apply Forall_cons; [exact (iyields_bits _ _ _ _ _ land_bitwise (ibig_and_vr_yields _ _ Hx Hy))|].
  apply Forall_cons; [exact (iyields_bits _ _ _ _ _ land_bitwise (ibig_and_rv_yields _ _ Hx Hy))|].
  apply Forall_cons; [exact (iyields_bits _ _ _ _ _ land_bitwise (ibig_and_rr_yields _ _ Hx Hy))|].
  apply Forall_cons; [exact (iyields_bits _ _ _ _ _ land_bitwise (ibig_and_vv_yields _ _ Hx Hy))|].
  apply Forall_cons; [exact (iyields_bits _ _ _ _ _ land_bitwise (ibig_and_vr_yields _ _ Hx Hy))|].
  apply Forall_nil.
Qed.
Print Assumptions C16_ibig_and.

Theorem C16_ibig_or (A : Arch) (AOK : ArchOk A) (x y : ibig) :
  ibig_ok x -> ibig_ok y ->
  Forall (fun f => exists z, iyields (f x y) z /\
    forall i, 0 <= i -> Z.testbit z i = orb (Z.testbit (ival x) i) (Z.testbit (ival y) i))
    [ibig_or_vv; ibig_or_vr; ibig_or_rv; ibig_or_rr; ibig_or_assign_v; ibig_or_assign_r].
Proof.
  intros Hx Hy.
  apply Forall_cons; [exact (iyields_bits _ _ _ _ _ lor_bitwise (ibig_or_vv_yields _ _ Hx Hy))|].
  apply Forall_cons; [exact (iyields_bits _ _ _ _ _ lor_bitwise (ibig_or_vr_yields _ _ Hx Hy))|].
  apply Forall_cons; [exact (iyields_bits _ _ _ _ _ lor_bitwise (ibig_or_rv_yields _ _ Hx Hy))|].
  apply Forall_cons; [exact (iyields_bits _ _ _ _ _ lor_bitwise (ibig_or_rr_yields _ _ Hx Hy))|].
  apply Forall_cons; [exact (iyields_bits _ _ _ _ _ lor_bitwise (ibig_or_vv_yields _ _ Hx Hy))|].
  apply Forall_cons; [exact (iyields_bits _ _ _ _ _ lor_bitwise (ibig_or_vr_yields _ _ Hx Hy))|].
  apply Forall_nil.
Qed.
Print Assumptions C16_ibig_or.

Theorem C16_ibig_xor (A : Arch) (AOK : ArchOk A) (x y : ibig) :
  ibig_ok x -> ibig_ok y ->
  Forall (fun f => exists z, iyields (f x y) z /\
    forall i, 0 <= i -> Z.testbit z i = xorb (Z.testbit (ival x) i) (Z.testbit (ival y) i))
    [ibig_xor_vv; ibig_xor_vr; ibig_xor_rv; ibig_xor_rr; ibig_xor_assign_v; ibig_xor_assign_r].
Proof.
  intros Hx Hy.
  apply Forall_cons; [exact (iyields_bits _ _ _ _ _ lxor_bitwise (ibig_xor_vv_yields _ _ Hx Hy))|].
  apply Forall_cons; [exact (iyields_bits _ _ _ _ _ lxor_bitwise (ibig_xor_vr_yields _ _ Hx Hy))|].
  apply Forall_cons; [exact (iyields_bits _ _ _ _ _ lxor_bitwise (ibig_xor_rv_yields _ _ Hx Hy))|].
  apply Forall_cons; [exact (iyields_bits _ _ _ _ _ lxor_bitwise (ibig_xor_rr_yields _ _ Hx Hy))|].
  apply Forall_cons; [exact (iyields_bits _ _ _ _ _ lxor_bitwise (ibig_xor_vv_yields _ _ Hx Hy))|].
  apply Forall_cons; [exact (iyields_bits _ _ _ _ _ lxor_bitwise (ibig_xor_vr_yields _ _ Hx Hy))|].
  apply Forall_nil.
Qed.
Print Assumptions C16_ibig_xor.

Theorem C16_ibig_and_not (A : Arch) (AOK : ArchOk A) (x y : ibig) :
  ibig_ok x -> ibig_ok y ->
  Forall (fun f => exists z, iyields (f x y) z /\
    forall i, 0 <= i -> Z.testbit z i = (fun p q => p && negb q) (Z.testbit (ival x) i) (Z.testbit (ival y) i))
    [ibig_and_not_vv; ibig_and_not_vr; ibig_and_not_rv; ibig_and_not_rr].
Proof.
  intros Hx Hy.
  apply Forall_cons; [exact (iyields_bits _ _ _ _ _ ldiff_bitwise (ibig_and_not_vv_yields _ _ Hx Hy))|].
  apply Forall_cons; [exact (iyields_bits _ _ _ _ _ ldiff_bitwise (ibig_and_not_vr_yields _ _ Hx Hy))|].
  apply Forall_cons; [exact (iyields_bits _ _ _ _ _ ldiff_bitwise (ibig_and_not_rv_yields _ _ Hx Hy))|].
  apply Forall_cons; [exact (iyields_bits _ _ _ _ _ ldiff_bitwise (ibig_and_not_rr_yields _ _ Hx Hy))|].
  apply Forall_nil.
Qed.
Print Assumptions C16_ibig_and_not.

Theorem C16_ibig_not (A : Arch) (AOK : ArchOk A) (x : ibig) :
  ibig_ok x ->
  Forall (fun f => exists z, iyields (f x) z /\ forall i, 0 <= i -> Z.testbit z i = negb (Z.testbit (ival x) i))
    [ibig_not_v; ibig_not_r].
Proof.
  intros Hx.
  apply Forall_cons; [exact (iyields_not _ _ (ibig_not_v_yields _ Hx))|].
  apply Forall_cons; [exact (iyields_not _ _ (ibig_not_r_yields _ Hx))|].
  apply Forall_nil.
Qed.
Print Assumptions C16_ibig_not.

(** Two's complement: the bits of a negative number are those of it plus a large power of two. *)
Theorem C16_twos_complement (z k i : Z) : 0 <= i < k -> Z.testbit z i = Z.testbit (z mod 2 ^ k) i.
Proof. exact (twos_complement z k i). Qed.
Print Assumptions C16_twos_complement.

Example C16_values : let A := arch64 in
  let x := neg (lg [12; 10; 1]) in let y := pos (lg [10; 6]) in
  ibig_ok x /\ ibig_ok y /\ iresult (ibig_and_vr x y) = Ok (Z.land (- (12 + 10 * 2 ^ 64 + 2 ^ 128)) (10 + 6 * 2 ^ 64)) /\
  iresult (ibig_xor_vv x x) = Ok 0 /\ iresult (ibig_not_r x) = Ok (12 + 10 * 2 ^ 64 + 2 ^ 128 - 1).
Proof. cbv zeta. sample. Qed.

