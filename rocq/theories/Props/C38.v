(** C38: arithmetic with primitive integers. *)
From Verif Require Import Model.Base Model.Words Model.Memory Model.FastDivide Model.Mul Model.Div Model.Buffer Model.UBig Model.IBig Model.Convert Model.AddOps Model.MulOps Model.ShiftOps Model.Bits Model.DivOps Model.PrimOps
  Spec.Val Spec.Num Spec.Prim Spec.Digits
  Proofs.PrimOpsProofs Proofs.Bounds Proofs.ApiProofs Proofs.Samples.

(** * UBig with unsigned primitives *)

Theorem C38_ubig_add_unsigned (A : Arch) (AOK : ArchOk A) (tb x : Z) (u : ubig) :
  prim_bits tb -> prim_range false tb x -> ubig_ok u ->
  Forall (fun f => yields (f tb u x) (uval u + x))
    [ubig_add_unsigned; ubig_add_ref_unsigned; ubig_add_assign_unsigned].
Proof.
  intros Ht Hx Hu.
  apply Forall_cons; [exact (ubig_add_unsigned_yields tb x u Ht Hx Hu)|].
  apply Forall_cons; [exact (ubig_add_ref_unsigned_yields tb x u Ht Hx Hu)|].
  apply Forall_cons; [exact (ubig_add_assign_unsigned_yields tb x u Ht Hx Hu)|].
  apply Forall_nil.
Qed.
Print Assumptions C38_ubig_add_unsigned.

Theorem C38_ubig_sub_unsigned (A : Arch) (AOK : ArchOk A) (tb x : Z) (u : ubig) :
  prim_bits tb -> prim_range false tb x -> ubig_ok u ->
  Forall (fun f => yields_nat (f tb u x) (uval u - x))
    [ubig_sub_unsigned; ubig_sub_ref_unsigned; ubig_sub_assign_unsigned].
Proof.
  intros Ht Hx Hu.
  apply Forall_cons; [exact (ubig_sub_unsigned_yields tb x u Ht Hx Hu)|].
  apply Forall_cons; [exact (ubig_sub_ref_unsigned_yields tb x u Ht Hx Hu)|].
  apply Forall_cons; [exact (ubig_sub_assign_unsigned_yields tb x u Ht Hx Hu)|].
  apply Forall_nil.
Qed.
Print Assumptions C38_ubig_sub_unsigned.

Theorem C38_ubig_mul_unsigned (A : Arch) (AOK : ArchOk A) (tb x : Z) (u : ubig) :
  prim_bits tb -> prim_range false tb x -> ubig_ok u ->
  Forall (fun f => yields (f tb u x) (uval u * x))
    [ubig_mul_unsigned; ubig_mul_ref_unsigned; ubig_mul_assign_unsigned].
Proof.
  intros Ht Hx Hu.
  apply Forall_cons; [exact (ubig_mul_unsigned_yields tb x u Ht Hx Hu)|].
  apply Forall_cons; [exact (ubig_mul_ref_unsigned_yields tb x u Ht Hx Hu)|].
  apply Forall_cons; [exact (ubig_mul_assign_unsigned_yields tb x u Ht Hx Hu)|].
  apply Forall_nil.
Qed.
Print Assumptions C38_ubig_mul_unsigned.

Theorem C38_ubig_or_unsigned (A : Arch) (AOK : ArchOk A) (tb x : Z) (u : ubig) :
  prim_bits tb -> prim_range false tb x -> ubig_ok u ->
  Forall (fun f => yields (f tb u x) (Z.lor (uval u) x))
    [ubig_or_unsigned; ubig_or_ref_unsigned; ubig_or_assign_unsigned].
Proof.
  intros Ht Hx Hu.
  apply Forall_cons; [exact (ubig_or_unsigned_yields tb x u Ht Hx Hu)|].
  apply Forall_cons; [exact (ubig_or_ref_unsigned_yields tb x u Ht Hx Hu)|].
  apply Forall_cons; [exact (ubig_or_assign_unsigned_yields tb x u Ht Hx Hu)|].
  apply Forall_nil.
Qed.
Print Assumptions C38_ubig_or_unsigned.

Theorem C38_ubig_xor_unsigned (A : Arch) (AOK : ArchOk A) (tb x : Z) (u : ubig) :
  prim_bits tb -> prim_range false tb x -> ubig_ok u ->
  Forall (fun f => yields (f tb u x) (Z.lxor (uval u) x))
    [ubig_xor_unsigned; ubig_xor_ref_unsigned; ubig_xor_assign_unsigned].
Proof.
  intros Ht Hx Hu.
  apply Forall_cons; [exact (ubig_xor_unsigned_yields tb x u Ht Hx Hu)|].
  apply Forall_cons; [exact (ubig_xor_ref_unsigned_yields tb x u Ht Hx Hu)|].
  apply Forall_cons; [exact (ubig_xor_assign_unsigned_yields tb x u Ht Hx Hu)|].
  apply Forall_nil.
Qed.
Print Assumptions C38_ubig_xor_unsigned.

Theorem C38_ubig_and_not_unsigned (A : Arch) (AOK : ArchOk A) (tb x : Z) (u : ubig) :
  prim_bits tb -> prim_range false tb x -> ubig_ok u ->
  Forall (fun f => yields (f tb u x) (Z.ldiff (uval u) x))
    [ubig_and_not_unsigned; ubig_and_not_ref_unsigned].
Proof.
  intros Ht Hx Hu.
  apply Forall_cons; [exact (ubig_and_not_unsigned_yields tb x u Ht Hx Hu)|].
  apply Forall_cons; [exact (ubig_and_not_ref_unsigned_yields tb x u Ht Hx Hu)|].
  apply Forall_nil.
Qed.
Print Assumptions C38_ubig_and_not_unsigned.

Theorem C38_ubig_and_unsigned (A : Arch) (AOK : ArchOk A) (tb x : Z) (u : ubig) :
  prim_bits tb -> prim_range false tb x -> ubig_ok u ->
  Forall (fun f => f tb u x = Ok (Z.land (uval u) x))
    [ubig_and_unsigned; ubig_and_ref_unsigned].
Proof.
  intros Ht Hx Hu.
  apply Forall_cons; [exact (ubig_and_unsigned_spec tb x u Ht Hx Hu)|].
  apply Forall_cons; [exact (ubig_and_ref_unsigned_spec tb x u Ht Hx Hu)|].
  apply Forall_nil.
Qed.
Print Assumptions C38_ubig_and_unsigned.

Theorem C38_ubig_and_assign_unsigned (A : Arch) (AOK : ArchOk A) (tb x : Z) (u : ubig) :
  prim_bits tb -> prim_range false tb x -> ubig_ok u ->
  Forall (fun f => yields (f tb u x) (Z.land (uval u) x))
    [ubig_and_assign_unsigned].
Proof.
  intros Ht Hx Hu.
  apply Forall_cons; [exact (ubig_and_assign_unsigned_yields tb x u Ht Hx Hu)|].
  apply Forall_nil.
Qed.
Print Assumptions C38_ubig_and_assign_unsigned.

Theorem C38_ubig_div_unsigned (A : Arch) (AOK : ArchOk A) (tb x : Z) (u : ubig) :
  prim_bits tb -> prim_range false tb x -> ubig_ok u ->
  Forall (fun f => div_yields x (f tb u x) (uval u / x))
    [ubig_div_unsigned; ubig_div_ref_unsigned; ubig_div_assign_unsigned; ubig_div_euclid_unsigned; ubig_div_euclid_ref_unsigned].
Proof.
  intros Ht Hx Hu.
  apply Forall_cons; [exact (ubig_div_unsigned_yields tb x u Ht Hx Hu)|].
  apply Forall_cons; [exact (ubig_div_ref_unsigned_yields tb x u Ht Hx Hu)|].
  apply Forall_cons; [exact (ubig_div_assign_unsigned_yields tb x u Ht Hx Hu)|].
  apply Forall_cons; [exact (ubig_div_unsigned_yields tb x u Ht Hx Hu)|].
  apply Forall_cons; [exact (ubig_div_ref_unsigned_yields tb x u Ht Hx Hu)|].
  apply Forall_nil.
Qed.
Print Assumptions C38_ubig_div_unsigned.

Theorem C38_ubig_rem_unsigned (A : Arch) (AOK : ArchOk A) (tb x : Z) (u : ubig) :
  prim_bits tb -> prim_range false tb x -> ubig_ok u ->
  Forall (fun f => pdiv_yields x (f tb u x) (uval u mod x))
    [ubig_rem_unsigned; ubig_rem_ref_unsigned; ubig_rem_euclid_unsigned; ubig_rem_euclid_ref_unsigned].
Proof.
  intros Ht Hx Hu.
  apply Forall_cons; [exact (ubig_rem_unsigned_spec tb x u Ht Hx Hu)|].
  apply Forall_cons; [exact (ubig_rem_ref_unsigned_spec tb x u Ht Hx Hu)|].
  apply Forall_cons; [exact (ubig_rem_unsigned_spec tb x u Ht Hx Hu)|].
  apply Forall_cons; [exact (ubig_rem_ref_unsigned_spec tb x u Ht Hx Hu)|].
  apply Forall_nil.
Qed.
Print Assumptions C38_ubig_rem_unsigned.

Theorem C38_ubig_rem_assign_unsigned (A : Arch) (AOK : ArchOk A) (tb x : Z) (u : ubig) :
  prim_bits tb -> prim_range false tb x -> ubig_ok u ->
  Forall (fun f => div_yields x (f tb u x) (uval u mod x))
    [ubig_rem_assign_unsigned].
Proof.
  intros Ht Hx Hu.
  apply Forall_cons; [exact (ubig_rem_assign_unsigned_yields tb x u Ht Hx Hu)|].
  apply Forall_nil.
Qed.
Print Assumptions C38_ubig_rem_assign_unsigned.

Theorem C38_ubig_div_rem_unsigned (A : Arch) (AOK : ArchOk A) (tb x : Z) (u : ubig) :
  prim_bits tb -> prim_range false tb x -> ubig_ok u ->
  Forall (fun f => (x = 0 -> f tb u x = Panic DivideByZero) /\
    (x <> 0 -> exists q, f tb u x = Ok (q, uval u mod x) /\ ubig_ok q /\ uval q = uval u / x))
    [ubig_div_rem_unsigned; ubig_div_rem_ref_unsigned; ubig_div_rem_euclid_unsigned; ubig_div_rem_euclid_ref_unsigned].
Proof.
  intros Ht Hx Hu.
  apply Forall_cons; [exact (conj (ubig_div_rem_unsigned_zero tb x u Ht Hx Hu) (ubig_div_rem_unsigned_spec tb x u Ht Hx Hu) )|].
  apply Forall_cons; [exact (conj (ubig_div_rem_ref_unsigned_zero tb x u Ht Hx Hu) (ubig_div_rem_ref_unsigned_spec tb x u Ht Hx Hu) )|].
  apply Forall_cons; [exact (conj (ubig_div_rem_unsigned_zero tb x u Ht Hx Hu) (ubig_div_rem_unsigned_spec tb x u Ht Hx Hu) )|].
  apply Forall_cons; [exact (conj (ubig_div_rem_ref_unsigned_zero tb x u Ht Hx Hu) (ubig_div_rem_ref_unsigned_spec tb x u Ht Hx Hu) )|].
  apply Forall_nil.
Qed.
Print Assumptions C38_ubig_div_rem_unsigned.

(** * UBig with signed primitives *)

Theorem C38_ubig_add_signed (A : Arch) (AOK : ArchOk A) (tb x : Z) (u : ubig) :
  prim_bits tb -> prim_range true tb x -> ubig_ok u ->
  Forall (fun f => yields_unsigned (f tb u x) (uval u + x))
    [ubig_add_signed; ubig_add_ref_signed; ubig_add_assign_signed].
Proof.
  intros Ht Hx Hu.
  apply Forall_cons; [exact (ubig_add_signed_yields tb x u Ht Hx Hu)|].
  apply Forall_cons; [exact (ubig_add_ref_signed_yields tb x u Ht Hx Hu)|].
  apply Forall_cons; [exact (ubig_add_assign_signed_yields tb x u Ht Hx Hu)|].
  apply Forall_nil.
Qed.
Print Assumptions C38_ubig_add_signed.

Theorem C38_ubig_sub_signed (A : Arch) (AOK : ArchOk A) (tb x : Z) (u : ubig) :
  prim_bits tb -> prim_range true tb x -> ubig_ok u ->
  Forall (fun f => yields_unsigned (f tb u x) (uval u - x))
    [ubig_sub_signed; ubig_sub_ref_signed; ubig_sub_assign_signed].
Proof.
  intros Ht Hx Hu.
  apply Forall_cons; [exact (ubig_sub_signed_yields tb x u Ht Hx Hu)|].
  apply Forall_cons; [exact (ubig_sub_ref_signed_yields tb x u Ht Hx Hu)|].
  apply Forall_cons; [exact (ubig_sub_assign_signed_yields tb x u Ht Hx Hu)|].
  apply Forall_nil.
Qed.
Print Assumptions C38_ubig_sub_signed.

Theorem C38_ubig_mul_signed (A : Arch) (AOK : ArchOk A) (tb x : Z) (u : ubig) :
  prim_bits tb -> prim_range true tb x -> ubig_ok u ->
  Forall (fun f => yields_unsigned (f tb u x) (uval u * x))
    [ubig_mul_signed; ubig_mul_ref_signed; ubig_mul_assign_signed].
Proof.
  intros Ht Hx Hu.
  apply Forall_cons; [exact (ubig_mul_signed_yields tb x u Ht Hx Hu)|].
  apply Forall_cons; [exact (ubig_mul_ref_signed_yields tb x u Ht Hx Hu)|].
  apply Forall_cons; [exact (ubig_mul_assign_signed_yields tb x u Ht Hx Hu)|].
  apply Forall_nil.
Qed.
Print Assumptions C38_ubig_mul_signed.

Theorem C38_ubig_and_signed (A : Arch) (AOK : ArchOk A) (tb x : Z) (u : ubig) :
  prim_bits tb -> prim_range true tb x -> ubig_ok u ->
  Forall (fun f => yields (f tb u x) (Z.land (uval u) x))
    [ubig_and_signed; ubig_and_ref_signed; ubig_and_assign_signed].
Proof.
  intros Ht Hx Hu.
  apply Forall_cons; [exact (ubig_and_signed_yields tb x u Ht Hx Hu)|].
  apply Forall_cons; [exact (ubig_and_ref_signed_yields tb x u Ht Hx Hu)|].
  apply Forall_cons; [exact (ubig_and_assign_signed_yields tb x u Ht Hx Hu)|].
  apply Forall_nil.
Qed.
Print Assumptions C38_ubig_and_signed.

Theorem C38_ubig_or_signed (A : Arch) (AOK : ArchOk A) (tb x : Z) (u : ubig) :
  prim_bits tb -> prim_range true tb x -> ubig_ok u ->
  Forall (fun f => yields_unsigned (f tb u x) (Z.lor (uval u) x))
    [ubig_or_signed; ubig_or_ref_signed; ubig_or_assign_signed].
Proof.
  intros Ht Hx Hu.
  apply Forall_cons; [exact (ubig_or_signed_yields tb x u Ht Hx Hu)|].
  apply Forall_cons; [exact (ubig_or_ref_signed_yields tb x u Ht Hx Hu)|].
  apply Forall_cons; [exact (ubig_or_assign_signed_yields tb x u Ht Hx Hu)|].
  apply Forall_nil.
Qed.
Print Assumptions C38_ubig_or_signed.

Theorem C38_ubig_xor_signed (A : Arch) (AOK : ArchOk A) (tb x : Z) (u : ubig) :
  prim_bits tb -> prim_range true tb x -> ubig_ok u ->
  Forall (fun f => yields_unsigned (f tb u x) (Z.lxor (uval u) x))
    [ubig_xor_signed; ubig_xor_ref_signed; ubig_xor_assign_signed].
Proof.
  intros Ht Hx Hu.
  apply Forall_cons; [exact (ubig_xor_signed_yields tb x u Ht Hx Hu)|].
  apply Forall_cons; [exact (ubig_xor_ref_signed_yields tb x u Ht Hx Hu)|].
  apply Forall_cons; [exact (ubig_xor_assign_signed_yields tb x u Ht Hx Hu)|].
  apply Forall_nil.
Qed.
Print Assumptions C38_ubig_xor_signed.

Theorem C38_ubig_and_not_signed (A : Arch) (AOK : ArchOk A) (tb x : Z) (u : ubig) :
  prim_bits tb -> prim_range true tb x -> ubig_ok u ->
  Forall (fun f => yields (f tb u x) (Z.ldiff (uval u) x))
    [ubig_and_not_signed; ubig_and_not_ref_signed].
Proof.
  intros Ht Hx Hu.
  apply Forall_cons; [exact (ubig_and_not_signed_yields tb x u Ht Hx Hu)|].
  apply Forall_cons; [exact (ubig_and_not_ref_signed_yields tb x u Ht Hx Hu)|].
  apply Forall_nil.
Qed.
Print Assumptions C38_ubig_and_not_signed.

Theorem C38_ubig_div_signed (A : Arch) (AOK : ArchOk A) (tb x : Z) (u : ubig) :
  prim_bits tb -> prim_range true tb x -> ubig_ok u ->
  Forall (fun f => udiv_yields x (f tb u x) (Z.quot (uval u) x))
    [ubig_div_signed; ubig_div_ref_signed; ubig_div_assign_signed].
Proof.
  intros Ht Hx Hu.
  apply Forall_cons; [exact (ubig_div_signed_yields tb x u Ht Hx Hu)|].
  apply Forall_cons; [exact (ubig_div_ref_signed_yields tb x u Ht Hx Hu)|].
  apply Forall_cons; [exact (ubig_div_assign_signed_yields tb x u Ht Hx Hu)|].
  apply Forall_nil.
Qed.
Print Assumptions C38_ubig_div_signed.

Theorem C38_ubig_div_euclid_signed (A : Arch) (AOK : ArchOk A) (tb x : Z) (u : ubig) :
  prim_bits tb -> prim_range true tb x -> ubig_ok u ->
  Forall (fun f => udiv_yields x (f tb u x) (ediv (uval u) x))
    [ubig_div_euclid_signed; ubig_div_euclid_ref_signed].
Proof.
  intros Ht Hx Hu.
  apply Forall_cons; [exact (ubig_div_euclid_signed_yields tb x u Ht Hx Hu)|].
  apply Forall_cons; [exact (ubig_div_euclid_ref_signed_yields tb x u Ht Hx Hu)|].
  apply Forall_nil.
Qed.
Print Assumptions C38_ubig_div_euclid_signed.

Theorem C38_ubig_rem_signed (A : Arch) (AOK : ArchOk A) (tb x : Z) (u : ubig) :
  prim_bits tb -> prim_range true tb x -> ubig_ok u ->
  Forall (fun f => pdiv_yields x (f tb u x) (Z.rem (uval u) x))
    [ubig_rem_signed; ubig_rem_ref_signed; ubig_rem_euclid_signed; ubig_rem_euclid_ref_signed].
Proof.
  intros Ht Hx Hu.
  apply Forall_cons; [exact (ubig_rem_signed_spec tb x u Ht Hx Hu)|].
  apply Forall_cons; [exact (ubig_rem_ref_signed_spec tb x u Ht Hx Hu)|].
  apply Forall_cons; [exact (ubig_rem_signed_spec tb x u Ht Hx Hu)|].
  apply Forall_cons; [exact (ubig_rem_ref_signed_spec tb x u Ht Hx Hu)|].
  apply Forall_nil.
Qed.
Print Assumptions C38_ubig_rem_signed.

Theorem C38_ubig_rem_assign_signed (A : Arch) (AOK : ArchOk A) (tb x : Z) (u : ubig) :
  prim_bits tb -> prim_range true tb x -> ubig_ok u ->
  Forall (fun f => div_yields x (f tb u x) (Z.rem (uval u) x))
    [ubig_rem_assign_signed].
Proof.
  intros Ht Hx Hu.
  apply Forall_cons; [exact (ubig_rem_assign_signed_yields tb x u Ht Hx Hu)|].
  apply Forall_nil.
Qed.
Print Assumptions C38_ubig_rem_assign_signed.

Theorem C38_ubig_div_rem_signed (A : Arch) (AOK : ArchOk A) (tb x : Z) (u : ubig) :
  prim_bits tb -> prim_range true tb x -> ubig_ok u ->
  Forall (fun f => udiv_rem_yields x (f tb u x) (Z.quot (uval u) x) (Z.rem (uval u) x))
    [ubig_div_rem_signed; ubig_div_rem_ref_signed].
Proof.
  intros Ht Hx Hu.
  apply Forall_cons; [exact (ubig_div_rem_signed_spec tb x u Ht Hx Hu)|].
  apply Forall_cons; [exact (ubig_div_rem_ref_signed_spec tb x u Ht Hx Hu)|].
  apply Forall_nil.
Qed.
Print Assumptions C38_ubig_div_rem_signed.

Theorem C38_ubig_div_rem_euclid_signed (A : Arch) (AOK : ArchOk A) (tb x : Z) (u : ubig) :
  prim_bits tb -> prim_range true tb x -> ubig_ok u ->
  Forall (fun f => udiv_rem_yields x (f tb u x) (ediv (uval u) x) (emod (uval u) x))
    [ubig_div_rem_euclid_signed; ubig_div_rem_euclid_ref_signed].
Proof.
  intros Ht Hx Hu.
  apply Forall_cons; [exact (ubig_div_rem_euclid_signed_spec tb x u Ht Hx Hu)|].
  apply Forall_cons; [exact (ubig_div_rem_euclid_ref_signed_spec tb x u Ht Hx Hu)|].
  apply Forall_nil.
Qed.
Print Assumptions C38_ubig_div_rem_euclid_signed.

(** * IBig with primitives *)

Theorem C38_ibig_add_primitive (A : Arch) (AOK : ArchOk A) (sg : bool) (tb x : Z) (y : ibig) :
  prim_bits tb -> prim_range sg tb x -> ibig_ok y ->
  Forall (fun f => iyields (f sg tb y x) (ival y + x))
    [ibig_add_primitive; ibig_add_ref_primitive; ibig_add_assign_primitive].
Proof.
  intros Ht Hx Hy.
  apply Forall_cons; [exact (ibig_add_primitive_yields sg tb x y Ht Hx Hy)|].
  apply Forall_cons; [exact (ibig_add_ref_primitive_yields sg tb x y Ht Hx Hy)|].
  apply Forall_cons; [exact (ibig_add_assign_primitive_yields sg tb x y Ht Hx Hy)|].
  apply Forall_nil.
Qed.
Print Assumptions C38_ibig_add_primitive.

Theorem C38_ibig_sub_primitive (A : Arch) (AOK : ArchOk A) (sg : bool) (tb x : Z) (y : ibig) :
  prim_bits tb -> prim_range sg tb x -> ibig_ok y ->
  Forall (fun f => iyields (f sg tb y x) (ival y - x))
    [ibig_sub_primitive; ibig_sub_ref_primitive; ibig_sub_assign_primitive].
Proof.
  intros Ht Hx Hy.
  apply Forall_cons; [exact (ibig_sub_primitive_yields sg tb x y Ht Hx Hy)|].
  apply Forall_cons; [exact (ibig_sub_ref_primitive_yields sg tb x y Ht Hx Hy)|].
  apply Forall_cons; [exact (ibig_sub_assign_primitive_yields sg tb x y Ht Hx Hy)|].
  apply Forall_nil.
Qed.
Print Assumptions C38_ibig_sub_primitive.

Theorem C38_ibig_mul_primitive (A : Arch) (AOK : ArchOk A) (sg : bool) (tb x : Z) (y : ibig) :
  prim_bits tb -> prim_range sg tb x -> ibig_ok y ->
  Forall (fun f => iyields (f sg tb y x) (ival y * x))
    [ibig_mul_primitive; ibig_mul_ref_primitive; ibig_mul_assign_primitive].
Proof.
  intros Ht Hx Hy.
  apply Forall_cons; [exact (ibig_mul_primitive_yields sg tb x y Ht Hx Hy)|].
  apply Forall_cons; [exact (ibig_mul_ref_primitive_yields sg tb x y Ht Hx Hy)|].
  apply Forall_cons; [exact (ibig_mul_assign_primitive_yields sg tb x y Ht Hx Hy)|].
  apply Forall_nil.
Qed.
Print Assumptions C38_ibig_mul_primitive.

Theorem C38_ibig_or_primitive (A : Arch) (AOK : ArchOk A) (sg : bool) (tb x : Z) (y : ibig) :
  prim_bits tb -> prim_range sg tb x -> ibig_ok y ->
  Forall (fun f => iyields (f sg tb y x) (Z.lor (ival y) x))
    [ibig_or_primitive; ibig_or_ref_primitive; ibig_or_assign_primitive].
Proof.
  intros Ht Hx Hy.
  apply Forall_cons; [exact (ibig_or_primitive_yields sg tb x y Ht Hx Hy)|].
  apply Forall_cons; [exact (ibig_or_ref_primitive_yields sg tb x y Ht Hx Hy)|].
  apply Forall_cons; [exact (ibig_or_assign_primitive_yields sg tb x y Ht Hx Hy)|].
  apply Forall_nil.
Qed.
Print Assumptions C38_ibig_or_primitive.

Theorem C38_ibig_xor_primitive (A : Arch) (AOK : ArchOk A) (sg : bool) (tb x : Z) (y : ibig) :
  prim_bits tb -> prim_range sg tb x -> ibig_ok y ->
  Forall (fun f => iyields (f sg tb y x) (Z.lxor (ival y) x))
    [ibig_xor_primitive; ibig_xor_ref_primitive; ibig_xor_assign_primitive].
Proof.
  intros Ht Hx Hy.
  apply Forall_cons; [exact (ibig_xor_primitive_yields sg tb x y Ht Hx Hy)|].
  apply Forall_cons; [exact (ibig_xor_ref_primitive_yields sg tb x y Ht Hx Hy)|].
  apply Forall_cons; [exact (ibig_xor_assign_primitive_yields sg tb x y Ht Hx Hy)|].
  apply Forall_nil.
Qed.
Print Assumptions C38_ibig_xor_primitive.

Theorem C38_ibig_and_not_primitive (A : Arch) (AOK : ArchOk A) (sg : bool) (tb x : Z) (y : ibig) :
  prim_bits tb -> prim_range sg tb x -> ibig_ok y ->
  Forall (fun f => iyields (f sg tb y x) (Z.ldiff (ival y) x))
    [ibig_and_not_primitive; ibig_and_not_ref_primitive].
Proof.
  intros Ht Hx Hy.
  apply Forall_cons; [exact (ibig_and_not_primitive_yields sg tb x y Ht Hx Hy)|].
  apply Forall_cons; [exact (ibig_and_not_ref_primitive_yields sg tb x y Ht Hx Hy)|].
  apply Forall_nil.
Qed.
Print Assumptions C38_ibig_and_not_primitive.

Theorem C38_ibig_div_primitive (A : Arch) (AOK : ArchOk A) (sg : bool) (tb x : Z) (y : ibig) :
  prim_bits tb -> prim_range sg tb x -> ibig_ok y ->
  Forall (fun f => idiv_yields x (f sg tb y x) (Z.quot (ival y) x))
    [ibig_div_primitive; ibig_div_ref_primitive; ibig_div_assign_primitive].
Proof.
  intros Ht Hx Hy.
  apply Forall_cons; [exact (ibig_div_primitive_yields sg tb x y Ht Hx Hy)|].
  apply Forall_cons; [exact (ibig_div_ref_primitive_yields sg tb x y Ht Hx Hy)|].
  apply Forall_cons; [exact (ibig_div_assign_primitive_yields sg tb x y Ht Hx Hy)|].
  apply Forall_nil.
Qed.
Print Assumptions C38_ibig_div_primitive.

Theorem C38_ibig_div_euclid_primitive (A : Arch) (AOK : ArchOk A) (sg : bool) (tb x : Z) (y : ibig) :
  prim_bits tb -> prim_range sg tb x -> ibig_ok y ->
  Forall (fun f => idiv_yields x (f sg tb y x) (ediv (ival y) x))
    [ibig_div_euclid_primitive; ibig_div_euclid_ref_primitive].
Proof.
  intros Ht Hx Hy.
  apply Forall_cons; [exact (ibig_div_euclid_primitive_yields sg tb x y Ht Hx Hy)|].
  apply Forall_cons; [exact (ibig_div_euclid_ref_primitive_yields sg tb x y Ht Hx Hy)|].
  apply Forall_nil.
Qed.
Print Assumptions C38_ibig_div_euclid_primitive.

Theorem C38_ibig_and_assign_primitive (A : Arch) (AOK : ArchOk A) (sg : bool) (tb x : Z) (y : ibig) :
  prim_bits tb -> prim_range sg tb x -> ibig_ok y ->
  Forall (fun f => iyields (f sg tb y x) (Z.land (ival y) x))
    [ibig_and_assign_primitive].
Proof.
  intros Ht Hx Hy.
  apply Forall_cons; [exact (ibig_and_assign_primitive_yields sg tb x y Ht Hx Hy)|].
  apply Forall_nil.
Qed.
Print Assumptions C38_ibig_and_assign_primitive.

Theorem C38_primitive_sub_ibig (A : Arch) (AOK : ArchOk A) (sg : bool) (tb x : Z) (y : ibig) :
  prim_bits tb -> prim_range sg tb x -> ibig_ok y ->
  Forall (fun f => iyields (f sg tb y x) (x - ival y))
    [ibig_sub_from_primitive; ibig_sub_ref_from_primitive].
Proof.
  intros Ht Hx Hy.
  apply Forall_cons; [exact (ibig_sub_from_primitive_yields sg tb x y Ht Hx Hy)|].
  apply Forall_cons; [exact (ibig_sub_ref_from_primitive_yields sg tb x y Ht Hx Hy)|].
  apply Forall_nil.
Qed.
Print Assumptions C38_primitive_sub_ibig.

Theorem C38_ibig_rem_assign_primitive (A : Arch) (AOK : ArchOk A) (sg : bool) (tb x : Z) (y : ibig) :
  prim_bits tb -> prim_range sg tb x -> ibig_ok y ->
  Forall (fun f => idiv_yields x (f sg tb y x) (Z.rem (ival y) x))
    [ibig_rem_assign_primitive].
Proof.
  intros Ht Hx Hy.
  apply Forall_cons; [exact (ibig_rem_assign_primitive_yields sg tb x y Ht Hx Hy)|].
  apply Forall_nil.
Qed.
Print Assumptions C38_ibig_rem_assign_primitive.

Theorem C38_ibig_rem_euclid_primitive (A : Arch) (AOK : ArchOk A) (sg : bool) (tb x : Z) (y : ibig) :
  prim_bits tb -> prim_range sg tb x -> ibig_ok y ->
  Forall (fun f => pdiv_yields x (f sg tb y x) (emod (ival y) x))
    [ibig_rem_euclid_primitive; ibig_rem_euclid_ref_primitive].
Proof.
  intros Ht Hx Hy.
  apply Forall_cons; [exact (ibig_rem_euclid_primitive_spec sg tb x y Ht Hx Hy)|].
  apply Forall_cons; [exact (ibig_rem_euclid_ref_primitive_spec sg tb x y Ht Hx Hy)|].
  apply Forall_nil.
Qed.
Print Assumptions C38_ibig_rem_euclid_primitive.

Theorem C38_ibig_div_rem_euclid_primitive (A : Arch) (AOK : ArchOk A) (sg : bool) (tb x : Z) (y : ibig) :
  prim_bits tb -> prim_range sg tb x -> ibig_ok y ->
  Forall (fun f => ipdiv_rem_yields x (f sg tb y x) (ediv (ival y) x) (emod (ival y) x))
    [ibig_div_rem_euclid_primitive; ibig_div_rem_euclid_ref_primitive].
Proof.
  intros Ht Hx Hy.
  apply Forall_cons; [exact (ibig_div_rem_euclid_primitive_spec sg tb x y Ht Hx Hy)|].
  apply Forall_cons; [exact (ibig_div_rem_euclid_ref_primitive_spec sg tb x y Ht Hx Hy)|].
  apply Forall_nil.
Qed.
Print Assumptions C38_ibig_div_rem_euclid_primitive.

Theorem C38_ibig_and_unsigned (A : Arch) (AOK : ArchOk A) (tb x : Z) (y : ibig) :
  prim_bits tb -> prim_range false tb x -> ibig_ok y ->
  Forall (fun f => f tb y x = Ok (Z.land (ival y) x))
    [ibig_and_unsigned; ibig_and_ref_unsigned].
Proof.
  intros Ht Hx Hy.
  apply Forall_cons; [exact (ibig_and_unsigned_spec tb x y Ht Hx Hy)|].
  apply Forall_cons; [exact (ibig_and_ref_unsigned_spec tb x y Ht Hx Hy)|].
  apply Forall_nil.
Qed.
Print Assumptions C38_ibig_and_unsigned.

Theorem C38_ibig_rem_unsigned (A : Arch) (AOK : ArchOk A) (tb x : Z) (y : ibig) :
  prim_bits tb -> prim_range false tb x -> ibig_ok y ->
  Forall (fun f => idiv_yields x (f tb y x) (Z.rem (ival y) x))
    [ibig_rem_unsigned; ibig_rem_ref_unsigned].
Proof.
  intros Ht Hx Hy.
  apply Forall_cons; [exact (ibig_rem_unsigned_yields tb x y Ht Hx Hy)|].
  apply Forall_cons; [exact (ibig_rem_ref_unsigned_yields tb x y Ht Hx Hy)|].
  apply Forall_nil.
Qed.
Print Assumptions C38_ibig_rem_unsigned.

Theorem C38_ibig_div_rem_unsigned (A : Arch) (AOK : ArchOk A) (tb x : Z) (y : ibig) :
  prim_bits tb -> prim_range false tb x -> ibig_ok y ->
  Forall (fun f => idiv_rem_yields x (f tb y x) (Z.quot (ival y) x) (Z.rem (ival y) x))
    [ibig_div_rem_unsigned; ibig_div_rem_ref_unsigned].
Proof.
  intros Ht Hx Hy.
  apply Forall_cons; [exact (ibig_div_rem_unsigned_yields tb x y Ht Hx Hy)|].
  apply Forall_cons; [exact (ibig_div_rem_ref_unsigned_yields tb x y Ht Hx Hy)|].
  apply Forall_nil.
Qed.
Print Assumptions C38_ibig_div_rem_unsigned.

Theorem C38_ibig_and_signed (A : Arch) (AOK : ArchOk A) (tb x : Z) (y : ibig) :
  prim_bits tb -> prim_range true tb x -> ibig_ok y ->
  Forall (fun f => iyields (f tb y x) (Z.land (ival y) x))
    [ibig_and_signed; ibig_and_ref_signed].
Proof.
  intros Ht Hx Hy.
  apply Forall_cons; [exact (ibig_and_signed_yields tb x y Ht Hx Hy)|].
  apply Forall_cons; [exact (ibig_and_ref_signed_yields tb x y Ht Hx Hy)|].
  apply Forall_nil.
Qed.
Print Assumptions C38_ibig_and_signed.

Theorem C38_ibig_rem_signed (A : Arch) (AOK : ArchOk A) (tb x : Z) (y : ibig) :
  prim_bits tb -> prim_range true tb x -> ibig_ok y ->
  Forall (fun f => pdiv_yields x (f tb y x) (Z.rem (ival y) x))
    [ibig_rem_signed; ibig_rem_ref_signed].
Proof.
  intros Ht Hx Hy.
  apply Forall_cons; [exact (ibig_rem_signed_spec tb x y Ht Hx Hy)|].
  apply Forall_cons; [exact (ibig_rem_ref_signed_spec tb x y Ht Hx Hy)|].
  apply Forall_nil.
Qed.
Print Assumptions C38_ibig_rem_signed.

Theorem C38_ibig_div_rem_signed (A : Arch) (AOK : ArchOk A) (tb x : Z) (y : ibig) :
  prim_bits tb -> prim_range true tb x -> ibig_ok y ->
  Forall (fun f => ipdiv_rem_yields x (f tb y x) (Z.quot (ival y) x) (Z.rem (ival y) x))
    [ibig_div_rem_signed; ibig_div_rem_ref_signed].
Proof.
  intros Ht Hx Hy.
  apply Forall_cons; [exact (ibig_div_rem_signed_spec tb x y Ht Hx Hy)|].
  apply Forall_cons; [exact (ibig_div_rem_ref_signed_spec tb x y Ht Hx Hy)|].
  apply Forall_nil.
Qed.
Print Assumptions C38_ibig_div_rem_signed.

Example C38_values : let A := arch32 in
  let a := lg [5; 0; 1] in
  ubig_ok a /\ uresult (ubig_sub_signed 8 a (-128)) = Ok (2 ^ 64 + 133) /\ ubig_and_unsigned 8 a 255 = Ok 5 /\
  ubig_rem_signed 64 a (- 2 ^ 63) = Ok 5 /\ ubig_add_signed 8 (Small 3) (-4) = Panic NegativeUBig /\
  ibig_rem_signed 64 (neg a) (- 2 ^ 63) = Ok (-5) /\ ibig_rem_euclid_primitive true 8 (neg a) (-128) = Ok 123 /\
  ubig_div_rem_unsigned 8 a 0 = Panic DivideByZero /\ ibig_and_unsigned 128 (neg a) (2 ^ 128 - 1) = Ok (2 ^ 128 - 2 ^ 64 - 5).
Proof. cbv zeta. sample. Qed.

