(** C21: conversions with primitive integers. *)
From Verif Require Import Model.Base Model.Words Model.Memory Model.FastDivide Model.Mul Model.Div Model.Buffer Model.UBig Model.IBig Model.Convert Model.AddOps Model.MulOps Model.ShiftOps Model.Bits Model.DivOps Model.PrimOps
  Spec.Val Spec.Num Spec.Prim Spec.Digits
  Proofs.ConvertProofs Proofs.ApiProofs Proofs.PrimOpsProofs Proofs.BufferProofs Proofs.Bounds Proofs.ApiProofs Proofs.Samples.

Theorem C21_from_primitive (A : Arch) (AOK : ArchOk A) (tb x : Z) : prim_bits tb ->
  (prim_range false tb x -> returns (ubig_from_unsigned tb x) x /\ ireturns (ibig_from_unsigned tb x) x) /\
  (prim_range true tb x -> ireturns (ibig_from_signed tb x) x /\
     (0 <= x -> exists u, ubig_try_from_signed tb x = Ok (Some u) /\ ubig_ok u /\ uval u = x) /\
     (x < 0 -> ubig_try_from_signed tb x = Ok None)).
Proof. exact (from_primitive_full tb x). Qed.
Print Assumptions C21_from_primitive.

Theorem C21_from_bool (A : Arch) (AOK : ArchOk A) (b : bool) :
  returns (ubig_from_bool b) (Z.b2z b) /\ ireturns (ibig_from_bool b) (Z.b2z b).
Proof. exact (from_bool_full b). Qed.
Print Assumptions C21_from_bool.

(** Conversion to a primitive type: the value when it is in range, an error otherwise, never a panic. *)
Theorem C21_ubig_to_primitive (A : Arch) (AOK : ArchOk A) (tb : Z) (u : ubig) : prim_bits tb -> ubig_ok u ->
  (prim_range false tb (uval u) -> ubig_try_to_unsigned tb u = Ok (Some (uval u))) /\
  (~ prim_range false tb (uval u) -> ubig_try_to_unsigned tb u = Ok None) /\
  (prim_range true tb (uval u) -> ubig_try_to_signed tb u = Ok (Some (uval u))) /\
  (~ prim_range true tb (uval u) -> ubig_try_to_signed tb u = Ok None).
Proof. exact (ubig_to_primitive tb u). Qed.
Print Assumptions C21_ubig_to_primitive.

Theorem C21_ibig_to_primitive (A : Arch) (AOK : ArchOk A) (tb : Z) (x : ibig) : prim_bits tb -> ibig_ok x ->
  (prim_range false tb (ival x) -> ibig_try_to_unsigned tb x = Ok (Some (ival x))) /\
  (~ prim_range false tb (ival x) -> ibig_try_to_unsigned tb x = Ok None) /\
  (prim_range true tb (ival x) -> ibig_try_to_signed tb x = Ok (Some (ival x))) /\
  (~ prim_range true tb (ival x) -> ibig_try_to_signed tb x = Ok None).
Proof. exact (ibig_to_primitive tb x). Qed.
Print Assumptions C21_ibig_to_primitive.

Theorem C21_ibig_from_ubig (A : Arch) (AOK : ArchOk A) (u : ubig) : ubig_ok u ->
  ireturns (Ok (ibig_from_ubig u)) (uval u) /\ ireturns (ibig_from_ubig_ref u) (uval u).
Proof. exact (ibig_from_ubig_full u). Qed.
Print Assumptions C21_ibig_from_ubig.

Theorem C21_ubig_from_ibig (A : Arch) (AOK : ArchOk A) (x : ibig) : ibig_ok x ->
  (0 <= ival x -> (exists u, ubig_try_from_ibig x = Some u /\ ubig_ok u /\ uval u = ival x) /\
                  (exists u, ubig_try_from_ibig_ref x = Ok (Some u) /\ ubig_ok u /\ uval u = ival x)) /\
  (ival x < 0 -> ubig_try_from_ibig x = None /\ ubig_try_from_ibig_ref x = Ok None).
Proof. exact (ubig_from_ibig_full x). Qed.
Print Assumptions C21_ubig_from_ibig.

Example C21_values : let A := arch32 in
  let a := lg [0; 0; 1] in
  ubig_ok a /\ uresult (ubig_from_unsigned 128 (2 ^ 128 - 1)) = Ok (2 ^ 128 - 1) /\ ubig_try_to_unsigned 64 a = Ok None /\
  ubig_try_to_unsigned 128 a = Ok (Some (2 ^ 64)) /\ ibig_try_to_signed 8 (neg (Small 128)) = Ok (Some (-128)) /\
  ibig_try_to_signed 8 (pos (Small 128)) = Ok None /\ iresult (ibig_from_signed 64 (- 2 ^ 63)) = Ok (- 2 ^ 63).
Proof. cbv zeta. sample. Qed.

