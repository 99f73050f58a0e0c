(** C12: ordering is the numeric order. *)
From Verif Require Import Model.Base Model.Words Model.Memory Model.FastDivide Model.Mul Model.Div Model.Buffer Model.UBig Model.IBig Model.Convert Model.AddOps Model.MulOps Model.ShiftOps Model.Bits Model.DivOps Model.PrimOps
  Spec.Val Spec.Num Spec.Prim Spec.Digits
  Proofs.BufferProofs Proofs.Bounds Proofs.ApiProofs Proofs.Samples.

Theorem C12_ubig_cmp (A : Arch) (AOK : ArchOk A) (a b : ubig) :
  ubig_ok a -> ubig_ok b -> ubig_cmp a b = Ok (uval a ?= uval b).
Proof. exact (ubig_cmp_spec a b). Qed.
Print Assumptions C12_ubig_cmp.

Theorem C12_ibig_cmp (A : Arch) (AOK : ArchOk A) (x y : ibig) :
  ibig_ok x -> ibig_ok y -> ibig_cmp x y = Ok (ival x ?= ival y).
Proof. exact (ibig_cmp_spec x y). Qed.
Print Assumptions C12_ibig_cmp.

Example C12_values : let A := arch64 in
  let a := lg [9; 1] in let b := lg [3; 2] in
  ubig_ok a /\ ubig_ok b /\ ubig_cmp a b = Ok Lt /\ ibig_cmp (neg a) (neg b) = Ok Gt /\
  ibig_cmp (neg a) (pos (Small 0)) = Ok Lt /\ ubig_cmp (Small 7) a = Ok Lt.
Proof. cbv zeta. sample. Qed.

