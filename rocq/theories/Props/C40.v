(** C40: cloning is faithful. *)
From Verif Require Import Model.Base Model.Words Model.Memory Model.FastDivide Model.Mul Model.Div Model.Buffer Model.UBig Model.IBig Model.Convert Model.AddOps Model.MulOps Model.ShiftOps Model.Bits Model.DivOps Model.PrimOps
  Spec.Val Spec.Num Spec.Prim Spec.Digits
  Proofs.BufferProofs Proofs.ApiProofs Proofs.Bounds Proofs.CloneProofs Proofs.Samples.

Theorem C40_clone (A : Arch) (AOK : ArchOk A) (u : ubig) (x : ibig) :
  ubig_ok u -> ibig_ok x -> returns (ubig_clone u) (uval u) /\ ireturns (ibig_clone x) (ival x).
Proof. exact (fun Hu Hx => conj (ubig_clone_spec u Hu) (ibig_clone_spec x Hx)). Qed.
Print Assumptions C40_clone.

Theorem C40_clone_from (A : Arch) (AOK : ArchOk A) (u v : ubig) (x y : ibig) :
  ubig_ok u -> ubig_ok v -> ibig_ok x -> ibig_ok y ->
  returns (ubig_clone_from u v) (uval v) /\ ireturns (ibig_clone_from x y) (ival y).
Proof. exact (fun Hu Hv Hx Hy => conj (clone_from_spec u v Hu Hv) (iclone_from_spec x y Hx Hy)). Qed.
Print Assumptions C40_clone_from.

(** The history of the source does not matter: copies of equal numbers have the same
    representation and capacity. *)
Theorem C40_history (A : Arch) (AOK : ArchOk A) :
  (forall u v, ubig_ok u -> ubig_ok v -> uval u = uval v -> ubig_clone u = ubig_clone v) /\
  (forall u v w, ubig_ok v -> ubig_ok w -> uval v = uval w -> ubig_clone_from u v = ubig_clone_from u w) /\
  (forall x y, ibig_ok x -> ibig_ok y -> ival x = ival y -> ibig_clone x = ibig_clone y).
Proof. exact (conj clone_same (conj clone_from_same iclone_same)). Qed.
Print Assumptions C40_history.

Example C40_history_case : let A := arch16 in
  let a := Large (mkBuffer [5; 6; 7] 3) in let b := Large (mkBuffer [5; 6; 7] 7) in
  ubig_ok a /\ ubig_ok b /\ uval a = uval b /\ a <> b /\ ubig_clone b = Ok (Large (mkBuffer [5; 6; 7] 5)).
Proof. cbv zeta. split; [sample|]. split; [sample|]. split; [reflexivity|]. split; [discriminate|sample]. Qed.

(** The destination buffer is reused when it is neither too small nor too large. *)
Example C40_values : let A := arch64 in
  let a := Large (mkBuffer (repeat 1 100) 110) in let b := Large (mkBuffer [5; 6; 7] 3) in
  ubig_ok a /\ ubig_ok b /\ ubig_clone_from a b = Ok (Large (mkBuffer [5; 6; 7] 5)) /\
  ubig_clone_from (Large (mkBuffer [1; 2] 6)) (Large (mkBuffer [3; 4] 3)) = Ok (Large (mkBuffer [3; 4] 6)) /\
  ubig_clone_from (Small 3) b = Ok (Large (mkBuffer [5; 6; 7] 5)).
Proof. cbv zeta. sample. Qed.

