(** C52: programs behave alike on all platforms. *)
From Verif Require Import Model.Base Model.Words Model.Memory Model.FastDivide Model.Mul Model.Div Model.Buffer Model.UBig Model.IBig Model.Convert Model.AddOps Model.MulOps Model.ShiftOps Model.Bits Model.DivOps Model.PrimOps Model.Gcd Model.Pow Model.Program
  Spec.Val Spec.Num Spec.Prim Spec.Digits Spec.Ideal Spec.Portable
  Proofs.Basics Proofs.Bounds Proofs.PortableProofs Proofs.Samples.

(** Two platforms of any word size and address size start the same program with
    equal numbers.  They make the same observations and end with equal numbers, or
    stop with the same panic, unless one of them stops because a number is too large
    for it. *)
Theorem C52_portable (A1 A2 : Arch) (O1 : ArchOk A1) (O2 : ArchOk A2) (n : nat) (c : client) (tr : list obs) (st1 st2 : state) :
  client_ok (A := A1) c -> client_ok (A := A2) c -> small_bits c ->
  well_formed (A := A1) st1 -> well_formed (A := A2) st2 ->
  (forall k, uval (A := A1) (us st1 k) = uval (A := A2) (us st2 k)) ->
  (forall k, ival (A := A1) (is st1 k) = ival (A := A2) (is st2 k)) ->
  same_outcome A1 A2 (run (A := A1) n c tr st1) (run (A := A2) n c tr st2).
Proof. exact (run_alike A1 A2 n c tr st1 st2). Qed.
Print Assumptions C52_portable.

(** 3^40 - 1, cleared bit 5, its length, and one of its bits. *)
Definition portable_client : client := fun tr =>
  match length tr with
  | 0%nat => Some (IUConst 8 3 0)
  | 1%nat => Some (IUPow 0 0 40)
  | 2%nat => Some (IUPrim PSub false 0 8 1 0 0)
  | 3%nat => Some (IUClearBit 0 5)
  | 4%nat => Some (OUBitLen 0)
  | 5%nat => Some (OUBit 0 36)
  | _ => None
  end.

Example C52_hypotheses : client_ok (A := arch16) portable_client /\ client_ok (A := arch64) portable_client /\ small_bits portable_client /\
  well_formed (A := arch16) start /\ well_formed (A := arch64) start.
Proof.
  assert (forall A, ArchOk A -> client_ok (A := A) portable_client) as C.
  { intros A O tr i. assert (2 ^ 8 <= 2 ^ ubits) by (pose proof (ubits_ge (A := A)); apply Z.pow_le_mono_r; lia).
    destruct tr as [|? [|? [|? [|? [|? [|? ?]]]]]]; unfold portable_client; cbn [length]; intros [= <-]; cbn; unfold prim_bits, prim_range; lia. }
  split; [apply C, arch16_ok|]. split; [apply C, arch64_ok|]. split.
  { intros tr d k. destruct tr as [|? [|? [|? [|? [|? [|? ?]]]]]]; unfold portable_client; cbn [length]; try discriminate. intros [= _ <-]. lia. }
  split; apply ProgramProofs.start_ok.
Qed.

Example C52_runs :
  match run (A := arch16) 9 portable_client [] start, run (A := arch32) 9 portable_client [] start with
  | Ok (t1, s1), Ok (t2, s2) => t1 = t2 /\ t1 = [OBool true; ONum 64; ONone; ONone; ONone; ONone] /\
      uval (A := arch16) (us s1 0) = 3 ^ 40 - 1 - 2 ^ 5 /\ uval (A := arch32) (us s2 0) = 3 ^ 40 - 1 - 2 ^ 5
  | _, _ => False
  end.
Proof. vm_compute. auto. Qed.
