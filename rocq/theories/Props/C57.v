(** C57: a program that works on one platform works on every much larger one. *)
From Coq Require Import Lia.
From Verif Require Import Model.Base Model.Buffer Model.UBig Model.IBig Model.Parse Model.Fmt Model.Modular Model.ModularFmt Model.Program Model.Client
  Spec.Val Spec.Num Spec.Digits Spec.FmtText Spec.Ideal Spec.Abstract Spec.PortableApp
  Proofs.ClientProofs Proofs.PortableAppProofs Proofs.Roomier Proofs.Samples Proofs.TextSamples.

(** The second platform has numbers of more than eight times as many bits as the first
    one has addresses.  A client that ends on the first platform ends on the second one,
    after the same observations and in a state with the same meaning; if it stops on the
    first platform it stops on the second one with the same panic, unless the first
    platform is short of space.  The second platform's own limits never interfere: not
    those of scratch memory (C51), of shifted numbers (C31), of coefficients (C24), nor
    those of texts (C26). *)
Theorem C57_carried_over (A1 A2 : Arch) (O1 : ArchOk A1) (O2 : ArchOk A2) (be1 be2 : bool) (n : nat) (c : app) (tr : list seen)
  (w1 w2 : world) (s : aworld) :
  roomier A1 A2 -> app_ok (A := A1) c -> portable_app c -> depicts (A := A1) w1 s -> depicts (A := A2) w2 s ->
  carried_over A1 A2 (call_run (A := A1) be1 n c tr w1) (call_run (A := A2) be2 n c tr w2).
Proof. intros RM C1 P. exact (call_run_carried A1 A2 RM be1 be2 n c C1 P tr w1 w2 s). Qed.
Print Assumptions C57_carried_over.

(** From 16-bit to 32-bit machines, and from those to 64-bit ones. *)
Example C57_roomier : roomier arch16 arch32 /\ roomier arch32 arch64.
Proof. split; vm_compute; discriminate. Qed.

(** A power of 70000 modulo 100003, its Bezout coefficient, and a division by zero. *)
Definition power_client : app := fun tr =>
  match List.length tr with
  | 0%nat => Some (CBase (IUConst 32 100003 0))
  | 1%nat => Some (CRing 0 0)
  | 2%nat => Some (CBase (IUConst 32 70000 1))
  | 3%nat => Some (CMFromU true 0 0 1)
  | 4%nat => Some (CMPow 0 0 1)
  | 5%nat => Some (CMResidue 1 0)
  | 6%nat => Some (CUExtGcd 2 0 1 0 1)
  | 7%nat => Some (CIText TDisplay (mkFormatter 32 None None false false false) 0)
  | 8%nat => Some (CBase (IUDivRem 0 2 3 0 4))
  | _ => None
  end.

Example C57_hypotheses : app_ok (A := arch16) power_client /\ portable_app power_client /\
  depicts (A := arch16) empty aempty /\ depicts (A := arch32) empty aempty.
Proof.
  split; [|split].
  - intros tr c. unfold power_client. do 9 (destruct tr as [|? tr]; [cbn [List.length]; intros [= <-]; cbn; unfold Prim.prim_bits, Prim.prim_range, width_ok; cbn; first [lia|discriminate]|]). discriminate.
  - intros tr c. unfold power_client. do 9 (destruct tr as [|? tr]; [cbn [List.length]; intros [= <-]; exact I|]). discriminate.
  - split; apply empty_depicts.
Qed.

Example C57_runs :
  match call_run (A := arch16) false 8 power_client [] empty, call_run (A := arch32) true 8 power_client [] empty with
  | Ok (t1, w1), Ok (t2, w2) => t1 = t2 /\ hd (Base ONone) t1 = Text (txt "23259") /\ uval (A := arch16) (us (nums w1) 1%nat) = 51208
  | _, _ => False
  end /\
  call_run (A := arch16) false 9 power_client [] empty = Panic DivideByZero /\ call_run (A := arch32) true 9 power_client [] empty = Panic DivideByZero.
Proof. vm_compute. auto. Qed.
