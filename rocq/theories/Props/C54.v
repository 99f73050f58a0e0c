(** C54: all programs that use the library behave alike on all platforms. *)
From Coq Require Import Lia.
From Verif Require Import Model.Base Model.Buffer Model.UBig Model.IBig Model.Parse Model.Fmt Model.Modular Model.ModularFmt Model.Program Model.Client
  Spec.Val Spec.Num Spec.Digits Spec.FmtText Spec.Ideal Spec.Abstract Spec.PortableApp
  Proofs.ClientProofs Proofs.PortableAppProofs Proofs.Samples Proofs.TextSamples.

(** Two platforms of any word size, address size and byte order run the same client
    from states with the same meaning.  They show the same texts, errors, floating-point
    bits and serialized forms and end in states with the same meaning, or stop with the
    same panic, unless one of them stops because a number, or the memory for a product
    modulo a number, is too large for it. *)
Theorem C54_portable (A1 A2 : Arch) (O1 : ArchOk A1) (O2 : ArchOk A2) (be1 be2 : bool) (n : nat) (c : app) (tr : list seen)
  (w1 w2 : world) (s : aworld) :
  app_ok (A := A1) c -> app_ok (A := A2) c -> portable_app c -> depicts (A := A1) w1 s -> depicts (A := A2) w2 s ->
  same_ending A1 A2 (call_run (A := A1) be1 n c tr w1) (call_run (A := A2) be2 n c tr w2).
Proof. intros C1 C2 P. exact (call_run_alike A1 A2 be1 be2 n c C1 C2 P tr w1 w2 s). Qed.
Print Assumptions C54_portable.

(** States with the same meaning hold the same numbers and residues. *)
Theorem C54_same_numbers (A1 A2 : Arch) (O1 : ArchOk A1) (O2 : ArchOk A2) (w1 w2 : world) (s : aworld) :
  depicts (A := A1) w1 s -> depicts (A := A2) w2 s ->
  (forall k, uval (A := A1) (us (nums w1) k) = uval (A := A2) (us (nums w2) k)) /\
  (forall k, ival (A := A1) (is (nums w1) k) = ival (A := A2) (is (nums w2) k)).
Proof. exact (same_numbers A1 A2 w1 w2 s). Qed.
Print Assumptions C54_same_numbers.

(** A number of two 16-bit words as text, as a float, serialized, and as a residue. *)
Definition visit : app := fun tr =>
  match List.length tr with
  | 0%nat => Some (CIParse 7 (txt "-54321000000") 0)
  | 1%nat => Some (CIText TUpperHex (mkFormatter 32 None None false true false) 0)
  | 2%nat => Some (CIFloat true 0)
  | 3%nat => Some (CISer 0)
  | 4%nat => Some (CBase (IUConst 32 100000 0))
  | 5%nat => Some (CRing 0 0)
  | 6%nat => Some (CMFromI true 0 0 0)
  | 7%nat => Some (CMText TDisplay (mkFormatter 32 None None false false false) 0)
  | _ => None
  end.

Example C54_hypotheses : app_ok (A := arch16) visit /\ app_ok (A := arch64) visit /\ portable_app visit /\
  depicts (A := arch16) empty aempty /\ depicts (A := arch64) empty aempty.
Proof.
  assert (forall A, ArchOk A -> app_ok (A := A) visit) as C.
  { intros A O tr c. assert (2 ^ 15 <= 2 ^ (ubits - 1)) by (pose proof (Basics.ubits_ge (A := A)); apply Z.pow_le_mono_r; lia).
    unfold visit. do 8 (destruct tr as [|? tr]; [cbn [List.length]; intros [= <-]; cbn; unfold Prim.prim_bits, Prim.prim_range, width_ok; cbn; solve [lia | auto 10 | discriminate | vm_compute; auto]|]).
    discriminate. }
  split; [apply C, arch16_ok|]. split; [apply C, arch64_ok|]. split.
  { intros tr c. unfold visit. do 8 (destruct tr as [|? tr]; [cbn [List.length]; intros [= <-]; exact I|]). discriminate. }
  split; apply empty_depicts.
Qed.

Example C54_runs :
  match call_run (A := arch16) false 9 visit [] empty, call_run (A := arch32) true 9 visit [] empty with
  | Ok (t1, w1), Ok (t2, w2) => t1 = t2 /\ List.length t1 = 8%nat /\ nth 0 t1 (Base ONone) = Text (txt "50189 (mod 100000)") /\
      nth 6 t1 (Base ONone) = Text (txt "-0x5EF0F593")
  | _, _ => False
  end.
Proof. vm_compute. auto. Qed.
