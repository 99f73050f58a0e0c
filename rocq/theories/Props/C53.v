(** C53: every program that uses the library behaves as if it calculated with integers
    and residues. *)
From Coq Require Import Lia.
From Verif Require Import Model.Base Model.Buffer Model.UBig Model.IBig Model.Parse Model.Fmt Model.Modular Model.ModularFmt Model.Program Model.Client
  Spec.Val Spec.Num Spec.Digits Spec.FmtText Spec.Ideal Spec.Abstract
  Proofs.ClientProofs Proofs.Samples Proofs.TextSamples.

(** A client makes [n] calls, chosen from what it has seen so far.  The outcome is one
    of the outcomes of the abstract machine, which has integers, moduli and residues in
    its variables; and the variables of the library still hold what those of the machine
    say. *)
Theorem C53_refines (A : Arch) (AOK : ArchOk A) (be : bool) (n : nat) (c : app) (tr : list seen) (w : world) (s : aworld) :
  app_ok c -> depicts w s ->
  match call_run be n c tr w with
  | Ok (tr', w') => exists s', allowed_run n c tr s (Ok (tr', s')) /\ depicts w' s'
  | Panic p => allowed_run n c tr s (Panic p)
  end.
Proof. intros C. exact (call_run_sim be n c C tr w s). Qed.
Print Assumptions C53_refines.

Theorem C53_start (A : Arch) (AOK : ArchOk A) : depicts empty aempty.
Proof. exact empty_depicts. Qed.
Print Assumptions C53_start.

(** The program ends or stops with one of the panics that the documentation names or
    because a block of memory would not fit the address space: it never fails an
    assertion, uses more scratch memory than it has allocated or accesses an index that
    is out of bounds. *)
Theorem C53_panics (A : Arch) (AOK : ArchOk A) (be : bool) (n : nat) (c : app) (tr : list seen) (w : world) (p : panic) :
  app_ok c -> (exists s, depicts w s) -> call_run be n c tr w = Panic p -> documented p.
Proof. exact (call_run_panics be n c tr w p). Qed.
Print Assumptions C53_panics.

(** The abstract machine leaves no choice, except for the four kinds of calls that
    [settled] excludes. *)
Theorem C53_one_outcome (A : Arch) (AOK : ArchOk A) (c : call) (w : world) (s : aworld) (o1 o2 : aoutcome) :
  depicts w s -> settled c s -> allowed c s o1 -> allowed c s o2 -> o1 = o2.
Proof. exact (allowed_unique c w s o1 o2). Qed.
Print Assumptions C53_one_outcome.

(** A session: a ring with modulus 1000003, a power in it, its inverse, the product. *)
Definition session : app := fun tr =>
  match List.length tr with
  | 0%nat => Some (CUParse 10 (txt "+1000003") 0)
  | 1%nat => Some (CRing 0 0)
  | 2%nat => Some (CUParsePrefix (txt "0x2a") 1)
  | 3%nat => Some (CMFromU false 0 0 1)
  | 4%nat => Some (CBase (IUConst 32 70000 2))
  | 5%nat => Some (CMPow 1 0 2)
  | 6%nat => Some (CMInverse 2 1)
  | 7%nat => Some (CM2 MMul 0 3 1 2)
  | 8%nat => Some (CMResidue 3 3)
  | 9%nat => Some (CUText TDisplay (mkFormatter 32 None None true false false) 3)
  | 10%nat => Some (CUParse 10 (txt "12z4") 0)
  | 11%nat => Some (CM2 MDiv 0 3 1 4)
  | _ => None
  end.

Example C53_hypotheses : let A := arch16 in app_ok session /\ depicts empty aempty.
Proof.
  cbv zeta. split; [|apply empty_depicts; apply arch16_ok].
  intros tr c. unfold session. do 12 (destruct tr as [|? tr]; [cbn [List.length]; intros [= <-]; cbn; unfold Prim.prim_bits, Prim.prim_range, width_ok; cbn; solve [lia | auto 10 | discriminate | vm_compute; auto]|]).
  discriminate.
Qed.

Example C53_runs : let A := arch16 in
  match call_run false 20 session [] empty with
  | Ok (tr, w) => tr = [Base ONone; Error InvalidDigit; Text (txt "+1"); Base ONone; Base ONone; Base (OBool true); Base ONone;
                        Base ONone; Base ONone; Base (OBool true); Base ONone; Base (OBool true)] /\ uval (us (nums w) 0) = 1000003
  | Panic _ => False
  end.
Proof. vm_compute. auto. Qed.

(** A call with one outcome. *)
Example C53_settled : let A := arch16 in settled (CUParse 10 (txt "+1000003") 0) aempty.
Proof. right. vm_compute. reflexivity. Qed.
