(** C58: panics leave all variables well-formed, and which values they leave. *)
From Coq Require Import Lia.
From Verif Require Import Model.Base Model.Buffer Model.UBig Model.IBig Model.Parse Model.Fmt Model.Modular Model.ModularFmt Model.Program Model.Client Model.Unwind
  Spec.Val Spec.Num Spec.Prim Spec.Digits Spec.FmtText Spec.Ideal Spec.Modular Spec.Abstract Spec.Caught
  Proofs.ClientProofs Proofs.CaughtProofs Proofs.Samples Proofs.TextSamples.

(** The assignment operators on numbers store the result, or zero if they panic. *)
Theorem C58_ubig_assign (A : Arch) (AOK : ArchOk A) (op : ubin) (by_ref : bool) (v r : ubig -> cell ubig unit) (a b : ubig) :
  uassign op = Some (v, r) -> ubig_ok a -> ubig_ok b ->
  uassigns op = true /\ leaves_u ((if by_ref then r else v) b a) (ubin_ideal op (uval a) (uval b)).
Proof. exact (uassign_rel op by_ref v r a b). Qed.
Print Assumptions C58_ubig_assign.

Theorem C58_ibig_assign (A : Arch) (AOK : ArchOk A) (op : ibin) (by_ref : bool) (v r : ibig -> cell ibig unit) (a b : ibig) :
  iassign op = Some (v, r) -> ibig_ok a -> ibig_ok b ->
  iassigns op = true /\ leaves_i ((if by_ref then r else v) b a) (ibin_ideal op (ival a) (ival b)).
Proof. exact (iassign_rel op by_ref v r a b). Qed.
Print Assumptions C58_ibig_assign.

Theorem C58_ubig_prim_assign (A : Arch) (AOK : ArchOk A) (sg : bool) (op : prim_op) (f : Z -> Z -> cell ubig unit) (tb c : Z) (a : ubig) :
  uassign_prim sg op = Some f -> prim_bits tb -> prim_range sg tb c -> ubig_ok a ->
  prim_assigns op = true /\ leaves_u (f tb c a) (uprim_ideal sg op (uval a) c).
Proof. exact (uassign_prim_rel sg op f tb c a). Qed.
Print Assumptions C58_ubig_prim_assign.

Theorem C58_ibig_prim_assign (A : Arch) (AOK : ArchOk A) (sg : bool) (op : prim_op) (f : bool -> Z -> Z -> cell ibig unit) (tb c : Z) (a : ibig) :
  iassign_prim op = Some f -> prim_bits tb -> prim_range sg tb c -> ibig_ok a ->
  prim_assigns op = true /\ leaves_i (f sg tb c a) (iprim_ideal op (ival a) c).
Proof. exact (iassign_prim_rel sg op f tb c a). Qed.
Print Assumptions C58_ibig_prim_assign.

Theorem C58_shift_assign (A : Arch) (AOK : ArchOk A) (u : ubig) (x : ibig) (n : Z) :
  ubig_ok u -> ibig_ok x -> 0 <= n < 2 ^ ubits ->
  leaves_u (ushl_assign n u) (fits (uval u * 2 ^ n)) /\ leaves_u (ushr_assign n u) (Ok (uval u / 2 ^ n)) /\
  leaves_i (ishl_assign n x) (ifits (ival x * 2 ^ n)) /\ leaves_i (ishr_assign n x) (Ok (ival x / 2 ^ n)).
Proof. exact (shifts_at_rel u x n). Qed.
Print Assumptions C58_shift_assign.

Theorem C58_set_bit (A : Arch) (AOK : ArchOk A) (u : ubig) (n : Z) :
  ubig_ok u -> 0 <= n < 2 ^ ubits -> leaves_u (set_bit_at n u) (fits (Z.lor (uval u) (2 ^ n))).
Proof. exact (set_bit_at_rel u n). Qed.
Print Assumptions C58_set_bit.

(** The assignment operators on elements of rings leave the element as it was if they
    panic, whether the rings are the same or not. *)
Theorem C58_modulo_assign (A : Arch) (AOK : ArchOk A) (op : mbin) (r : ring) (n : Z) (x : modulo) (a : Z) (y : modulo) (b : Z) :
  element r n x a -> element r n y b ->
  match massign op y x with
  | (v, Ok _) => exists c, element r n v c /\
      match op with
      | MAdd => c = (a + b) mod n
      | MSub => c = (a - b) mod n
      | MMul => c = (a * b) mod n
      | MDiv => Z.gcd b n = 1 /\ (c * b) mod n = a mod n
      end
  | (v, Panic p) => v = x /\ documented p
  end.
Proof. exact (massign_same op r n x a y b). Qed.
Print Assumptions C58_modulo_assign.

Theorem C58_modulo_other_ring (A : Arch) (AOK : ArchOk A) (op : mbin) (r : ring) (n : Z) (x : modulo) (a : Z) (s : ring) (m : Z) (y : modulo) (b : Z) :
  element r n x a -> element s m y b -> ring_addr r <> ring_addr s -> exists p, massign op y x = (x, Panic p) /\ documented p.
Proof. exact (massign_other op r n x a s m y b). Qed.
Print Assumptions C58_modulo_other_ring.

(** A client that catches panics and goes on, with whatever the operations have left in
    its variables, behaves like one of the abstract machine. *)
Theorem C58_refines (A : Arch) (AOK : ArchOk A) (be : bool) (n : nat) (c : bold_app) (tr : list report) (w : world) (s : aworld) :
  bold_ok c -> depicts w s ->
  exists s', bold_allowed n c tr s (fst (bold_run be n c tr w)) s' /\ depicts (snd (bold_run be n c tr w)) s'.
Proof. intros C. exact (bold_run_sim be n c C tr w s). Qed.
Print Assumptions C58_refines.

(** All its variables are well-formed at all times, and all the panics it catches are
    documented ones: never a failed internal check. *)
Theorem C58_well_formed (A : Arch) (AOK : ArchOk A) (be : bool) (n : nat) (c : bold_app) (tr : list report) (w : world) :
  bold_ok c -> (exists s, depicts w s) -> well_formed (nums (snd (bold_run be n c tr w))).
Proof. exact (bold_run_well_formed be n c tr w). Qed.
Print Assumptions C58_well_formed.

Theorem C58_panics (A : Arch) (AOK : ArchOk A) (be : bool) (n : nat) (c : bold_app) (w : world) :
  bold_ok c -> (exists s, depicts w s) -> forall p, In (Caught p) (fst (bold_run be n c [] w)) -> documented p.
Proof. exact (bold_run_panics be n c w). Qed.
Print Assumptions C58_panics.

(** An operation in place changes no number but its target. *)
Theorem C58_others_untouched (A : Arch) (be : bool) (a : act) (w : world) : (forall c, a <> Plain c) ->
  let w' := fst (act_step be a w) in
  (forall k, target_u a <> Some k -> us (nums w') k = us (nums w) k) /\
  (forall k, target_i a <> Some k -> is (nums w') k = is (nums w) k).
Proof. exact (act_others be a w). Qed.
Print Assumptions C58_others_untouched.

(** 3 - 70005 in place is caught; the variable is 0 and of use again.  Adding elements of
    different rings is caught; the element keeps its value. *)
Definition bold_client : bold_app := fun tr =>
  match List.length tr with
  | 0%nat => Some (Plain (CBase (IUConst 32 3 0)))
  | 1%nat => Some (Plain (CBase (IUConst 32 70005 1)))
  | 2%nat => Some (AtU USub true 0 1)
  | 3%nat => Some (AtUPrim PAdd true 8 7 0)
  | 4%nat => Some (Plain (CRing 0 1))
  | 5%nat => Some (Plain (CRing 1 0))
  | 6%nat => Some (Plain (CMFromU true 0 0 0))
  | 7%nat => Some (Plain (CMFromU true 1 1 0))
  | 8%nat => Some (AtM MAdd 0 1)
  | 9%nat => Some (AtM MMul 0 0)
  | 10%nat => Some (Plain (CMResidue 2 0))
  | 11%nat => Some (AtIPrim PDiv false 16 0 3)
  | _ => None
  end.

Example C58_hypotheses : bold_ok (A := arch16) bold_client /\ depicts (A := arch16) empty aempty.
Proof.
  split; [|apply empty_depicts].
  intros tr c. unfold bold_client.
  do 12 (destruct tr as [|? tr]; [cbn [List.length]; intros [= <-]; cbn; unfold Prim.prim_bits, Prim.prim_range, width_ok; cbn; first [lia|discriminate|exact I]|]). discriminate.
Qed.

Example C58_runs :
  let (tr, w) := bold_run (A := arch16) false 20 bold_client [] empty in
  List.length tr = 12%nat /\ nth 9 tr (Seen (Base ONone)) = Caught NegativeUBig /\
  nth 3 tr (Seen (Base ONone)) = Caught DifferentRings /\ nth 0 tr (Seen (Base ONone)) = Caught DivideByZero /\
  us (nums w) 0%nat = Small 7 /\ us (nums w) 2%nat = Small 49.
Proof. vm_compute. auto 10. Qed.

(** Without panics there is 70005 in the ring of 70006: plus 2 it is 1. *)
Example C58_element : let A := arch16 in
  match (r <- ring_new 1 (lg [4470; 1]) ;; x <- ubig_into_modulo (lg [4469; 1]) r ;; y <- ubig_into_modulo (Small 2) r ;;
         let (v, o) := massign MAdd y x in _ <- o ;; residue v) with
  | Ok u => u = Small 1
  | Panic _ => False
  end.
Proof. cbv zeta. sample. Qed.
