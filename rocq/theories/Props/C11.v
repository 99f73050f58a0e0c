(** C11: canonical representation; equality and hashing are numeric. *)
From Coq Require Import Lia.
From Verif Require Import Model.Base Model.Words Model.Memory Model.FastDivide Model.Mul Model.Div Model.Buffer Model.UBig Model.IBig Model.Convert Model.AddOps Model.MulOps Model.ShiftOps Model.Bits Model.DivOps Model.PrimOps Model.Program Model.Client
  Spec.Val Spec.Num Spec.Prim Spec.Digits Spec.Ideal Spec.Abstract
  Proofs.BufferProofs Proofs.Bounds Proofs.ApiProofs Proofs.ClientProofs Proofs.Samples.

Theorem C11_ubig_eq (A : Arch) (AOK : ArchOk A) (a b : ubig) :
  ubig_ok a -> ubig_ok b ->
  (ubig_eqb a b = true <-> uval a = uval b) /\ (ubig_hash a = ubig_hash b <-> uval a = uval b).
Proof. exact (fun Ha Hb => conj (ubig_eqb_spec a b Ha Hb) (ubig_hash_spec a b Ha Hb)). Qed.
Print Assumptions C11_ubig_eq.

Theorem C11_ibig_eq (A : Arch) (AOK : ArchOk A) (x y : ibig) :
  ibig_ok x -> ibig_ok y ->
  (ibig_eqb x y = true <-> ival x = ival y) /\ (ibig_hash x = ibig_hash y <-> ival x = ival y).
Proof. exact (fun Hx Hy => conj (ibig_eqb_spec x y Hx Hy) (ibig_hash_spec x y Hx Hy)). Qed.
Print Assumptions C11_ibig_eq.

(** There is one representation of each number, up to the spare capacity of the
    heap buffer. *)
Theorem C11_ubig_unique (A : Arch) (AOK : ArchOk A) (a b : ubig) :
  ubig_ok a -> ubig_ok b -> uval a = uval b ->
  match a, b with
  | Small x, Small y => x = y
  | Large x, Large y => words x = words y
  | _, _ => False
  end.
Proof. exact (ubig_repr_inj a b). Qed.
Print Assumptions C11_ubig_unique.

Theorem C11_ibig_unique (A : Arch) (AOK : ArchOk A) (x y : ibig) :
  ibig_ok x -> ibig_ok y -> ival x = ival y -> isign x = isign y /\ uval (imag x) = uval (imag y).
Proof. exact (ibig_repr_inj x y). Qed.
Print Assumptions C11_ibig_unique.

(** Every buffer of words, with any number of leading zero words and any spare
    capacity, becomes a canonical number. *)
Theorem C11_canonicalization (A : Arch) (AOK : ArchOk A) (b : Buffer) :
  wf (words b) -> len (words b) <= cap b ->
  yields (from_buffer b) (val (words b)).
Proof. exact (fun W C => from_buffer_yields b (buffer_ok_intro b W C)). Qed.
Print Assumptions C11_canonicalization.

Theorem C11_no_negative_zero (A : Arch) (AOK : ArchOk A) (s : sign) (u : ubig) :
  ubig_ok u -> ibig_ok (from_sign_magnitude s u) /\ ival (from_sign_magnitude s u) = sign_val s * uval u.
Proof. exact (from_sign_magnitude_spec s u). Qed.
Print Assumptions C11_no_negative_zero.

(** After any program that calls the library, chosen step by step from what it has
    seen, every variable is canonical: a one-word number is a word, a number on the heap
    has at least two words and no leading zero, and there is no negative zero. *)
Theorem C11_history (A : Arch) (AOK : ArchOk A) (be : bool) (n : nat) (c : Client.app) (tr tr' : list seen) (w : world) :
  app_ok c -> call_run be n c tr empty = Ok (tr', w) ->
  (forall k, canonical (us (nums w) k)) /\
  (forall k, canonical (imag (is (nums w) k)) /\ (isign (is (nums w) k) = Negative -> uval (imag (is (nums w) k)) <> 0)).
Proof. exact (call_run_canonical be n c tr tr' w). Qed.
Print Assumptions C11_history.

(** Equal numbers with different capacities. *)
Example C11_capacity : let A := arch64 in
  let a := Large (mkBuffer [5; 6; 7] 3) in let b := Large (mkBuffer [5; 6; 7] 6) in
  ubig_ok a /\ ubig_ok b /\ ubig_eqb a b = true /\ ubig_eqb a (lg [5; 6; 8]) = false /\
  from_buffer (mkBuffer [5; 0; 0] 9) = Ok (Small 5) /\ from_sign_magnitude Negative (Small 0) = pos (Small 0).
Proof. cbv zeta. sample. Qed.


(** -2^40 + 2^40: the words of two numbers on the heap cancel to a zero without a sign. *)
Definition cancel : Client.app := fun tr =>
  match length tr with
  | 0%nat => Some (CBase (IIConst true 64 (- 2 ^ 40) 0))
  | 1%nat => Some (CBase (IIConst true 64 (2 ^ 40) 1))
  | 2%nat => Some (CBase (II2 IAdd 0 2 0 1))
  | _ => None
  end.
Example C11_cancel : let A := arch16 in
  app_ok cancel /\
  match call_run false 9 cancel [] empty with
  | Ok (_, w) => is (nums w) 0 = mkIBig Negative (Large (mkBuffer [0; 0; 256] 6)) /\ is (nums w) 2 = pos (Small 0)
  | Panic _ => False
  end.
Proof.
  cbv zeta. split; [|vm_compute; repeat split; reflexivity].
  intros tr c. destruct tr as [|? [|? [|? ?]]]; unfold cancel; cbn [length]; intros [= <-]; cbn; unfold prim_bits, prim_range; cbn; lia.
Qed.
