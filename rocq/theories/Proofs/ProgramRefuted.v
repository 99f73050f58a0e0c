(** A program of two instructions after which a variable holds a wrong number. *)
From Coq Require Import ZArith Lia List.
From Verif Require Import Model.Base Model.Words Model.Buffer Model.UBig Model.IBig Model.Convert Model.Bits Model.Program
  Spec.Val Spec.Num Spec.Prim Spec.Ideal Proofs.Basics Proofs.Bounds Proofs.ProgramProofs.
Import ListNotations.

Section ProgramRefuted.
Context {A : Arch} {AOK : ArchOk A}.

Lemma histories_refuted :
  exists (c : client) (tr : list obs) (st : state),
    client_ok c /\ c [] = Some (IUConst 8 5 0) /\ c [ONone] = Some (IUClearBit 0 wbits) /\
    run 2 c [] start = Ok (tr, st) /\ uval (us st 0%nat) = 0 /\ Z.clearbit 5 wbits = 5.
Proof.
  set (c := fun tr : list obs => match tr with [] => Some (IUConst 8 5 0) | [_] => Some (IUClearBit 0 wbits) | _ => None end).
  assert (W : wbits = 16 \/ wbits = 32 \/ wbits = 64) by apply arch_ok.
  assert (U : ubits = 16 \/ ubits = 32 \/ ubits = 64) by apply arch_ok.
  assert (R : exists tr st, run 2 c [] start = Ok (tr, st) /\ uval (us st 0%nat) = 0).
  { unfold c. cbn [run step]. unfold ubig_from_unsigned.
    replace (5 <? B) with true by (pose proof B_ge; symmetry; apply Z.ltb_lt; lia).
    cbn -[Z.ltb]. rewrite Z.ltb_irrefl. cbn. eauto. }
  destruct R as (tr & st & R & V). exists c, tr, st. repeat apply conj; auto.
  - intros [|? [|]] i; cbn; intros [= <-]; cbn.
    + unfold prim_bits, prim_range. lia.
    + destruct W as [-> |[-> | ->]], U as [-> |[-> | ->]]; cbn; lia.
  - destruct W as [-> |[-> | ->]]; reflexivity.
Qed.
End ProgramRefuted.
