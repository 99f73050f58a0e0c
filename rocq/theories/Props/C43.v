(** C43: arbitrary operation histories compute the right integers. *)
From Verif Require Import Model.Base Model.Words Model.Memory Model.FastDivide Model.Mul Model.Div Model.Buffer Model.UBig Model.IBig Model.Convert Model.AddOps Model.MulOps Model.ShiftOps Model.Bits Model.DivOps Model.PrimOps Model.Gcd Model.Pow Model.Program
  Spec.Val Spec.Num Spec.Prim Spec.Digits Spec.Ideal
  Proofs.Basics Proofs.Bounds Proofs.ProgramProofs Proofs.ProgramRefuted Proofs.Samples.

(** A program is any function from what was observed so far to the next
    instruction. The library and the ideal machine make the same observations,
    end with the same numbers in the same variables, or stop with the same panic.
    The statement says nothing when a program makes one of the calls of
    [clear_bit] that C18 shows to be wrong ([None]). *)
Theorem C43_histories_partial (A : Arch) (AOK : ArchOk A) (n : nat) (c : client) (tr : list obs) (st : state) (s : istate) :
  client_ok c -> holds st s ->
  match irun n c tr s with
  | Some (Ok (tr', s')) => exists st', run n c tr st = Ok (tr', st') /\ holds st' s'
  | Some (Panic p) => run n c tr st = Panic p
  | None => True
  end.
Proof. exact (fun C H => run_sim n c C tr st s H). Qed.
Print Assumptions C43_histories_partial.

(** It holds for every program that clears only bits below the word size. *)
Theorem C43_histories_no_clear_bit (A : Arch) (AOK : ArchOk A) (n : nat) (c : client) (tr : list obs) (s : istate) :
  (forall tr d k, c tr = Some (IUClearBit d k) -> k < wbits) -> irun n c tr s <> None.
Proof. exact (fun C => irun_no_clear n c C tr s). Qed.
Print Assumptions C43_histories_no_clear_bit.

(** The exception is needed: on every platform a program that stores 5 and clears bit WORD_BITS of
    it, which 5 does not have, goes on with 0. *)
Theorem C43_histories_refuted (A : Arch) (AOK : ArchOk A) :
  exists (c : client) (tr : list obs) (st : state),
    client_ok c /\ c [] = Some (IUConst 8 5 0) /\ c [ONone] = Some (IUClearBit 0 wbits) /\
    run 2 c [] start = Ok (tr, st) /\ uval (us st 0%nat) = 0 /\ Z.clearbit 5 wbits = 5.
Proof. exact histories_refuted. Qed.
Print Assumptions C43_histories_refuted.

(** No program runs into an internal panic, with or without clear_bit. *)
Theorem C43_no_internal_panic (A : Arch) (AOK : ArchOk A) (n : nat) (c : client) (tr : list obs) (st : state) :
  client_ok c -> well_formed st -> run n c tr st <> Panic Internal.
Proof. exact (run_no_internal n c tr st). Qed.
Print Assumptions C43_no_internal_panic.

(** A program that squares 3 in place until the square has at least 20 bits,
    shifts it by an amount that depends on the observed length, and then
    subtracts it from zero. *)
Definition sample_client : client := fun tr =>
  match tr with
  | [] => Some (IUConst 8 3 0)
  | ONone :: _ => Some (OUBitLen 0)
  | ONum z :: _ =>
      if z <? 20 then Some (IU2 UMul 3 0 0 0)
      else if z <? 60 then Some (IUShl 0 0 0 ((20 + z) mod 2 ^ 8))
      else Some (IU2 USub 0 0 1 0)
  | _ => None
  end.

Example C43_client_ok : let A := arch16 in client_ok sample_client.
Proof.
  cbv zeta. intros [|[] ?] i E; try discriminate E; cbn in E.
  - injection E as <-. cbn. unfold prim_bits, prim_range. lia.
  - injection E as <-. exact I.
  - destruct (z <? 20); [|destruct (z <? 60)]; injection E as <-; try exact I. unfold instr_ok.
    pose proof (Z.mod_pos_bound (20 + z) (2 ^ 8) ltac:(reflexivity)).
    assert (2 ^ 8 <= 2 ^ @ubits arch16) by (vm_compute; discriminate). lia.
Qed.

Example C43_run : let A := arch16 in
  (match run 12 sample_client [] start with
   | Ok (tr, st) => tr = [ONum 72; ONone; ONum 26; ONone; ONum 13; ONone; ONum 7; ONone; ONum 4; ONone; ONum 2; ONone] /\
       uval (us st 0) = 3 ^ 16 * 2 ^ 46
   | Panic _ => False
   end) /\
  run 13 sample_client [] start = Panic NegativeUBig /\
  irun 13 sample_client [] (mkIstate (fun _ => 0) (fun _ => 0)) = Some (Panic NegativeUBig).
Proof. cbv zeta. vm_compute. auto. Qed.
