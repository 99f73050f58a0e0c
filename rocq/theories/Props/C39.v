(** C39: buffers stay compact and never overflow their capacity. *)
From Verif Require Import Model.Base Model.Words Model.Memory Model.FastDivide Model.Mul Model.Div Model.Buffer Model.UBig Model.IBig Model.Convert Model.AddOps Model.MulOps Model.ShiftOps Model.Bits Model.DivOps Model.PrimOps Model.Gcd Model.Pow Model.Program Model.Client
  Spec.Val Spec.Num Spec.Prim Spec.Digits Spec.Ideal Spec.Abstract
  Proofs.Basics Proofs.Bounds Proofs.ProgramProofs Proofs.ClientProofs Proofs.Samples.

(** Whatever a program does, starting from zeros, every number on the heap has
    between its length and its length plus a quarter plus four words of capacity, or what
    [Vec] gave when asked for its length plus an eighth plus two words. *)
Theorem C39_compact (A : Arch) (AOK : ArchOk A) (n : nat) (c : client) (tr tr' : list obs) (st : state) :
  client_ok c -> run n c tr start = Ok (tr', st) ->
  (forall k, compact (us st k)) /\ (forall k, compact (imag (is st k))).
Proof. exact (run_compact n c tr tr' st). Qed.
Print Assumptions C39_compact.

(** No push beyond the capacity, and no other internal panic. *)
Theorem C39_no_internal_panic (A : Arch) (AOK : ArchOk A) (n : nat) (c : client) (tr : list obs) :
  client_ok c -> run n c tr start <> Panic Internal.
Proof. exact (run_start_no_internal n c tr). Qed.
Print Assumptions C39_no_internal_panic.

(** The same for programs that may call everything in the library. *)
Theorem C39_all_calls (A : Arch) (AOK : ArchOk A) (be : bool) (n : nat) (c : Client.app) (tr tr' : list seen) (w : world) :
  app_ok c -> call_run be n c tr empty = Ok (tr', w) ->
  (forall k, compact (us (nums w) k)) /\ (forall k, compact (imag (is (nums w) k))).
Proof. exact (call_run_compact be n c tr tr' w). Qed.
Print Assumptions C39_all_calls.

(** If [Vec] gives exactly what it is asked for, as it does today and the crate's tests
    expect (src/buffer.rs:252-256), that is never more than a quarter plus four words. *)
Theorem C39_exact_vec (A : Arch) (AOK : ArchOk A) (be : bool) (n : nat) (c : Client.app) (tr tr' : list seen) (w : world) :
  (forall k, 0 <= k -> vec_cap k = k) -> app_ok c -> call_run be n c tr empty = Ok (tr', w) ->
  (forall k, within_quarter (us (nums w) k)) /\ (forall k, within_quarter (imag (is (nums w) k))).
Proof. exact (call_run_exact be n c tr tr' w). Qed.
Print Assumptions C39_exact_vec.

Theorem C39_all_calls_no_internal_panic (A : Arch) (AOK : ArchOk A) (be : bool) (n : nat) (c : Client.app) (tr : list seen) :
  app_ok c -> call_run be n c tr empty <> Panic Internal.
Proof. exact (call_run_no_internal be n c tr). Qed.
Print Assumptions C39_all_calls_no_internal_panic.

(** Clearing the top words and setting a low bit leaves a buffer with spare
    capacity; shrinking it far enough moves it to a smaller one. *)
Definition shifting : client := fun tr => match tr with
  | [] => Some (IUConst 8 1 0) | [_] => Some (IUShl 0 0 0 300) | [_; _] => Some (IUConst 8 1 1)
  | [_; _; _] => Some (IU2 USub 0 0 0 1) | [_; _; _; _] => Some (IUShr 0 0 0 150) | _ => None end.
Example C39_values : let A := arch16 in
  match run 5 shifting [] start with
  | Ok (_, st) => match us st 0%nat with Large b => length (words b) = 10%nat /\ 10 <= cap b <= 16 | _ => False end
  | Panic _ => False
  end.
Proof. vm_compute. intuition discriminate. Qed.

(** The same where [Vec] gives 29 words when asked for 13. *)
Example C39_roomy_values : let A := roomy16 in
  match run 5 shifting [] start with
  | Ok (_, st) => match us st 0%nat with Large b => length (words b) = 10%nat /\ cap b = 29 | _ => False end
  | Panic _ => False
  end.
Proof. vm_compute. intuition discriminate. Qed.
