(** What it means that a client of the whole library behaves alike on two platforms. *)
From Coq Require Import ZArith List.
From Verif Require Import Model.Base Model.Buffer Model.UBig Model.IBig Model.Program Model.Client Spec.Num Spec.Abstract.
Open Scope Z_scope.

(** No platform is asked to clear a bit that it would clear wrongly (C18). *)
Definition portable_call (c : call) : Prop :=
  match c with
  | CBase (IUClearBit _ k) => k < 16
  | _ => True
  end.
Definition portable_app (c : app) : Prop := forall tr c1, c tr = Some c1 -> portable_call c1.

(** A panic that depends on how large numbers and their scratch memory may be. *)
Definition lacks_space (p : panic) : Prop := p = NumberTooLarge \/ p = OutOfMemory.

(** The same texts, errors, serialized forms and other observations, and variables
    with the same meaning, or the same panic, unless one of the platforms stops because
    a number is too large for it or the product of two numbers is. *)
Definition same_ending (A1 A2 : Arch) (r1 r2 : res (list seen * world)) : Prop :=
  match r1, r2 with
  | Ok (tr1, w1), Ok (tr2, w2) => tr1 = tr2 /\ exists s, depicts (A := A1) w1 s /\ depicts (A := A2) w2 s
  | Panic p, Panic q => p = q \/ lacks_space p \/ lacks_space q
  | Panic p, Ok _ => lacks_space p
  | Ok _, Panic q => lacks_space q
  end.

(** All numbers that the first platform can address, and somewhat larger ones, fit the
    second one: for instance, the first one has 32-bit words and addresses and the
    second one 64-bit ones. *)
Definition roomier (A1 A2 : Arch) : Prop := 8 * 2 ^ @ubits A1 <= @MAX_BIT_LEN A2.

(** What the first platform computes the second one computes, and it stops with the
    same panic unless the first one stops for lack of space. *)
Definition carried_over (A1 A2 : Arch) (r1 r2 : res (list seen * world)) : Prop :=
  match r1 with
  | Ok (tr, w1) => exists w2 s, r2 = Ok (tr, w2) /\ depicts (A := A1) w1 s /\ depicts (A := A2) w2 s
  | Panic p => lacks_space p \/ r2 = Panic p
  end.
