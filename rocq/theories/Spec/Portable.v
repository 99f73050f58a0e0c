(** What it means that a program behaves alike on two platforms. *)
From Coq Require Import ZArith List.
From Verif Require Import Model.Base Model.UBig Model.IBig Model.Program Spec.Num.
Open Scope Z_scope.

(** No platform is asked for a bit that it would clear wrongly (C18): words have at
    least 16 bits. *)
Definition small_bits (c : client) : Prop := forall tr d k, c tr = Some (IUClearBit d k) -> k < 16.

(** The same observations and the same numbers, or the same panic, unless one of
    the platforms stops because a number is too large for it. *)
Definition same_outcome (A1 A2 : Arch) (r1 : res (list obs * state)) (r2 : res (list obs * state)) : Prop :=
  match r1, r2 with
  | Ok (tr1, st1), Ok (tr2, st2) => tr1 = tr2 /\
      (forall k, uval (A := A1) (us st1 k) = uval (A := A2) (us st2 k)) /\
      (forall k, ival (A := A1) (is st1 k) = ival (A := A2) (is st2 k))
  | Panic p, Panic q => p = q \/ p = NumberTooLarge \/ q = NumberTooLarge
  | Panic p, Ok _ => p = NumberTooLarge
  | Ok _, Panic q => q = NumberTooLarge
  end.
