(** Meaning of code that draws random numbers. *)
From Coq Require Import ZArith List QArith.
From Verif Require Import Model.Base Model.UBig Model.IBig Model.Rand Spec.Val Spec.Num.

(** [runs m cs r]: when the generator answers with [cs], [m] ends with [r]. *)
Inductive runs {T : Type} : rand T -> list Z -> res T -> Prop :=
| runs_ret x : runs (Ret x) [] (Ok x)
| runs_fail p : runs (Fail p) [] (Panic p)
| runs_pick n k c cs r : (0 <= c < n)%Z -> runs (k c) cs r -> runs (Pick n k) (c :: cs) r.

Open Scope Q_scope.

(** f 0 + f 1 + ... + f (n-1) *)
Fixpoint total (n : nat) (f : Z -> Q) : Q :=
  match n with
  | O => 0
  | S n => total n f + f (Z.of_nat n)
  end.

(** The probability that [m] ends with an outcome in [P] when every choice is
    uniformly distributed and independent of the others. *)
Fixpoint prob {T : Type} (m : rand T) (P : res T -> bool) : Q :=
  match m with
  | Ret x => if P (Ok x) then 1 else 0
  | Fail p => if P (Panic p) then 1 else 0
  | Pick n k => total (Z.to_nat n) (fun c => prob (k c) P) / inject_Z n
  end.

Fixpoint qpow (q : Q) (k : nat) : Q :=
  match k with
  | O => 1
  | S k => q * qpow q k
  end.

Open Scope Z_scope.

Section Samples.
Context {A : Arch}.

(** What a sampler of the numbers [lo <= v < hi] does, given a bound on the number
    of attempts ([Ok None]: the bound is reached).  Whatever the generator answers,
    it does not panic and what it returns is in the range.  All numbers of the
    range are equally likely, and the probability [q^k] that [k] attempts all fail
    is at most [2^-k]. *)
Definition samples_ubig (sample : nat -> rand (option ubig)) (lo hi : Z) : Prop :=
  (forall k cs r, runs (sample k) cs r ->
     r = Ok None \/ exists u, r = Ok (Some u) /\ ubig_ok u /\ lo <= uval u < hi) /\
  exists q, (0 <= q <= 1 # 2)%Q /\
    forall k v, (0 < k)%nat -> lo <= v < hi ->
      (prob (sample k) (fun r => match r with Ok (Some u) => (uval u =? v)%Z | _ => false end)
        == (1 - qpow q k) / inject_Z (hi - lo))%Q.

Definition samples_ibig (sample : nat -> rand (option ibig)) (lo hi : Z) : Prop :=
  (forall k cs r, runs (sample k) cs r ->
     r = Ok None \/ exists x, r = Ok (Some x) /\ ibig_ok x /\ lo <= ival x < hi) /\
  exists q, (0 <= q <= 1 # 2)%Q /\
    forall k v, (0 < k)%nat -> lo <= v < hi ->
      (prob (sample k) (fun r => match r with Ok (Some x) => (ival x =? v)%Z | _ => false end)
        == (1 - qpow q k) / inject_Z (hi - lo))%Q.

End Samples.
