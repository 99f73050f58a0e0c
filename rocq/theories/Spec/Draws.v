(** How much randomness code draws. *)
From Coq Require Import ZArith List QArith.
From Verif Require Import Model.Base Model.Rand Spec.Rand.
Open Scope Q_scope.

(** The expected number of choices that [m] makes, when every choice is uniformly
    distributed and independent of the others. *)
Fixpoint draws {T : Type} (m : rand T) : Q :=
  match m with
  | Ret _ | Fail _ => 0
  | Pick n k => 1 + total (Z.to_nat n) (fun c => draws (k c)) / inject_Z n
  end.

(** The outcome of [m] when the generator answers with [cs]. *)
Fixpoint reply {T : Type} (m : rand T) (cs : list Z) : option (res T) :=
  match m, cs with
  | Ret x, [] => Some (Ok x)
  | Fail p, [] => Some (Panic p)
  | Pick n k, c :: cs => if ((0 <=? c) && (c <? n))%Z then reply (k c) cs else None
  | _, _ => None
  end.
