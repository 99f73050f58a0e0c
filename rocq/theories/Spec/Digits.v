(** Numbers written in an arbitrary base, least significant digit first.
    Independent of the model. *)
From Coq Require Import ZArith List.
Import ListNotations.
Open Scope Z_scope.

Fixpoint num (base : Z) (ds : list Z) : Z :=
  match ds with
  | [] => 0
  | d :: t => d + base * num base t
  end.

Definition digits_ok (base : Z) (ds : list Z) : Prop := Forall (fun d => 0 <= d < base) ds.
