(** Arguments of the literal macros.  Independent of the model. *)
From Coq Require Import ZArith List.
Import ListNotations.
Open Scope Z_scope.

(** [s] is the text [t], possibly written with one underscore (95) in front. *)
Definition written (s t : list Z) : Prop := s = 95 :: t \/ (s = t /\ forall u, t <> 95 :: u).

(** The number with an optional minus sign. *)
Definition signed (negative : bool) (v : Z) : Z := if negative then - v else v.
