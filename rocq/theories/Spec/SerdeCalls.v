(** The calls that a serializer should receive.  Independent of the model except for
    the type of calls. *)
From Coq Require Import ZArith List.
From Verif Require Import Model.Base Model.SerdeErr.
Import ListNotations.
Open Scope Z_scope.

(** A sequence: its length, its elements, its end. *)
Definition seq_calls (es : list Z) : list scall := CSeq (Z.of_nat (length es)) :: map CElement es ++ [CSeqEnd].

(** A pair of a sign and a sequence. *)
Definition pair_calls (sg : sign) (es : list Z) : list scall := [CTuple 2; CSign sg] ++ seq_calls es ++ [CTupleEnd].
