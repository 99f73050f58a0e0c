(** Meaning of word slices.  Independent of the model's operations. *)
From Verif Require Import Model.Base.

(** The configurations the crate can be built for, and any [Vec] that has room for the
    elements asked for. *)
Class ArchOk (A : Arch) : Prop := arch_ok :
  (wbits = 16 \/ wbits = 32 \/ wbits = 64) /\ (ubits = 16 \/ ubits = 32 \/ ubits = 64) /\
  (forall n, 0 <= n -> n <= vec_cap n).

Section Val.
Context {A : Arch}.

(** The number written in base 2^WORD_BITS, least significant word first. *)
Fixpoint val (ws : list Z) : Z :=
  match ws with
  | [] => 0
  | w :: t => w + B * val t
  end.

Definition word_ok (w : Z) : Prop := 0 <= w < B.
Definition wf (ws : list Z) : Prop := Forall word_ok ws.

(** B^n *)
Definition Bn (n : nat) : Z := B ^ Z.of_nat n.

Definition sign_val (s : sign) : Z := match s with Positive => 1 | Negative => -1 end.

End Val.
