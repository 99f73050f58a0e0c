(** Buffers that grow and shrink word by word, and how many words are moved. *)
From Coq Require Import ZArith List.
From Verif Require Import Model.Base Model.Buffer.
Import ListNotations.
Open Scope Z_scope.

Section Growth.
Context {A : Arch}.

(** Append a word, as a carry does; or drop the last word and give back space, as a number
    that loses its leading word does. *)
Inductive change : Set := Grow (w : Z) | Drop.

(** The new buffer, and the number of words moved: all of them when the block changes. *)
Definition apply_change (b : Buffer) (c : change) : res (Buffer * Z) :=
  match c with
  | Grow w => b' <- push_may_reallocate b w ;; Ok (b', if cap b' =? cap b then 0 else blen b)
  | Drop => t <- truncate b (length (words b) - 1) ;; b' <- shrink t ;; Ok (b', if cap b' =? cap b then 0 else blen t)
  end.

Fixpoint apply_changes (b : Buffer) (cs : list change) : res (Buffer * Z) :=
  match cs with
  | [] => Ok (b, 0)
  | c :: cs => '(b, n) <- apply_change b c ;; '(b, m) <- apply_changes b cs ;; Ok (b, n + m)
  end.
End Growth.
