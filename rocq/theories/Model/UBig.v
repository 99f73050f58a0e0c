(** Unsigned numbers: src/ubig.rs, src/cmp.rs.  Definitions only. *)
From Verif Require Import Model.Base Model.Words Model.Memory Model.Buffer Model.Div.

Section UBig.
Context {A : Arch}.

(** src/ubig.rs:14-24: [Repr]; [UBig] is a newtype around it. *)
Inductive ubig : Type :=
| Small (w : Z)
| Large (b : Buffer).

(** src/ubig.rs:48-50 *)
Definition from_word (w : Z) : ubig := Small w.

(** src/ubig.rs:66-71 *)
Definition ulen (u : ubig) : Z :=
  match u with Small _ => 1 | Large b => blen b end.

(** src/ubig.rs:75-81 *)
Definition as_words (u : ubig) : list Z :=
  match u with
  | Small w => if w =? 0 then [] else [w]
  | Large b => words b
  end.

(** src/ubig.rs:142-160 *)
Definition from_buffer (b : Buffer) : res ubig :=
  let b := pop_leading_zeros b in
  match words b with
  | [] => Ok (from_word 0)
  | [w] => Ok (from_word w)
  | _ => if MAX_LEN <? blen b then Panic NumberTooLarge
         else b <- shrink b ;; Ok (Large b)
  end.

(** src/ubig.rs:121-128 *)
Definition ubig_clone (u : ubig) : res ubig :=
  match u with
  | Small w => Ok (Small w)
  | Large b => b <- buffer_clone b ;; Ok (Large b)
  end.

(** src/ubig.rs:130-139 *)
Definition ubig_clone_from (u source : ubig) : res ubig :=
  match u, source with
  | Large b, Large s => b <- resizing_clone_from b s ;; Ok (Large b)
  | _, _ => ubig_clone source
  end.

(** [==] on slices. E.g. src/ubig.rs:13 *)
Fixpoint words_eqb (a b : list Z) : bool :=
  match a, b with
  | [], [] => true
  | x :: a, y :: b => (x =? y) && words_eqb a b
  | _, _ => false
  end.

(** Derived [PartialEq] of [UBig], [Repr] and [Buffer]: src/ubig.rs:13,41 and
    src/buffer.rs:17.  [Vec]'s equality compares the elements only. *)
Definition ubig_eqb (a b : ubig) : bool :=
  match a, b with
  | Small x, Small y => x =? y
  | Large x, Large y => words_eqb (words x) (words y)
  | _, _ => false
  end.

(** What derived [Hash] feeds to the hasher: the discriminant of [Repr] and then
    the word, or the length and the words. E.g. src/ubig.rs:13 *)
Definition ubig_hash (u : ubig) : list Z :=
  match u with
  | Small w => [0; w]
  | Large b => 1 :: blen b :: words b
  end.

(** src/cmp.rs:11-25 *)
Definition ubig_cmp (a b : ubig) : res comparison :=
  match a, b with
  | Small x, Small y => Ok (x ?= y)
  | Small _, Large _ => Ok Lt
  | Large _, Small _ => Ok Gt
  | Large x, Large y =>
      match blen x ?= blen y with
      | Eq => cmp_same_len (words x) (words y)
      | c => Ok c
      end
  end.

End UBig.
