(** Scratch memory: src/memory.rs.  Definitions only.

    A [Memory] chunk is modelled by the number of [Word]s it has left; all scratch
    layouts of the crate are arrays of [Word].  Allocating a slice consumes words
    and hands the rest to the nested scope; leaving the scope gives the words back,
    which the model gets by going on with the outer budget.  The addresses are in
    Model/RawMemory.v.  Not modelled: failure of the global allocator ("out of
    memory"). *)
From Verif Require Import Model.Base Model.Words.

Section Memory.
Context {A : Arch}.

(** src/memory.rs:130-165: allocate [n] words, return the remaining memory.  A chunk
    without words may start at an address that is not aligned for a word (the chunk
    of [zero_layout] does); there not even an empty slice is found, so the model
    refuses every allocation from an empty chunk.  Model/RawMemory.v has the
    addresses, and C50 shows that they agree with this count. *)
Definition alloc (n : nat) (mem : Z) : res Z :=
  if (Z.of_nat n <=? mem) && (0 <? mem) then Ok (mem - Z.of_nat n) else Panic Internal.

(** src/memory.rs:70-79 *)
Definition alloc_fill (n : nat) (v : Z) (mem : Z) : res (list Z * Z) :=
  mem' <- alloc n mem ;; Ok (repeat v n, mem').

(** src/memory.rs:88-97 *)
Definition alloc_copy (source : list Z) (mem : Z) : res (list Z * Z) :=
  mem' <- alloc (length source) mem ;; Ok (source, mem').

(** src/memory.rs:106-128 *)
Definition alloc_copy_fill (n : nat) (source : list Z) (v : Z) (mem : Z) : res (list Z * Z) :=
  check (length source <=? n)%nat ;;
  mem' <- alloc n mem ;; Ok (source ++ repeat v (n - length source), mem').

(** Run [f] on the sub-slice [c[i..j]] of [c]. E.g. src/mul/karatsuba.rs:95 *)
Definition on_window {R} (i j : nat) (c : list Z) (f : list Z -> res (list Z * R))
  : res (list Z * R) :=
  if (i <=? j)%nat && (j <=? length c)%nat then
    '(w, r) <- f (firstn (j - i) (skipn i c)) ;;
    Ok (firstn i c ++ w ++ skipn j c, r)
  else Panic Internal.

(** Checked arithmetic on [SignedWord]. E.g. src/add.rs:194 *)
Definition sword_chk (z : Z) : res Z :=
  if (- B <=? 2 * z) && (2 * z <? B) then Ok z else Panic Internal.

End Memory.
