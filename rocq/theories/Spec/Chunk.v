(** Regions of memory.  Independent of how the model finds them. *)
From Coq Require Import ZArith List.
From Verif Require Import Model.Base Model.Memory Model.RawMemory.
Import ListNotations.
Open Scope Z_scope.

Section Chunk.
Context {A : Arch}.

(** What Rust guarantees about every type: the alignment is a power of two that
    fits the address space, and the size is a multiple of it.  Types of size zero
    are left out. *)
Definition type_ok (t : ty) : Prop :=
  (exists k, 0 <= k < ubits /\ t_align t = 2 ^ k) /\ 0 < t_size t /\ (t_align t | t_size t).

(** Start and end are addresses. *)
Definition chunk_ok (m : memory) : Prop := 0 <= m_start m <= m_end m /\ m_end m < 2 ^ ubits.

(** The bytes [p .. p + n * size] are a place for [n] values of type [t] in the chunk. *)
Definition place (t : ty) (n p : Z) (m : memory) : Prop :=
  m_start m <= p /\ (t_align t | p) /\ p + n * t_size t <= m_end m.

(** The elements asked for. *)
Definition elements (r : request) : list Z :=
  match r with
  | Fill n v => repeat v n
  | Copy source => source
  | CopyFill n source v => source ++ repeat v (n - length source)
  end.

(** The elements are values of the type: they fit in [t_size] bytes.  Copying
    with filling needs room for the source. *)
Definition request_ok (t : ty) (r : request) : Prop :=
  Forall (fun v => 0 <= v < 256 ^ t_size t) (elements r) /\
  match r with CopyFill n source _ => (length source <= n)%nat | _ => True end.

(** Two slices do not overlap. *)
Definition apart (t1 : ty) (n1 p1 : Z) (t2 : ty) (n2 p2 : Z) : Prop :=
  p1 + n1 * t_size t1 <= p2 \/ p2 + n2 * t_size t2 <= p1.

(** The contract of the global allocator: a block that is aligned, does not reach
    the end of the address space, and is not at address zero. *)
Definition block_ok (l : layout) (ptr : Z) : Prop :=
  0 < ptr /\ (l_align l | ptr) /\ ptr + l_size l < 2 ^ ubits.

(** How many elements. *)
Definition count (r : request) : Z := Z.of_nat (length (elements r)).

(** The slice at the given address lies in the chunk and holds the elements. *)
Definition good (st : store) (m : memory) (x : (ty * request) * Z) : Prop :=
  place (fst (fst x)) (count (snd (fst x))) (snd x) m /\
  read_slice st (snd x) (t_size (fst (fst x))) (length (elements (snd (fst x)))) = elements (snd (fst x)).

Definition apart2 (x y : (ty * request) * Z) : Prop :=
  apart (fst (fst x)) (count (snd (fst x))) (snd x) (fst (fst y)) (count (snd (fst y))) (snd y).

(** The chunk holds exactly [mem] words; a chunk that holds some is aligned. *)
Definition tracks (t : ty) (m : memory) (mem : Z) : Prop :=
  chunk_ok m /\ m_end m - m_start m = mem * t_size t /\ (0 < mem -> (t_align t | m_start m)).

(** Handing out slices by counting words only, as the rest of the model does. *)
Definition counted (r : request) (mem : Z) : res (list Z * Z) :=
  match r with
  | Fill n v => alloc_fill n v mem
  | Copy source => alloc_copy source mem
  | CopyFill n source v => alloc_copy_fill n source v mem
  end.

(** A layout for [mem] words. *)
Definition for_words (t : ty) (mem : Z) (l : layout) : Prop :=
  l_size l = mem * t_size t /\ (l_align l = t_align t \/ (mem = 0 /\ l_align l = 1)).

(** [r] is the layout of [mem] words if the address space is large enough for it. *)
Definition lays_out (t : ty) (r : res layout) (mem : Z) : Prop :=
  (mem * t_size t <= ISIZE_MAX -> exists l, r = Ok l /\ for_words t mem l) /\
  (ISIZE_MAX < mem * t_size t -> r = Panic OutOfMemory).

(** The type [Word]. *)
Definition word_type (t : ty) : Prop := type_ok t /\ t_size t = wbits / 8.

End Chunk.
