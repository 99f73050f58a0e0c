(** Scratch memory with addresses: src/memory.rs, and the layouts that the
    multiplication and division routines ask for.  Definitions only.

    Model/Memory.v only counts words; here are the pointers, the alignment, the
    bytes and the [unsafe] writes.  An address is an integer below 2^ubits. *)
From Verif Require Import Model.Base Model.Words Model.Memory Model.FastDivide Model.Mul Model.Div Model.Buffer.

(** ** Types and layouts of the core library *)

(** [mem::size_of::<T>()] and [mem::align_of::<T>()]. E.g. src/memory.rs:158 *)
Record ty := mkTy { t_size : Z; t_align : Z }.

(** [core::alloc::Layout]. E.g. src/memory.rs:8 *)
Record layout := mkLayout { l_size : Z; l_align : Z }.

Section RawMemory.
Context {A : Arch}.

(** E.g. src/memory.rs:174 *)
Definition ISIZE_MAX : Z := 2 ^ (ubits - 1) - 1.

(** [usize::checked_add], [usize::checked_mul]. E.g. src/memory.rs:157 *)
Definition checked_usize (z : Z) : option Z := if z <=? USIZE_MAX then Some z else None.

(** [usize::wrapping_neg], [pointer::wrapping_add]. E.g. src/memory.rs:156 *)
Definition wrapping (z : Z) : Z := z mod 2 ^ ubits.

(** [Layout::from_size_align] of the core library: [None] unless [align] is a
    power of two and [size], rounded up to a multiple of [align], is at most
    [isize::MAX]. E.g. src/memory.rs:170 *)
Definition from_size_align (size align : Z) : option layout :=
  if (0 <? align) && (Z.land align (align - 1) =? 0) && (size <=? ISIZE_MAX - (align - 1))
  then Some (mkLayout size align) else None.

(** [Layout::array::<T>(n)] of the core library. E.g. src/memory.rs:174 *)
Definition layout_array (t : ty) (n : Z) : option layout :=
  match checked_usize (n * t_size t) with
  | Some size => from_size_align size (t_align t)
  | None => None
  end.

(** [Layout::padding_needed_for] of the core library: [size] is rounded up to a
    multiple of [align], as [(size + align - 1) & !(align - 1)]. E.g. src/memory.rs:178 *)
Definition padding_needed_for (size align : Z) : Z := Z.ldiff (size + align - 1) (align - 1) - size.

(** [Layout::extend] of the core library, without the offset. E.g. src/memory.rs:178 *)
Definition layout_extend (a b : layout) : option layout :=
  match checked_usize (l_size a + padding_needed_for (l_size a) (l_align b)) with
  | None => None
  | Some offset =>
      match checked_usize (offset + l_size b) with
      | None => None
      | Some size => from_size_align size (Z.max (l_align a) (l_align b))
      end
  end.

(** [unwrap_or_else(|_| panic_out_of_memory())]. E.g. src/memory.rs:174 *)
Definition or_out_of_memory {T} (o : option T) : res T :=
  match o with Some x => Ok x | None => Panic OutOfMemory end.

(** src/memory.rs:168-171 *)
Definition zero_layout : res layout :=
  match from_size_align 0 1 with Some l => Ok l | None => Panic Internal end.

(** src/memory.rs:173-175 *)
Definition array_layout (t : ty) (n : Z) : res layout := or_out_of_memory (layout_array t n).

(** src/memory.rs:177-180 *)
Definition add_layout (a b : layout) : res layout := or_out_of_memory (layout_extend a b).

(** src/memory.rs:182-185 *)
Definition max_layout (a b : layout) : res layout :=
  or_out_of_memory (from_size_align (Z.max (l_size a) (l_size b)) (Z.max (l_align a) (l_align b))).

(** ** Blocks and chunks *)

(** src/memory.rs:7-10 *)
Record allocation := mkAllocation { a_layout : layout; a_start : Z }.

(** src/memory.rs:13-20 *)
Record memory := mkMemory { m_start : Z; m_end : Z }.

(** src/memory.rs:24-40.  [ptr] is the address that the global allocator returns
    when it is called, 0 if it fails. *)
Definition allocation_new (l : layout) (ptr : Z) : res allocation :=
  if l_size l =? 0 then Ok (mkAllocation l (l_align l))
  else if ISIZE_MAX <? l_size l then Panic OutOfMemory
  else if ptr =? 0 then Panic OutOfMemory
  else Ok (mkAllocation l ptr).

(** Whether [new] calls the allocator, and whether [drop] gives the block back:
    src/memory.rs:25, 55. *)
Definition allocator_called (l : layout) : bool := negb (l_size l =? 0).
Definition deallocates (a : allocation) : bool := negb (l_size (a_layout a) =? 0).

(** src/memory.rs:44-50 *)
Definition chunk_of (a : allocation) : memory :=
  mkMemory (a_start a) (wrapping (a_start a + l_size (a_layout a))).

(** src/memory.rs:152-165 *)
Definition try_find_memory_for_slice (t : ty) (n : Z) (m : memory) : option (Z * Z) :=
  let start := m_start m in
  let padding := Z.land (wrapping (- start)) (t_align t - 1) in
  match checked_usize (start + padding) with
  | None => None
  | Some slice_start =>
      match checked_usize (n * t_size t) with
      | None => None
      | Some size =>
          match checked_usize (slice_start + size) with
          | None => None
          | Some slice_end => if slice_end <=? m_end m then Some (slice_start, slice_end) else None
          end
      end
  end.

(** ** Contents: the bytes at all addresses. E.g. src/memory.rs:75 *)
Definition store := Z -> Z.

(** [ptr.write(v)] for a value of [size] bytes; the value is given as a number and
    stored least significant byte first (the order makes no difference here). E.g. src/memory.rs:75 *)
Definition write (st : store) (ptr size v : Z) : store :=
  fun a => if (ptr <=? a) && (a <? ptr + size) then (v / 256 ^ (a - ptr)) mod 256 else st a.

(** Reading [k] bytes as a number. E.g. src/memory.rs:142 *)
Fixpoint read_bytes (st : store) (ptr : Z) (k : nat) : Z :=
  match k with
  | O => 0
  | S k => st ptr + 256 * read_bytes st (ptr + 1) k
  end.

(** A slice: [n] elements of [size] bytes from [ptr] on. E.g. src/memory.rs:142 *)
Definition read_slice (st : store) (ptr size : Z) (n : nat) : list Z :=
  map (fun i => read_bytes st (ptr + Z.of_nat i * size) (Z.to_nat size)) (seq 0 n).

(** [for (i, v) in source.iter().enumerate() { ptr.add(i).write( *v) }], starting
    with index [i]. E.g. src/memory.rs:75 *)
Fixpoint write_each (st : store) (ptr size i : Z) (source : list Z) : store :=
  match source with
  | [] => st
  | v :: source => write_each (write st (ptr + i * size) size v) ptr size (i + 1) source
  end.

(** [for i in i..i + count { ptr.add(i).write(val) }]. E.g. src/memory.rs:75 *)
Fixpoint write_same (st : store) (ptr size i v : Z) (count : nat) : store :=
  match count with
  | O => st
  | S count => write_same (write st (ptr + i * size) size v) ptr size (i + 1) v count
  end.

(** src/memory.rs:130-150: the slice and the remaining chunk. *)
Definition allocate_slice_initialize (t : ty) (n : Z) (init : Z -> store) (m : memory)
  : res (Z * memory * store) :=
  match try_find_memory_for_slice t n m with
  | None => Panic Internal
  | Some (ptr, slice_end) => Ok (ptr, mkMemory slice_end (m_end m), init ptr)
  end.

(** src/memory.rs:70-79 *)
Definition allocate_slice_fill (t : ty) (n : nat) (v : Z) (m : memory) (st : store)
  : res (Z * memory * store) :=
  allocate_slice_initialize t (Z.of_nat n) (fun ptr => write_same st ptr (t_size t) 0 v n) m.

(** src/memory.rs:88-97 *)
Definition allocate_slice_copy (t : ty) (source : list Z) (m : memory) (st : store)
  : res (Z * memory * store) :=
  allocate_slice_initialize t (Z.of_nat (length source)) (fun ptr => write_each st ptr (t_size t) 0 source) m.

(** src/memory.rs:106-128 *)
Definition allocate_slice_copy_fill (t : ty) (n : nat) (source : list Z) (v : Z) (m : memory) (st : store)
  : res (Z * memory * store) :=
  check (length source <=? n)%nat ;;
  allocate_slice_initialize t (Z.of_nat n) (fun ptr =>
    let st := write_each st ptr (t_size t) 0 source in
    write_same st ptr (t_size t) (Z.of_nat (length source)) v (n - length source)) m.

(** What a caller can ask for. E.g. src/memory.rs:88 *)
Inductive request :=
| Fill (n : nat) (v : Z)
| Copy (source : list Z)
| CopyFill (n : nat) (source : list Z) (v : Z).

(** E.g. src/memory.rs:88 *)
Definition allocate (t : ty) (r : request) (m : memory) (st : store) : res (Z * memory * store) :=
  match r with
  | Fill n v => allocate_slice_fill t n v m st
  | Copy source => allocate_slice_copy t source m st
  | CopyFill n source v => allocate_slice_copy_fill t n source v m st
  end.

(** Nested scopes, as the callers write them: every request is served from the
    chunk that the one before it left over.  Returns the addresses of the slices. E.g. src/mul/karatsuba.rs:92 *)
Fixpoint allocate_all (rs : list (ty * request)) (m : memory) (st : store) : res (list Z * memory * store) :=
  match rs with
  | [] => Ok ([], m, st)
  | (t, r) :: rs =>
      '(ptr, m, st) <- allocate t r m st ;;
      '(ptrs, m, st) <- allocate_all rs m st ;;
      Ok (ptr :: ptrs, m, st)
  end.

(** ** Layouts of the scratch memory *)

(** [Word]. E.g. src/primitive.rs:148 *)
Definition word_size : Z := wbits / 8.

(** src/mul/simple.rs:23-25, src/mul/karatsuba.rs:23-36, src/mul/toom_3.rs:31-55.
    [t] is the type [Word]. *)
Definition karatsuba_layout (t : ty) (n : nat) : res layout :=
  let k := ceil_log_2_usize n in
  n2 <- usize_chk (2 * Z.of_nat n) ;;
  k2 <- usize_chk (2 * k) ;;
  num_words <- usize_chk (n2 + k2) ;;
  array_layout t num_words.
Definition toom_3_layout (t : ty) (n : nat) : res layout :=
  let k := ceil_log_2_usize n in
  n4 <- usize_chk (4 * Z.of_nat n) ;;
  k13 <- usize_chk (13 * k) ;;
  num_words <- usize_chk (n4 + k13) ;;
  array_layout t num_words.

(** src/mul/mod.rs:111-124 *)
Definition mul_layout (t : ty) (smaller_len : nat) : res layout :=
  if (smaller_len <=? MAX_LEN_SIMPLE)%nat then zero_layout
  else if (smaller_len <=? MAX_LEN_KARATSUBA)%nat then karatsuba_layout t smaller_len
  else toom_3_layout t smaller_len.

(** src/div/mod.rs:112-119, src/div/divide_conquer.rs:16-24 *)
Definition div_layout (t : ty) (lhs_len rhs_len : nat) : res layout :=
  check ((rhs_len <=? lhs_len) && (2 <=? rhs_len))%nat ;;
  if ((rhs_len <=? DIV_MAX_LEN_SIMPLE) || (lhs_len - rhs_len <=? DIV_MAX_LEN_SIMPLE))%nat
  then zero_layout
  else mul_layout t (Nat.min (rhs_len / 2) (lhs_len - rhs_len)).

(** src/modular/mul.rs:103-112, for a modulus of [n] words *)
Definition ring_mul_layout (t : ty) (n : nat) : res layout :=
  n2 <- usize_chk (2 * Z.of_nat n) ;;
  a <- array_layout t n2 ;;
  m <- mul_layout t n ;;
  d <- div_layout t (2 * n) n ;;
  x <- max_layout m d ;;
  add_layout a x.

(** src/modular/pow.rs:144-154, for a modulus of [n] words and a given window *)
Definition ring_pow_layout (t : ty) (n : nat) (window_len : Z) : res layout :=
  table_words <- or_out_of_memory (checked_usize ((2 ^ (window_len - 1) - 1) * Z.of_nat n)) ;;
  a <- array_layout t table_words ;;
  x <- ring_mul_layout t n ;;
  add_layout a x.

(** ** Scratch memory of the arithmetic *)

(** The type [Word].  Its alignment is taken to be its size; a smaller one makes no
    difference to the sizes computed here (C51). E.g. src/primitive.rs:148 *)
Definition word_ty : ty := mkTy word_size word_size.

(** src/memory.rs:24-40, 44-50: the number of words in a new block.  The allocator is
    taken to succeed, with some address. *)
Definition new_memory (l : layout) : res Z :=
  a <- allocation_new l (l_align l) ;;
  Ok (l_size (a_layout a) / word_size).

End RawMemory.
