(** C50: scratch memory hands out valid, separate slices with the right contents. *)
From Coq Require Import ZArith List Lia.
From Verif Require Import Model.Base Model.Words Model.Memory Model.RawMemory Spec.Val Spec.Chunk
  Proofs.RawMemoryProofs Proofs.Samples.
Import ListNotations.
Open Scope Z_scope.

(** The search finds the lowest address at which the slice fits, and fails only if
    there is none: wrap-around of addresses and overflow of sizes do not mislead it. *)
Theorem C50_search (A : Arch) (AOK : ArchOk A) (t : ty) (n : Z) (m : memory) :
  type_ok t -> chunk_ok m -> 0 <= n ->
  match try_find_memory_for_slice t n m with
  | Some (p, e) => place t n p m /\ e = p + n * t_size t /\ (forall q, place t n q m -> p <= q) /\ p < m_start m + t_align t
  | None => forall q, ~ place t n q m
  end.
Proof. exact (find_spec t n m). Qed.
Print Assumptions C50_search.

Example C50_search_ex : let A := arch16 in let t := mkTy 4 4 in
  type_ok t /\ chunk_ok (mkMemory 65521 65535) /\
  try_find_memory_for_slice t 2 (mkMemory 65521 65535) = Some (65524, 65532) /\
  try_find_memory_for_slice t 3 (mkMemory 65521 65535) = None /\
  try_find_memory_for_slice t (2 ^ 15) (mkMemory 0 65535) = None /\
  try_find_memory_for_slice t 0 (mkMemory 65533 65535) = None.
Proof.
  cbv zeta. split; [split; [exists 2; cbn; lia|split; [cbn; lia|exists 1; reflexivity]]|].
  split; [unfold chunk_ok; cbn; lia|]. sample.
Qed.

(** One request: the slice is aligned and inside the chunk, it holds the elements
    asked for, no byte outside it changes, and the rest of the chunk remains.  The
    only panic is an internal one, when no place exists. *)
Theorem C50_request (A : Arch) (AOK : ArchOk A) (t : ty) (r : request) (m : memory) (st : store) :
  type_ok t -> chunk_ok m -> request_ok t r ->
  match allocate t r m st with
  | Ok (p, m', st') =>
      place t (count r) p m /\ p < m_start m + t_align t /\ m' = mkMemory (p + count r * t_size t) (m_end m) /\
      read_slice st' p (t_size t) (length (elements r)) = elements r /\
      (forall a, ~ p <= a < p + count r * t_size t -> st' a = st a)
  | Panic q => q = Internal /\ forall p, ~ place t (count r) p m
  end.
Proof. exact (raw_allocate_spec t r m st). Qed.
Print Assumptions C50_request.

Example C50_request_ex : let A := arch16 in let t := mkTy 2 2 in let r := CopyFill 4 [258; 65535] 7 in
  type_ok t /\ chunk_ok (mkMemory 101 120) /\ request_ok t r /\
  match allocate t r (mkMemory 101 120) (fun a => a) with
  | Ok (p, m', st') => p = 102 /\ m' = mkMemory 110 120 /\ read_slice st' p 2 4 = [258; 65535; 7; 7] /\ map st' [101; 102; 103; 110] = [101; 2; 1; 110]
  | _ => False
  end.
Proof.
  cbv zeta. split; [split; [exists 1; cbn; lia|split; [cbn; lia|exists 1; reflexivity]]|].
  split; [unfold chunk_ok; cbn; lia|]. split; [split; [repeat constructor; cbn; lia|cbn; lia]|]. sample.
Qed.

(** Any sequence of nested requests, of any types: every slice is aligned and
    inside the chunk, the slices are pairwise disjoint, they all still hold their
    elements at the end, and no other byte has changed. *)
Theorem C50_nested (A : Arch) (AOK : ArchOk A) (rs : list (ty * request)) :
  Forall (fun x => type_ok (fst x) /\ request_ok (fst x) (snd x)) rs ->
  forall m st ptrs m' st', chunk_ok m -> allocate_all rs m st = Ok (ptrs, m', st') ->
  length ptrs = length rs /\ Forall (good st' m) (combine rs ptrs) /\
  ForallOrdPairs apart2 (combine rs ptrs) /\
  chunk_ok m' /\ m_start m <= m_start m' /\ m_end m' = m_end m /\
  (forall a, ~ m_start m <= a < m_start m' -> st' a = st a) /\
  Forall (fun x => snd x + count (snd (fst x)) * t_size (fst (fst x)) <= m_start m') (combine rs ptrs).
Proof. exact (allocate_all_spec rs). Qed.
Print Assumptions C50_nested.

Example C50_nested_ex : let A := arch16 in
  let rs := [(mkTy 2 2, Copy [1; 2]); (mkTy 1 1, Fill 3 255); (mkTy 4 4, Fill 1 65536)] in
  Forall (fun x => type_ok (fst x) /\ request_ok (fst x) (snd x)) rs /\ chunk_ok (mkMemory 9 40) /\
  match allocate_all rs (mkMemory 9 40) (fun _ => 0) with
  | Ok (ptrs, m', st') => ptrs = [10; 14; 20] /\ m' = mkMemory 24 40 /\ read_slice st' 20 4 1 = [65536]
  | _ => False
  end.
Proof.
  cbv zeta. split; [|split; [unfold chunk_ok; cbn; lia|sample]].
  repeat constructor; cbn; try lia.
  - exists 1; cbn; lia.
  - exists 1; reflexivity.
  - exists 0; cbn; lia.
  - exists 1; reflexivity.
  - exists 2; cbn; lia.
  - exists 1; reflexivity.
Qed.

(** Counting words, as the rest of the model does, is faithful: whenever it hands
    out a slice, so does the code, with the same elements, and the chunk that
    remains holds the number of words that remain; whenever it refuses a non-empty
    slice, the code panics. *)
Theorem C50_word_count (A : Arch) (AOK : ArchOk A) (t : ty) (r : request) (m : memory) (mem : Z) (st : store) :
  type_ok t -> tracks t m mem -> request_ok t r ->
  match counted r mem with
  | Ok (ws, mem') => exists p m' st', allocate t r m st = Ok (p, m', st') /\ read_slice st' p (t_size t) (length ws) = ws /\ tracks t m' mem'
  | Panic q => q = Internal /\ (elements r <> [] -> allocate t r m st = Panic Internal)
  end.
Proof. exact (tracks_alloc t r m mem st). Qed.
Print Assumptions C50_word_count.

Example C50_word_count_ex : let A := arch16 in let t := mkTy 2 2 in
  tracks t (mkMemory 100 110) 5 /\ counted (Copy [1; 2; 3]) 5 = Ok ([1; 2; 3], 2) /\ counted (Fill 6 0) 5 = Panic Internal.
Proof.
  cbv zeta. split; [|sample]. split; [unfold chunk_ok; cbn; lia|]. split; [reflexivity|]. intros _. exists 50. reflexivity.
Qed.

(** A block obtained for [mem] words is a chunk of [mem] words, whatever address
    the allocator returns. *)
Theorem C50_block (A : Arch) (AOK : ArchOk A) (t : ty) (l : layout) (mem ptr : Z) (a : allocation) :
  type_ok t -> 0 <= mem -> for_words t mem l -> allocation_new l ptr = Ok a ->
  (allocator_called l = true -> block_ok l ptr) -> tracks t (chunk_of a) mem.
Proof. exact (block_tracks t l mem ptr a). Qed.
Print Assumptions C50_block.

(** The block is given back if and only if it came from the allocator. *)
Theorem C50_released (A : Arch) (AOK : ArchOk A) (l : layout) (ptr : Z) (a : allocation) :
  allocation_new l ptr = Ok a -> deallocates a = allocator_called l /\ a_layout a = l /\ (deallocates a = true -> a_start a = ptr).
Proof. exact (block_released l ptr a). Qed.
Print Assumptions C50_released.

Example C50_block_ex : let A := arch16 in let l := mkLayout 10 2 in
  for_words (mkTy 2 2) 5 l /\ block_ok l 4096 /\ allocation_new l 4096 = Ok (mkAllocation l 4096) /\
  chunk_of (mkAllocation l 4096) = mkMemory 4096 4106 /\ allocation_new l 0 = Panic OutOfMemory /\
  allocation_new (mkLayout 0 1) 77 = Ok (mkAllocation (mkLayout 0 1) 1).
Proof.
  cbv zeta. split; [split; [reflexivity|left; reflexivity]|]. split; [|sample]. split; [lia|]. split; [exists 2048; reflexivity|cbn; lia].
Qed.
