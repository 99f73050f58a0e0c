(** Word buffers: src/buffer.rs, and UBig::MAX_LEN of src/ubig.rs.  Definitions only.

    A [Vec<Word>] is its list of words together with its capacity.
    [Vec::with_capacity(n)] gives a vector of capacity [vec_cap n]; an allocator
    that runs out of memory is outside the model. *)
From Verif Require Import Model.Base.

Section Buffer.
Context {A : Arch}.

(** src/arch/generic_{16,32,64}_bit/ntt.rs:6: MAX_ORDER. *)
Definition NTT_MAX_ORDER : Z :=
  if wbits =? 16 then 12 else if wbits =? 32 then 27 else 57.

Definition USIZE_MAX : Z := 2 ^ ubits - 1.

(** src/ubig.rs:94-100 *)
Definition MAX_LEN : Z :=
  let m := Z.min (USIZE_MAX / wbits)
             (if NTT_MAX_ORDER <? ubits then 2 ^ NTT_MAX_ORDER else USIZE_MAX) in
  m - m mod 2.

(** src/ubig.rs:114 *)
Definition MAX_BIT_LEN : Z := MAX_LEN * wbits.

(** src/buffer.rs:18 *)
Record Buffer := mkBuffer { words : list Z; cap : Z }.

(** [buffer.len()]. E.g. src/buffer.rs:43 *)
Definition len (ws : list Z) : Z := Z.of_nat (length ws).
(** E.g. src/buffer.rs:43 *)
Definition blen (b : Buffer) : Z := len (words b).

(** src/buffer.rs:155 *)
Definition MAX_CAPACITY : Z := MAX_LEN + 4.

(** src/buffer.rs:164-167 *)
Definition default_capacity (num_words : Z) : res Z :=
  check (num_words <=? MAX_CAPACITY) ;;
  Ok (Z.min (num_words + num_words / 8 + 2) MAX_CAPACITY).

(** src/buffer.rs:175-178 *)
Definition max_compact_capacity (num_words : Z) : res Z :=
  check (num_words <=? MAX_CAPACITY) ;;
  Ok (Z.min (num_words + num_words / 4 + 4) MAX_CAPACITY).

(** src/buffer.rs:24-29 *)
Definition allocate (num_words : Z) : res Buffer :=
  if MAX_CAPACITY <? num_words then Panic NumberTooLarge
  else c <- default_capacity num_words ;; Ok (mkBuffer [] (vec_cap c)).

(** src/buffer.rs:191-194: [Vec::clone_from] keeps the capacity. *)
Definition buffer_clone_from (b : Buffer) (source : list Z) : res Buffer :=
  check (len source <=? cap b) ;; Ok (mkBuffer source (cap b)).

(** src/buffer.rs:183-187 *)
Definition buffer_clone (b : Buffer) : res Buffer :=
  n <- allocate (blen b) ;; buffer_clone_from n (words b).

(** src/buffer.rs:53-58 *)
Definition reallocate (b : Buffer) (num_words : Z) : res Buffer :=
  check (blen b <=? num_words) ;;
  n <- allocate num_words ;; buffer_clone_from n (words b).

(** src/buffer.rs:34-38 *)
Definition ensure_capacity (b : Buffer) (num_words : Z) : res Buffer :=
  if cap b <? num_words then reallocate b num_words else Ok b.

(** src/buffer.rs:42-46 *)
Definition shrink (b : Buffer) : res Buffer :=
  m <- max_compact_capacity (blen b) ;;
  if m <? cap b then reallocate b (blen b) else Ok b.

(** src/buffer.rs:72-75 *)
Definition push (b : Buffer) (w : Z) : res Buffer :=
  check (blen b <? cap b) ;; Ok (mkBuffer (words b ++ [w]) (cap b)).

(** src/buffer.rs:79-82 *)
Definition push_may_reallocate (b : Buffer) (w : Z) : res Buffer :=
  n <- usize_chk (blen b + 1) ;;
  b <- ensure_capacity b n ;; push b w.

(** src/buffer.rs:89-92 *)
Definition push_zeros (b : Buffer) (n : nat) : res Buffer :=
  check (Z.of_nat n <=? cap b - blen b) ;;
  Ok (mkBuffer (words b ++ repeat 0 n) (cap b)).

(** src/buffer.rs:99-102 *)
Definition push_zeros_front (b : Buffer) (n : nat) : res Buffer :=
  check (Z.of_nat n <=? cap b - blen b) ;;
  Ok (mkBuffer (repeat 0 n ++ words b) (cap b)).

(** src/buffer.rs:112-116: the words after dropping zeros from the end. *)
Fixpoint drop_zeros (rev_words : list Z) : list Z :=
  match rev_words with
  | w :: t => if w =? 0 then drop_zeros t else rev_words
  | [] => []
  end.

Definition pop_leading_zeros (b : Buffer) : Buffer :=
  mkBuffer (rev (drop_zeros (rev (words b)))) (cap b).

(** src/buffer.rs:120-124 *)
Definition truncate (b : Buffer) (n : nat) : res Buffer :=
  check (n <=? length (words b))%nat ;; Ok (mkBuffer (firstn n (words b)) (cap b)).

(** src/buffer.rs:127-131 *)
Definition erase_front (b : Buffer) (n : nat) : res Buffer :=
  check (n <=? length (words b))%nat ;; Ok (mkBuffer (skipn n (words b)) (cap b)).

(** src/buffer.rs:142-150 *)
Definition resizing_clone_from (b source : Buffer) : res Buffer :=
  let n := blen source in
  m <- (if n <=? cap b then max_compact_capacity n else Ok (-1)) ;;
  if (n <=? cap b) && (cap b <=? m) then buffer_clone_from b (words source)
  else buffer_clone source.

(** src/buffer.rs:213-233: [extend] pushes word by word. *)
Fixpoint extend (b : Buffer) (ws : list Z) : res Buffer :=
  match ws with
  | [] => Ok b
  | w :: t => b <- push b w ;; extend b t
  end.

(** Access to the words through [DerefMut]: src/buffer.rs:197-211. *)
Definition on_words {R} (b : Buffer) (f : list Z -> res (list Z * R)) : res (Buffer * R) :=
  '(ws, r) <- f (words b) ;; Ok (mkBuffer ws (cap b), r).

End Buffer.
