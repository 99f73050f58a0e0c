(** C68: the limits, the compile-time assertions and the growth of buffers. *)
From Verif Require Import Model.Base Model.Buffer Model.UBig Model.Bits Model.Mul Model.Div Model.Serde
  Spec.Val Spec.Num Spec.Growth Proofs.Limits Proofs.LimitsProofs Proofs.Samples.

(** src/ubig.rs:83-93: the number of bits and 16 times the length do not overflow, the
    length is even and fits the largest transform; and no larger length does. *)
Theorem C68_max_len (A : Arch) (AOK : ArchOk A) :
  (Z.even MAX_LEN = true /\ 1022 <= MAX_LEN /\ MAX_LEN * wbits <= 2 ^ ubits - 1 /\ 16 * MAX_LEN <= 2 ^ ubits - 1 /\ MAX_LEN <= 2 ^ NTT_MAX_ORDER) /\
  forall l, Z.even l = true -> l * wbits <= 2 ^ ubits - 1 -> l <= 2 ^ NTT_MAX_ORDER -> l <= MAX_LEN.
Proof. exact (conj max_len_limits max_len_largest). Qed.
Print Assumptions C68_max_len.

(** src/ubig.rs:104-114: exactly the numbers of at most MAX_BIT_LEN bits are supported. *)
Theorem C68_supported (A : Arch) (AOK : ArchOk A) (v : Z) : 0 <= v < 2 ^ MAX_BIT_LEN <-> exists u, ubig_ok u /\ uval u = v.
Proof. exact (supported v). Qed.
Print Assumptions C68_supported.

(** All [const_assert!]s in src on lengths and capacities, for every platform, and MAX_CAPACITY does not overflow. *)
Theorem C68_const_asserts (A : Arch) (AOK : ArchOk A) :
  64 mod wbits = 0 /\ Z.of_nat WORDS_PER_U64 - 1 <= MAX_CAPACITY - MAX_LEN /\ 1 <= MAX_CAPACITY - MAX_LEN /\ MAX_CAPACITY <= 2 ^ ubits - 1 /\
  MAX_LEN mod 2 = 0 /\ (3 <= DIV_MAX_LEN_SIMPLE)%nat /\
  (MAX_LEN_SIMPLE <= CHUNK_LEN)%nat /\ (KARATSUBA_MIN_LEN <= MAX_LEN_SIMPLE + 1)%nat /\ (TOOM_3_MIN_LEN <= MAX_LEN_KARATSUBA + 1)%nat.
Proof. exact const_asserts. Qed.
Print Assumptions C68_const_asserts.

(** A buffer that grows and shrinks by single words, in any order, moves at most nine words
    per change. *)
Theorem C68_growth (A : Arch) (AOK : ArchOk A) (ws : list Z) (b b' : Buffer) (cs : list change) (moved : Z) :
  (forall k, 0 <= k -> vec_cap k = k) -> allocate (len ws) = Ok b -> apply_changes (mkBuffer ws (cap b)) cs = Ok (b', moved) ->
  moved <= 9 * Z.of_nat (length cs).
Proof. exact (growth_amortized ws b b' cs moved). Qed.
Print Assumptions C68_growth.

(** Sixteen words get four more without a move and the fifth moves all twenty; three words
    are dropped without a move, and the fifth drop moves the sixteen that are left. *)
Example C68_case : let A := arch16 in
  (b <- allocate 16 ;; apply_changes (mkBuffer (repeat 7 16) (cap b)) (repeat (Grow 7) 4)) = Ok (mkBuffer (repeat 7 20) 20, 0) /\
  (b <- allocate 16 ;; apply_changes (mkBuffer (repeat 7 16) (cap b)) (repeat (Grow 7) 5)) = Ok (mkBuffer (repeat 7 21) 25, 20) /\
  (b <- allocate 16 ;; apply_changes (mkBuffer (repeat 7 16) (cap b)) (repeat (Grow 7) 5 ++ repeat Drop 3)) = Ok (mkBuffer (repeat 7 18) 25, 20) /\
  (b <- allocate 16 ;; apply_changes (mkBuffer (repeat 7 16) (cap b)) (repeat (Grow 7) 5 ++ repeat Drop 5)) = Ok (mkBuffer (repeat 7 16) 20, 36).
Proof. cbv zeta. sample. Qed.

(** Appending words never moves a buffer: there is a result exactly when the words fit, and
    then the capacity is as before. *)
Theorem C68_append (A : Arch) (b : Buffer) (w : Z) (n : nat) (s : list Z) (r : res Buffer) (ws : list Z) :
  blen b <= cap b ->
  In (r, ws) [(push b w, words b ++ [w]); (push_zeros b n, words b ++ repeat 0 n); (push_zeros_front b n, repeat 0 n ++ words b);
              (extend b s, words b ++ s)] ->
  (len ws <= cap b -> r = Ok (mkBuffer ws (cap b))) /\ (cap b < len ws -> exists p, r = Panic p).
Proof. exact (appends_in_place b w n s r ws). Qed.
Print Assumptions C68_append.

(** Nor does removing words, which fails when there are too few. *)
Theorem C68_remove (A : Arch) (b : Buffer) (n : nat) (r : res Buffer) (ws : list Z) :
  In (r, ws) [(truncate b n, firstn n (words b)); (erase_front b n, skipn n (words b))] ->
  (Z.of_nat n <= blen b -> r = Ok (mkBuffer ws (cap b))) /\ (blen b < Z.of_nat n -> exists p, r = Panic p).
Proof. exact (removals_in_place b n r ws). Qed.
Print Assumptions C68_remove.

(** The operations that may move a buffer keep the words and give a capacity between what is
    asked for and a quarter more. *)
Theorem C68_move (A : Arch) (AOK : ArchOk A) (b source : Buffer) (n : Z) (r : res Buffer) (ws : list Z) (low high : Z) :
  (forall k, 0 <= k -> vec_cap k = k) -> blen b <= cap b -> blen source <= cap source -> 0 <= n ->
  In (r, (ws, (low, high)))
    [(allocate n, ([], (n, n + n / 4 + 4)));
     (buffer_clone source, (words source, (blen source, blen source + blen source / 4 + 4)));
     (resizing_clone_from b source, (words source, (blen source, blen source + blen source / 4 + 4)));
     (shrink b, (words b, (blen b, blen b + blen b / 4 + 4)));
     (ensure_capacity b n, (words b, (Z.max n (cap b), Z.max (n + n / 4 + 4) (cap b))))] ->
  low <= MAX_CAPACITY -> exists c, r = Ok (mkBuffer ws c) /\ low <= c <= high.
Proof. exact (reallocations b source n r ws low high). Qed.
Print Assumptions C68_move.

(** Two words with room for four: two more fit and three do not. *)
Example C68_append_case : let A := arch16 in let b := mkBuffer [7; 8] 4 in
  push_zeros_front b 2 = Ok (mkBuffer [0; 0; 7; 8] 4) /\ push_zeros_front b 3 = Panic Internal /\
  push_zeros b 2 = Ok (mkBuffer [7; 8; 0; 0] 4) /\ push_zeros b 3 = Panic Internal /\
  extend b [1; 2] = Ok (mkBuffer [7; 8; 1; 2] 4) /\ extend b [1; 2; 3] = Panic Internal /\
  (b <- push b 9 ;; push b 10) = Ok (mkBuffer [7; 8; 9; 10] 4) /\ (b <- push b 9 ;; b <- push b 10 ;; push b 11) = Panic Internal /\
  truncate b 1 = Ok (mkBuffer [7] 4) /\ truncate b 3 = Panic Internal /\ erase_front b 1 = Ok (mkBuffer [8] 4).
Proof. cbv zeta. sample. Qed.

(** Two words with room for forty: shrinking leaves room for four, and a clone into the
    large buffer does not keep it. *)
Example C68_move_case : let A := arch16 in let b := mkBuffer [7; 8] 40 in
  shrink b = Ok (mkBuffer [7; 8] 4) /\ shrink (mkBuffer [7; 8] 6) = Ok (mkBuffer [7; 8] 6) /\
  ensure_capacity b 40 = Ok b /\ ensure_capacity b 41 = Ok (mkBuffer [7; 8] 48) /\
  resizing_clone_from b (mkBuffer [1] 3) = Ok (mkBuffer [1] 3) /\ resizing_clone_from (mkBuffer [7; 8] 4) (mkBuffer [1] 3) = Ok (mkBuffer [1] 4).
Proof. cbv zeta. sample. Qed.
