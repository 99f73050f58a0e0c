(** Counting what multiplication does: src/mul/*.rs again, with a counter.
    Definitions only.

    These are the functions of Model/Mul.v in a monad that counts.  A call of a
    primitive on slices (src/add.rs, src/shift.rs, src/mul/mod.rs:33-108, src/div/mod.rs,
    src/memory.rs) is charged one, plus one for each word its loops can visit; loops that
    may stop early are charged in full.  So is each call of [mul::add_signed_mul] and
    [mul::add_signed_mul_same_len].  C60 proves that the counter changes nothing. *)
From Verif Require Import Model.Base Model.Words Model.Add Model.Shift Model.DivWord Model.Memory Model.Mul.

(** A computation with its number of steps.  E.g. src/mul/simple.rs:28 *)
Definition counted (T : Type) : Type := (Z * res T)%type.

Definition cbind {S T} (m : counted S) (k : S -> counted T) : counted T :=
  match m with
  | (n, Ok x) => let '(n', r) := k x in (n + n', r)
  | (n, Panic p) => (n, Panic p)
  end.

Notation "x <+ m ;; k" := (cbind m (fun x => k))
  (at level 61, m at next level, right associativity).
Notation "' p <+ m ;; k" := (cbind m (fun p => k))
  (at level 61, p pattern, m at next level, right associativity).

(** A computation that is not charged: assertions, splitting slices, arithmetic on
    single words.  E.g. src/mul/karatsuba.rs:76 *)
Definition free {T} (m : res T) : counted T := (0, m).

Notation "'ensure' b ;; k" := (cbind (free (assert b)) (fun _ => k))
  (at level 61, b at next level, right associativity).

(** A call of a primitive whose loops visit at most [n] words.  E.g. src/mul/karatsuba.rs:95 *)
Definition call {T} (n : nat) (m : res T) : counted T := (Z.of_nat n + 1, m).

Section Cost.
Context {A : Arch}.

(** [on_window] of Model/Memory.v.  E.g. src/mul/karatsuba.rs:95 *)
Definition c_window {R} (i j : nat) (c : list Z) (f : list Z -> counted (list Z * R))
  : counted (list Z * R) :=
  if (i <=? j)%nat && (j <=? length c)%nat then
    '(w, r) <+ f (firstn (j - i) (skipn i c)) ;;
    free (Ok (firstn i c ++ w ++ skipn j c, r))
  else free (Panic Internal).

(** The signature of the multiplication routines.  E.g. src/mul/mod.rs:130 *)
Definition c_mul_fn : Type := list Z -> sign -> list Z -> list Z -> Z -> counted (list Z * Z).

(** The loop of src/mul/simple.rs:99-104.  [c] is the slice from index [i] on. *)
Fixpoint c_add_mul_chunk_loop (c a b : list Z) (carry : bool) : counted (list Z * bool) :=
  match b with
  | [] => free (Ok (c, carry))
  | m :: b' =>
      '(c_lo, c_hi) <+ free (split_at (length a) c) ;;
      '(c_lo, carry_word) <+ call (length c_lo) (add_mul_word_same_len_in_place c_lo m a) ;;
      match c_hi with
      | [] => free (Panic Internal)
      | x :: c_rest =>
          let '(w, carry_next) := add_with_carry x carry_word carry in
          match c_lo ++ w :: c_rest with
          | [] => free (Panic Internal)
          | c0 :: c1 =>
              '(c1', cr) <+ c_add_mul_chunk_loop c1 a b' carry_next ;;
              free (Ok (c0 :: c1', cr))
          end
      end
  end.

(** src/mul/simple.rs:95-106 *)
Definition c_add_mul_chunk (c a b : list Z) : counted (list Z * bool) :=
  ensure ((length b <=? length a) && (length c =? length a + length b))%nat ;;
  ensure (length a <? 2 * CHUNK_LEN)%nat ;;
  c_add_mul_chunk_loop c a b false.

(** The loop of src/mul/simple.rs:116-122. *)
Fixpoint c_sub_mul_chunk_loop (c a b : list Z) (borrow : bool) : counted (list Z * bool) :=
  match b with
  | [] => free (Ok (c, borrow))
  | m :: b' =>
      '(c_lo, c_hi) <+ free (split_at (length a) c) ;;
      '(c_lo, borrow_word) <+ call (length c_lo) (sub_mul_word_same_len_in_place c_lo m a) ;;
      match c_hi with
      | [] => free (Panic Internal)
      | x :: c_rest =>
          let '(w, borrow_next) := sub_with_borrow x borrow_word borrow in
          match c_lo ++ w :: c_rest with
          | [] => free (Panic Internal)
          | c0 :: c1 =>
              '(c1', br) <+ c_sub_mul_chunk_loop c1 a b' borrow_next ;;
              free (Ok (c0 :: c1', br))
          end
      end
  end.

(** src/mul/simple.rs:112-124 *)
Definition c_sub_mul_chunk (c a b : list Z) : counted (list Z * bool) :=
  ensure ((length b <=? length a) && (length c =? length a + length b))%nat ;;
  ensure (length a <? 2 * CHUNK_LEN)%nat ;;
  c_sub_mul_chunk_loop c a b false.

(** src/mul/simple.rs:75-89 *)
Definition c_simple_add_signed_mul_chunk : c_mul_fn := fun c s a b _mem =>
  ensure ((length b <=? length a) && (length c =? length a + length b))%nat ;;
  ensure (length a <=? CHUNK_LEN)%nat ;;
  match s with
  | Positive => '(c, o) <+ c_add_mul_chunk c a b ;; free (Ok (c, Z.b2z o))
  | Negative => '(c, o) <+ c_sub_mul_chunk c a b ;; free (Ok (c, - Z.b2z o))
  end.

(** src/mul/simple.rs:59-69 *)
Definition c_simple_add_signed_mul_same_len : c_mul_fn := fun c s a b mem =>
  ensure ((length a =? length b) && (length c =? length a + length b))%nat ;;
  ensure (length b <=? CHUNK_LEN)%nat ;;
  c_simple_add_signed_mul_chunk c s a b mem.

(** src/mul/helpers.rs:32-48: the chunk loop and the remainder, with [f] the
    function for full chunks and [rec] standing for [mul::add_signed_mul]. *)
Fixpoint c_split_chunks_loop (fuel : nat) (f rec : c_mul_fn) (c : list Z) (s : sign)
    (a b : list Z) (chunk_len : nat) (mem : Z) (carry_n : Z) : counted (list Z * Z) :=
  let n := length b in
  if (chunk_len <=? length a)%nat then
    match fuel with
    | O => free (Panic Internal)
    | S fuel' =>
        '(a_lo, a_hi) <+ free (split_at chunk_len a) ;;
        '(c, carry_n) <+ c_window n (chunk_len + n) c
           (fun w => call (length w) (add_signed_word_in_place w carry_n)) ;;
        '(c, k) <+ c_window 0 (chunk_len + n) c (fun w => f w s a_lo b mem) ;;
        carry_n <+ free (sword_chk (carry_n + k)) ;;
        c_window chunk_len (length c) c (fun w =>
          c_split_chunks_loop fuel' f rec w s a_hi b chunk_len mem carry_n)
    end
  else
    '(c, carry) <+ c_window n (length c) c
       (fun w => call (length w) (add_signed_word_in_place w carry_n)) ;;
    if (length b <=? length a)%nat then
      '(c, k) <+ rec c s a b mem ;;
      carry <+ free (sword_chk (carry + k)) ;; free (Ok (c, carry))
    else if negb (length a =? 0)%nat then
      '(c, k) <+ rec c s b a mem ;;
      carry <+ free (sword_chk (carry + k)) ;; free (Ok (c, carry))
    else free (Ok (c, carry)).

(** src/mul/helpers.rs:16-49 *)
Definition c_add_signed_mul_split_into_chunks (f rec : c_mul_fn) (c : list Z) (s : sign)
    (a b : list Z) (chunk_len : nat) (mem : Z) : counted (list Z * Z) :=
  ensure ((length b <=? length a) && (length c =? length a + length b))%nat ;;
  ensure (length b <=? chunk_len)%nat ;;
  c_split_chunks_loop (S (length a)) f rec c s a b chunk_len mem 0.

(** src/mul/karatsuba.rs:68-129, with [rec] standing for
    [mul::add_signed_mul_same_len]. *)
Definition c_karatsuba_same_len (rec : c_mul_fn) : c_mul_fn := fun c s a b mem =>
  let n := length a in
  ensure ((length b =? n) && (length c =? 2 * n))%nat ;;
  ensure (KARATSUBA_MIN_LEN <=? n)%nat ;;
  let mid := ((n + 1) / 2)%nat in
  '(a_lo, a_hi) <+ free (split_at mid a) ;;
  '(b_lo, b_hi) <+ free (split_at mid b) ;;
  (* c_0 += a_lo * b_lo;  c_1 += a_lo * b_lo *)
  '(c_lo, mem1) <+ call (2 * mid) (alloc_fill (2 * mid) 0 mem) ;;
  '(c_lo, overflow) <+ rec c_lo Positive a_lo b_lo mem1 ;;
  ensure (overflow =? 0) ;;
  '(c, carry_c0) <+ c_window 0 (2 * mid) c
     (fun w => call (length w) (add_signed_same_len_in_place w s c_lo)) ;;
  '(c, carry_c1) <+ c_window mid (3 * mid) c
     (fun w => call (length w) (add_signed_same_len_in_place w s c_lo)) ;;
  (* c_2 += a_hi * b_hi;  c_1 += a_hi * b_hi *)
  '(c_hi, mem1) <+ call (2 * (n - mid)) (alloc_fill (2 * (n - mid)) 0 mem) ;;
  '(c_hi, overflow) <+ rec c_hi Positive a_hi b_hi mem1 ;;
  ensure (overflow =? 0) ;;
  '(c, carry) <+ c_window (2 * mid) (length c) c
     (fun w => call (length w) (add_signed_same_len_in_place w s c_hi)) ;;
  '(c, k) <+ c_window mid (3 * mid) c (fun w => call (length w) (add_signed_in_place w s c_hi)) ;;
  carry_c1 <+ free (sword_chk (carry_c1 + k)) ;;
  (* c_1 -= (a_lo - a_hi) * (b_lo - b_hi) *)
  '(a_diff, mem1) <+ call (length a_lo) (alloc_copy a_lo mem) ;;
  '(a_diff, sign_a) <+ call (4 * length a_diff) (sub_in_place_with_sign a_diff a_hi) ;;
  '(b_diff, mem2) <+ call (length b_lo) (alloc_copy b_lo mem1) ;;
  '(b_diff, sign_b) <+ call (4 * length b_diff) (sub_in_place_with_sign b_diff b_hi) ;;
  let diff_sign := sign_mul sign_a sign_b in
  '(c, k) <+ c_window mid (3 * mid) c
     (fun w => rec w (sign_mul (sign_neg s) diff_sign) a_diff b_diff mem2) ;;
  carry_c1 <+ free (sword_chk (carry_c1 + k)) ;;
  (* Propagate carries. *)
  '(c, k) <+ c_window (2 * mid) (3 * mid) c
     (fun w => call (length w) (add_signed_word_in_place w carry_c0)) ;;
  carry_c1 <+ free (sword_chk (carry_c1 + k)) ;;
  '(c, k) <+ c_window (3 * mid) (length c) c
     (fun w => call (length w) (add_signed_word_in_place w carry_c1)) ;;
  carry <+ free (sword_chk (carry + k)) ;;
  ensure (Z.abs carry <=? 1) ;;
  free (Ok (c, carry)).

(** src/mul/toom_3.rs:87-265, with [rec] standing for
    [mul::add_signed_mul_same_len]. *)
Definition c_toom_3_same_len (rec : c_mul_fn) : c_mul_fn := fun c s a b mem =>
  let n := length a in
  ensure ((length b =? n) && (length c =? 2 * n))%nat ;;
  ensure (TOOM_3_MIN_LEN <=? n)%nat ;;
  let n3 := ((n + 2) / 3)%nat in
  let n3_short := (n - 2 * n3)%nat in
  '(a0, a12) <+ free (split_at n3 a) ;;
  '(a1, a2) <+ free (split_at n3 a12) ;;
  '(b0, b12) <+ free (split_at n3 b) ;;
  '(b1, b2) <+ free (split_at n3 b12) ;;
  (* Evaluate at 0. *)
  '(t1, mem) <+ call (2 * n3 + 2) (alloc_fill (2 * n3 + 2) 0 mem) ;;
  '(t1_short, t1_top) <+ free (split_at (2 * n3) t1) ;;
  '(t1_short, overflow) <+ rec t1_short Positive a0 b0 mem ;;
  ensure (overflow =? 0) ;;
  '(c, carry_c0) <+ c_window 0 (2 * n3) c
     (fun w => call (length w) (add_signed_same_len_in_place w s t1_short)) ;;
  '(c, carry_c2) <+ c_window (2 * n3) (4 * n3 + 2) c
     (fun w => call (length w) (add_signed_in_place w (sign_neg s) t1_short)) ;;
  '(t1_short, t1_carry) <+ call (length t1_short) (mul_word_in_place t1_short 3) ;;
  let t1 := t1_short ++ [t1_carry; 0] in
  (* Evaluate at 2. *)
  '(a_eval, mem) <+ call (n3 + 1) (alloc_copy_fill (n3 + 1) a0 0 mem) ;;
  '(b_eval, mem) <+ call (n3 + 1) (alloc_copy_fill (n3 + 1) b0 0 mem) ;;
  a_lo <+ free (slice_to n3 a_eval) ;;
  '(a_lo, k1) <+ call (length a_lo) (add_mul_word_same_len_in_place a_lo 2 a1) ;;
  '(a_lo, k2) <+ call (length a_lo) (add_mul_word_in_place a_lo 4 a2) ;;
  k <+ free (word_chk (k1 + k2)) ;;
  let a_eval := a_lo ++ [k] in
  b_lo <+ free (slice_to n3 b_eval) ;;
  '(b_lo, k1) <+ call (length b_lo) (add_mul_word_same_len_in_place b_lo 2 b1) ;;
  '(b_lo, k2) <+ call (length b_lo) (add_mul_word_in_place b_lo 4 b2) ;;
  k <+ free (word_chk (k1 + k2)) ;;
  let b_eval := b_lo ++ [k] in
  '(t1, overflow) <+ rec t1 Positive a_eval b_eval mem ;;
  ensure (overflow =? 0) ;;
  (* Evaluate at inf. *)
  '(c_eval, mem1) <+ call (2 * n3 + 2) (alloc_fill (2 * n3 + 2) 0 mem) ;;
  c_eval_short <+ free (slice_to (2 * n3_short) c_eval) ;;
  '(c_eval_short, overflow) <+ rec c_eval_short Positive a2 b2 mem1 ;;
  ensure (overflow =? 0) ;;
  '(c, k) <+ c_window (2 * n3) (4 * n3 + 2) c
     (fun w => call (length w) (add_signed_in_place w (sign_neg s) c_eval_short)) ;;
  carry_c2 <+ free (sword_chk (carry_c2 + k)) ;;
  '(c, carry) <+ c_window (4 * n3) (length c) c
     (fun w => call (length w) (add_signed_same_len_in_place w s c_eval_short)) ;;
  '(c_eval_short, k) <+ call (length c_eval_short) (mul_word_in_place c_eval_short 12) ;;
  '(t1, overflow) <+ call (length t1) (sub_in_place t1 (c_eval_short ++ [k])) ;;
  ensure (negb overflow) ;;
  (* Evaluate at 1. *)
  '(t2, mem) <+ call (2 * n3 + 2) (alloc_fill (2 * n3 + 2) 0 mem) ;;
  '(a02, mem1) <+ call (n3 + 1) (alloc_copy_fill (n3 + 1) a0 0 mem) ;;
  a02_lo <+ free (slice_to n3 a02) ;;
  '(a02_lo, o) <+ call (length a02_lo) (add_in_place a02_lo a2) ;;
  let a02 := a02_lo ++ [Z.b2z o] in
  ensure (length a_eval =? length a02)%nat ;;
  '(a_lo, o1) <+ call (length a02_lo) (add_same_len_in_place a02_lo a1) ;;
  k <+ free (word_chk (Z.b2z o + Z.b2z o1)) ;;
  let a_eval := a_lo ++ [k] in
  '(b02, mem2) <+ call (n3 + 1) (alloc_copy_fill (n3 + 1) b0 0 mem1) ;;
  b02_lo <+ free (slice_to n3 b02) ;;
  '(b02_lo, o) <+ call (length b02_lo) (add_in_place b02_lo b2) ;;
  let b02 := b02_lo ++ [Z.b2z o] in
  ensure (length b_eval =? length b02)%nat ;;
  '(b_lo, o1) <+ call (length b02_lo) (add_same_len_in_place b02_lo b1) ;;
  k <+ free (word_chk (Z.b2z o + Z.b2z o1)) ;;
  let b_eval := b_lo ++ [k] in
  '(t2, overflow) <+ rec t2 Positive a_eval b_eval mem2 ;;
  ensure (overflow =? 0) ;;
  '(c, carry_c1) <+ c_window n3 (3 * n3 + 2) c (fun w => call (length w) (add_signed_in_place w s t2)) ;;
  (* Evaluate at -1. *)
  '(a_eval, sign_a) <+ call (4 * length a02) (sub_in_place_with_sign a02 a1) ;;
  '(b_eval, sign_b) <+ call (4 * length b02) (sub_in_place_with_sign b02 b1) ;;
  let value_neg1_sign := sign_mul sign_a sign_b in
  '(c_eval, mem1) <+ call (2 * (n3 + 1)) (alloc_fill (2 * (n3 + 1)) 0 mem) ;;
  '(c_eval, overflow) <+ rec c_eval Positive a_eval b_eval mem1 ;;
  ensure (overflow =? 0) ;;
  '(t2, overflow) <+ call (length t2) (add_signed_same_len_in_place t2 value_neg1_sign c_eval) ;;
  ensure (overflow =? 0) ;;
  '(t1, overflow) <+ match value_neg1_sign with
     | Positive => call (length t1) (add_mul_word_same_len_in_place t1 2 c_eval)
     | Negative => call (length t1) (sub_mul_word_same_len_in_place t1 2 c_eval)
     end ;;
  ensure (overflow =? 0) ;;
  (* t1 /= 6, t2 /= 2 *)
  '(t1, t1_rem) <+ call (2 * length t1) (div_by_word_in_place t1 6) ;;
  '(t2, t2_rem) <+ call (length t2) (shr_in_place t2 1) ;;
  ensure (t1_rem =? 0) ;;
  ensure (t2_rem =? 0) ;;
  (* c1 -= t1, c3 += t1, c2 += t2, c3 -= t2 *)
  '(c, k) <+ c_window n3 (3 * n3 + 2) c
     (fun w => call (length w) (add_signed_same_len_in_place w (sign_neg s) t1)) ;;
  carry_c1 <+ free (sword_chk (carry_c1 + k)) ;;
  '(c, carry_c3) <+ c_window (3 * n3) (5 * n3 + 2) c
     (fun w => call (length w) (add_signed_same_len_in_place w s t1)) ;;
  '(c, k) <+ c_window (2 * n3) (4 * n3 + 2) c
     (fun w => call (length w) (add_signed_same_len_in_place w s t2)) ;;
  carry_c2 <+ free (sword_chk (carry_c2 + k)) ;;
  '(c, k) <+ c_window (3 * n3) (5 * n3 + 2) c
     (fun w => call (length w) (add_signed_same_len_in_place w (sign_neg s) t2)) ;;
  carry_c3 <+ free (sword_chk (carry_c3 + k)) ;;
  (* Apply carries. *)
  '(c, k) <+ c_window (2 * n3) (3 * n3 + 2) c
     (fun w => call (length w) (add_signed_word_in_place w carry_c0)) ;;
  carry_c1 <+ free (sword_chk (carry_c1 + k)) ;;
  '(c, k) <+ c_window (3 * n3 + 2) (4 * n3 + 2) c
     (fun w => call (length w) (add_signed_word_in_place w carry_c1)) ;;
  carry_c2 <+ free (sword_chk (carry_c2 + k)) ;;
  '(c, k) <+ c_window (4 * n3 + 2) (5 * n3 + 2) c
     (fun w => call (length w) (add_signed_word_in_place w carry_c2)) ;;
  carry_c3 <+ free (sword_chk (carry_c3 + k)) ;;
  '(c, k) <+ c_window (5 * n3 + 2) (length c) c
     (fun w => call (length w) (add_signed_word_in_place w carry_c3)) ;;
  carry <+ free (sword_chk (carry + k)) ;;
  ensure (Z.abs carry <=? 1) ;;
  free (Ok (c, carry)).

(** src/mul/mod.rs:156-173.  The fuel is the number of calls of the recursive
    multiplication functions that may be nested; running out of it is an
    [Internal] error. *)
Fixpoint c_same_len_fuel (fuel : nat) : c_mul_fn := fun c s a b mem =>
  match fuel with
  | O => free (Panic Internal)
  | S fuel' =>
      _ <+ call 0 (Ok tt) ;;
      let n := length a in
      ensure ((length b =? n) && (length c =? 2 * n))%nat ;;
      if (n <=? MAX_LEN_SIMPLE)%nat then c_simple_add_signed_mul_same_len c s a b mem
      else if (n <=? MAX_LEN_KARATSUBA)%nat then
        c_karatsuba_same_len (c_same_len_fuel fuel') c s a b mem
      else c_toom_3_same_len (c_same_len_fuel fuel') c s a b mem
  end.

Definition c_add_signed_mul_same_len : c_mul_fn := fun c s a b mem =>
  c_same_len_fuel (S (length a)) c s a b mem.

(** src/mul/mod.rs:130-150 with src/mul/simple.rs:31-53,
    src/mul/karatsuba.rs:43-61 and src/mul/toom_3.rs:62-80 inlined; the fuel
    is the number of calls that may be nested. *)
Fixpoint c_add_signed_mul_fuel (fuel : nat) : c_mul_fn := fun c s a b mem =>
  match fuel with
  | O => free (Panic Internal)
  | S fuel' =>
      _ <+ call 0 (Ok tt) ;;
      ensure (length c =? length a + length b)%nat ;;
      let '(a, b) := if (length a <? length b)%nat then (b, a) else (a, b) in
      let rec := c_add_signed_mul_fuel fuel' in
      if (length b <=? MAX_LEN_SIMPLE)%nat then
        ensure ((length b <=? length a) && (length c =? length a + length b))%nat ;;
        ensure (length b <=? CHUNK_LEN)%nat ;;
        if (length a <=? CHUNK_LEN)%nat then c_simple_add_signed_mul_chunk c s a b mem
        else c_add_signed_mul_split_into_chunks c_simple_add_signed_mul_chunk rec c s a b CHUNK_LEN mem
      else if (length b <=? MAX_LEN_KARATSUBA)%nat then
        ensure ((length b <=? length a) && (KARATSUBA_MIN_LEN <=? length b)
               && (length c =? length a + length b))%nat ;;
        c_add_signed_mul_split_into_chunks (c_karatsuba_same_len (c_same_len_fuel fuel')) rec
          c s a b (length b) mem
      else
        ensure ((length b <=? length a) && (TOOM_3_MIN_LEN <=? length b)
               && (length c =? length a + length b))%nat ;;
        c_add_signed_mul_split_into_chunks (c_toom_3_same_len (c_same_len_fuel fuel')) rec
          c s a b (length b) mem
  end.

Definition c_add_signed_mul : c_mul_fn := fun c s a b mem =>
  c_add_signed_mul_fuel (S (length a + length b)) c s a b mem.

End Cost.
