(** Multiplication: src/mul/mod.rs, src/mul/simple.rs, src/mul/helpers.rs,
    src/mul/karatsuba.rs, src/mul/toom_3.rs.  Definitions only.

    The functions take the scratch memory left (in words).  The recursion between
    [mul::add_signed_mul_same_len] and the algorithms is tied with fuel; running
    out of fuel is [Panic Internal] and is proved not to happen. *)
From Verif Require Import Model.Base Model.Words Model.Add Model.Shift Model.DivWord Model.Memory.

Section Mul.
Context {A : Arch}.

(** src/mul/mod.rs:41-50 *)
Fixpoint mul_word_in_place_with_carry (words : list Z) (rhs carry : Z) : res (list Z * Z) :=
  match words with
  | [] => Ok ([], carry)
  | a :: rest =>
      p <- dword_chk (extend_word a * extend_word rhs) ;;
      v <- dword_chk (p + extend_word carry) ;;
      let '(v_lo, v_hi) := split_double_word v in
      '(rest', c) <- mul_word_in_place_with_carry rest rhs v_hi ;;
      Ok (v_lo :: rest', c)
  end.

(** src/mul/mod.rs:33-35 *)
Definition mul_word_in_place (words : list Z) (rhs : Z) : res (list Z * Z) :=
  mul_word_in_place_with_carry words rhs 0.

(** The loop of src/mul/mod.rs:58-66. *)
Fixpoint add_mul_word_loop (words : list Z) (mult : Z) (rhs : list Z) (carry : Z)
  : res (list Z * Z) :=
  match words, rhs with
  | a :: words', b :: rhs' =>
      s <- dword_chk (extend_word a + extend_word carry) ;;
      p <- dword_chk (extend_word mult * extend_word b) ;;
      v <- dword_chk (s + p) ;;
      let '(v_lo, v_hi) := split_double_word v in
      '(rest, c) <- add_mul_word_loop words' mult rhs' v_hi ;;
      Ok (v_lo :: rest, c)
  | _, _ => Ok (words, carry)
  end.

(** src/mul/mod.rs:56-68 *)
Definition add_mul_word_same_len_in_place (words : list Z) (mult : Z) (rhs : list Z)
  : res (list Z * Z) :=
  check (length words =? length rhs)%nat ;;
  add_mul_word_loop words mult rhs 0.

(** src/mul/mod.rs:74-82 *)
Definition add_mul_word_in_place (words : list Z) (mult : Z) (rhs : list Z)
  : res (list Z * Z) :=
  check (length rhs <=? length words)%nat ;;
  let n := length rhs in
  '(words, carry) <- on_window 0 n words
     (fun w => add_mul_word_same_len_in_place w mult rhs) ;;
  if (n <? length words)%nat then
    '(words, o) <- on_window n (length words) words
       (fun w => add_word_in_place w carry) ;;
    Ok (words, Z.b2z o)
  else Ok (words, carry).

(** The loop of src/mul/mod.rs:93-106. *)
Fixpoint sub_mul_word_loop (words : list Z) (mult : Z) (rhs : list Z) (carry_plus_max : Z)
  : res (list Z * Z) :=
  match words, rhs with
  | a :: words', b :: rhs' =>
      s <- dword_chk (extend_word a + extend_word carry_plus_max) ;;
      k <- dword_chk (double_word 0 (B - 1) - extend_word (B - 1)) ;;
      s <- dword_chk (s + k) ;;
      p <- dword_chk (extend_word mult * extend_word b) ;;
      v <- dword_chk (s - p) ;;
      let '(v_lo, v_hi) := split_double_word v in
      '(rest, c) <- sub_mul_word_loop words' mult rhs' v_hi ;;
      Ok (v_lo :: rest, c)
  | _, _ => Ok (words, carry_plus_max)
  end.

(** src/mul/mod.rs:88-108 *)
Definition sub_mul_word_same_len_in_place (words : list Z) (mult : Z) (rhs : list Z)
  : res (list Z * Z) :=
  check (length words =? length rhs)%nat ;;
  '(words, carry_plus_max) <- sub_mul_word_loop words mult rhs (B - 1) ;;
  borrow <- word_chk (B - 1 - carry_plus_max) ;;
  Ok (words, borrow).

(** src/mul/mod.rs:15,20 *)
Definition MAX_LEN_SIMPLE : nat := 24.
Definition MAX_LEN_KARATSUBA : nat := 192.

(** src/mul/simple.rs:15,18 *)
Definition CHUNK_LEN : nat := 1024.

(** src/mul/karatsuba.rs:18, src/mul/toom_3.rs:26 *)
Definition KARATSUBA_MIN_LEN : nat := 3.
Definition TOOM_3_MIN_LEN : nat := 16.

(** src/math.rs:22-25 at type [usize]. *)
Definition ceil_log_2_usize (n : nat) : Z := ceil_log_2 ubits (Z.of_nat n).

(** src/mul/karatsuba.rs:23-36 and src/mul/toom_3.rs:31-55, in words. *)
Definition karatsuba_memory (n : nat) : Z := 2 * Z.of_nat n + 2 * ceil_log_2_usize n.
Definition toom_3_memory (n : nat) : Z := 4 * Z.of_nat n + 13 * ceil_log_2_usize n.

(** src/mul/mod.rs:111-124: [memory_requirement_up_to], [memory_requirement_exact]. *)
Definition mul_memory (smaller_len : nat) : Z :=
  if (smaller_len <=? MAX_LEN_SIMPLE)%nat then 0
  else if (smaller_len <=? MAX_LEN_KARATSUBA)%nat then karatsuba_memory smaller_len
  else toom_3_memory smaller_len.

(** The signature of all the multiplication routines: c += sign * a * b, with
    scratch memory, returning the carry. E.g. src/mul/mod.rs:130 *)
Definition mul_fn : Type := list Z -> sign -> list Z -> list Z -> Z -> res (list Z * Z).

(** The loop of src/mul/simple.rs:99-104.  [c] is the slice from index [i] on. *)
Fixpoint add_mul_chunk_loop (c a b : list Z) (carry : bool) : res (list Z * bool) :=
  match b with
  | [] => Ok (c, carry)
  | m :: b' =>
      '(c_lo, c_hi) <- split_at (length a) c ;;
      '(c_lo, carry_word) <- add_mul_word_same_len_in_place c_lo m a ;;
      match c_hi with
      | [] => Panic Internal
      | x :: c_rest =>
          let '(w, carry_next) := add_with_carry x carry_word carry in
          match c_lo ++ w :: c_rest with
          | [] => Panic Internal
          | c0 :: c1 =>
              '(c1', cr) <- add_mul_chunk_loop c1 a b' carry_next ;;
              Ok (c0 :: c1', cr)
          end
      end
  end.

(** src/mul/simple.rs:95-106 *)
Definition add_mul_chunk (c a b : list Z) : res (list Z * bool) :=
  check ((length b <=? length a) && (length c =? length a + length b))%nat ;;
  check (length a <? 2 * CHUNK_LEN)%nat ;;
  add_mul_chunk_loop c a b false.

(** The loop of src/mul/simple.rs:116-122. *)
Fixpoint sub_mul_chunk_loop (c a b : list Z) (borrow : bool) : res (list Z * bool) :=
  match b with
  | [] => Ok (c, borrow)
  | m :: b' =>
      '(c_lo, c_hi) <- split_at (length a) c ;;
      '(c_lo, borrow_word) <- sub_mul_word_same_len_in_place c_lo m a ;;
      match c_hi with
      | [] => Panic Internal
      | x :: c_rest =>
          let '(w, borrow_next) := sub_with_borrow x borrow_word borrow in
          match c_lo ++ w :: c_rest with
          | [] => Panic Internal
          | c0 :: c1 =>
              '(c1', br) <- sub_mul_chunk_loop c1 a b' borrow_next ;;
              Ok (c0 :: c1', br)
          end
      end
  end.

(** src/mul/simple.rs:112-124 *)
Definition sub_mul_chunk (c a b : list Z) : res (list Z * bool) :=
  check ((length b <=? length a) && (length c =? length a + length b))%nat ;;
  check (length a <? 2 * CHUNK_LEN)%nat ;;
  sub_mul_chunk_loop c a b false.

(** src/mul/simple.rs:75-89 *)
Definition simple_add_signed_mul_chunk : mul_fn := fun c s a b _mem =>
  check ((length b <=? length a) && (length c =? length a + length b))%nat ;;
  check (length a <=? CHUNK_LEN)%nat ;;
  match s with
  | Positive => '(c, o) <- add_mul_chunk c a b ;; Ok (c, Z.b2z o)
  | Negative => '(c, o) <- sub_mul_chunk c a b ;; Ok (c, - Z.b2z o)
  end.

(** src/mul/simple.rs:59-69 *)
Definition simple_add_signed_mul_same_len : mul_fn := fun c s a b mem =>
  check ((length a =? length b) && (length c =? length a + length b))%nat ;;
  check (length b <=? CHUNK_LEN)%nat ;;
  simple_add_signed_mul_chunk c s a b mem.

(** src/mul/helpers.rs:32-48: the chunk loop and the remainder, with [f] the
    function for full chunks and [rec] standing for [mul::add_signed_mul]. *)
Fixpoint split_chunks_loop (fuel : nat) (f rec : mul_fn) (c : list Z) (s : sign)
    (a b : list Z) (chunk_len : nat) (mem : Z) (carry_n : Z) : res (list Z * Z) :=
  let n := length b in
  if (chunk_len <=? length a)%nat then
    match fuel with
    | O => Panic Internal
    | S fuel' =>
        '(a_lo, a_hi) <- split_at chunk_len a ;;
        '(c, carry_n) <- on_window n (chunk_len + n) c
           (fun w => add_signed_word_in_place w carry_n) ;;
        '(c, k) <- on_window 0 (chunk_len + n) c (fun w => f w s a_lo b mem) ;;
        carry_n <- sword_chk (carry_n + k) ;;
        on_window chunk_len (length c) c (fun w =>
          split_chunks_loop fuel' f rec w s a_hi b chunk_len mem carry_n)
    end
  else
    '(c, carry) <- on_window n (length c) c
       (fun w => add_signed_word_in_place w carry_n) ;;
    if (length b <=? length a)%nat then
      '(c, k) <- rec c s a b mem ;;
      carry <- sword_chk (carry + k) ;; Ok (c, carry)
    else if negb (length a =? 0)%nat then
      '(c, k) <- rec c s b a mem ;;
      carry <- sword_chk (carry + k) ;; Ok (c, carry)
    else Ok (c, carry).

(** src/mul/helpers.rs:16-49 *)
Definition add_signed_mul_split_into_chunks (f rec : mul_fn) (c : list Z) (s : sign)
    (a b : list Z) (chunk_len : nat) (mem : Z) : res (list Z * Z) :=
  check ((length b <=? length a) && (length c =? length a + length b))%nat ;;
  check (length b <=? chunk_len)%nat ;;
  split_chunks_loop (S (length a)) f rec c s a b chunk_len mem 0.

(** src/mul/karatsuba.rs:68-129, with [rec] standing for
    [mul::add_signed_mul_same_len]. *)
Definition karatsuba_same_len (rec : mul_fn) : mul_fn := fun c s a b mem =>
  let n := length a in
  check ((length b =? n) && (length c =? 2 * n))%nat ;;
  check (KARATSUBA_MIN_LEN <=? n)%nat ;;
  let mid := ((n + 1) / 2)%nat in
  '(a_lo, a_hi) <- split_at mid a ;;
  '(b_lo, b_hi) <- split_at mid b ;;
  (* c_0 += a_lo * b_lo;  c_1 += a_lo * b_lo *)
  '(c_lo, mem1) <- alloc_fill (2 * mid) 0 mem ;;
  '(c_lo, overflow) <- rec c_lo Positive a_lo b_lo mem1 ;;
  check (overflow =? 0) ;;
  '(c, carry_c0) <- on_window 0 (2 * mid) c
     (fun w => add_signed_same_len_in_place w s c_lo) ;;
  '(c, carry_c1) <- on_window mid (3 * mid) c
     (fun w => add_signed_same_len_in_place w s c_lo) ;;
  (* c_2 += a_hi * b_hi;  c_1 += a_hi * b_hi *)
  '(c_hi, mem1) <- alloc_fill (2 * (n - mid)) 0 mem ;;
  '(c_hi, overflow) <- rec c_hi Positive a_hi b_hi mem1 ;;
  check (overflow =? 0) ;;
  '(c, carry) <- on_window (2 * mid) (length c) c
     (fun w => add_signed_same_len_in_place w s c_hi) ;;
  '(c, k) <- on_window mid (3 * mid) c (fun w => add_signed_in_place w s c_hi) ;;
  carry_c1 <- sword_chk (carry_c1 + k) ;;
  (* c_1 -= (a_lo - a_hi) * (b_lo - b_hi) *)
  '(a_diff, mem1) <- alloc_copy a_lo mem ;;
  '(a_diff, sign_a) <- sub_in_place_with_sign a_diff a_hi ;;
  '(b_diff, mem2) <- alloc_copy b_lo mem1 ;;
  '(b_diff, sign_b) <- sub_in_place_with_sign b_diff b_hi ;;
  let diff_sign := sign_mul sign_a sign_b in
  '(c, k) <- on_window mid (3 * mid) c
     (fun w => rec w (sign_mul (sign_neg s) diff_sign) a_diff b_diff mem2) ;;
  carry_c1 <- sword_chk (carry_c1 + k) ;;
  (* Propagate carries. *)
  '(c, k) <- on_window (2 * mid) (3 * mid) c
     (fun w => add_signed_word_in_place w carry_c0) ;;
  carry_c1 <- sword_chk (carry_c1 + k) ;;
  '(c, k) <- on_window (3 * mid) (length c) c
     (fun w => add_signed_word_in_place w carry_c1) ;;
  carry <- sword_chk (carry + k) ;;
  check (Z.abs carry <=? 1) ;;
  Ok (c, carry).

(** src/mul/toom_3.rs:87-265, with [rec] standing for
    [mul::add_signed_mul_same_len]. *)
Definition toom_3_same_len (rec : mul_fn) : mul_fn := fun c s a b mem =>
  let n := length a in
  check ((length b =? n) && (length c =? 2 * n))%nat ;;
  check (TOOM_3_MIN_LEN <=? n)%nat ;;
  let n3 := ((n + 2) / 3)%nat in
  let n3_short := (n - 2 * n3)%nat in
  '(a0, a12) <- split_at n3 a ;;
  '(a1, a2) <- split_at n3 a12 ;;
  '(b0, b12) <- split_at n3 b ;;
  '(b1, b2) <- split_at n3 b12 ;;
  (* Evaluate at 0. *)
  '(t1, mem) <- alloc_fill (2 * n3 + 2) 0 mem ;;
  '(t1_short, t1_top) <- split_at (2 * n3) t1 ;;
  '(t1_short, overflow) <- rec t1_short Positive a0 b0 mem ;;
  check (overflow =? 0) ;;
  '(c, carry_c0) <- on_window 0 (2 * n3) c
     (fun w => add_signed_same_len_in_place w s t1_short) ;;
  '(c, carry_c2) <- on_window (2 * n3) (4 * n3 + 2) c
     (fun w => add_signed_in_place w (sign_neg s) t1_short) ;;
  '(t1_short, t1_carry) <- mul_word_in_place t1_short 3 ;;
  let t1 := t1_short ++ [t1_carry; 0] in
  (* Evaluate at 2. *)
  '(a_eval, mem) <- alloc_copy_fill (n3 + 1) a0 0 mem ;;
  '(b_eval, mem) <- alloc_copy_fill (n3 + 1) b0 0 mem ;;
  a_lo <- slice_to n3 a_eval ;;
  '(a_lo, k1) <- add_mul_word_same_len_in_place a_lo 2 a1 ;;
  '(a_lo, k2) <- add_mul_word_in_place a_lo 4 a2 ;;
  k <- word_chk (k1 + k2) ;;
  let a_eval := a_lo ++ [k] in
  b_lo <- slice_to n3 b_eval ;;
  '(b_lo, k1) <- add_mul_word_same_len_in_place b_lo 2 b1 ;;
  '(b_lo, k2) <- add_mul_word_in_place b_lo 4 b2 ;;
  k <- word_chk (k1 + k2) ;;
  let b_eval := b_lo ++ [k] in
  '(t1, overflow) <- rec t1 Positive a_eval b_eval mem ;;
  check (overflow =? 0) ;;
  (* Evaluate at inf. *)
  '(c_eval, mem1) <- alloc_fill (2 * n3 + 2) 0 mem ;;
  c_eval_short <- slice_to (2 * n3_short) c_eval ;;
  '(c_eval_short, overflow) <- rec c_eval_short Positive a2 b2 mem1 ;;
  check (overflow =? 0) ;;
  '(c, k) <- on_window (2 * n3) (4 * n3 + 2) c
     (fun w => add_signed_in_place w (sign_neg s) c_eval_short) ;;
  carry_c2 <- sword_chk (carry_c2 + k) ;;
  '(c, carry) <- on_window (4 * n3) (length c) c
     (fun w => add_signed_same_len_in_place w s c_eval_short) ;;
  '(c_eval_short, k) <- mul_word_in_place c_eval_short 12 ;;
  '(t1, overflow) <- sub_in_place t1 (c_eval_short ++ [k]) ;;
  check (negb overflow) ;;
  (* Evaluate at 1. *)
  '(t2, mem) <- alloc_fill (2 * n3 + 2) 0 mem ;;
  '(a02, mem1) <- alloc_copy_fill (n3 + 1) a0 0 mem ;;
  a02_lo <- slice_to n3 a02 ;;
  '(a02_lo, o) <- add_in_place a02_lo a2 ;;
  let a02 := a02_lo ++ [Z.b2z o] in
  check (length a_eval =? length a02)%nat ;;
  '(a_lo, o1) <- add_same_len_in_place a02_lo a1 ;;
  k <- word_chk (Z.b2z o + Z.b2z o1) ;;
  let a_eval := a_lo ++ [k] in
  '(b02, mem2) <- alloc_copy_fill (n3 + 1) b0 0 mem1 ;;
  b02_lo <- slice_to n3 b02 ;;
  '(b02_lo, o) <- add_in_place b02_lo b2 ;;
  let b02 := b02_lo ++ [Z.b2z o] in
  check (length b_eval =? length b02)%nat ;;
  '(b_lo, o1) <- add_same_len_in_place b02_lo b1 ;;
  k <- word_chk (Z.b2z o + Z.b2z o1) ;;
  let b_eval := b_lo ++ [k] in
  '(t2, overflow) <- rec t2 Positive a_eval b_eval mem2 ;;
  check (overflow =? 0) ;;
  '(c, carry_c1) <- on_window n3 (3 * n3 + 2) c (fun w => add_signed_in_place w s t2) ;;
  (* Evaluate at -1. *)
  '(a_eval, sign_a) <- sub_in_place_with_sign a02 a1 ;;
  '(b_eval, sign_b) <- sub_in_place_with_sign b02 b1 ;;
  let value_neg1_sign := sign_mul sign_a sign_b in
  '(c_eval, mem1) <- alloc_fill (2 * (n3 + 1)) 0 mem ;;
  '(c_eval, overflow) <- rec c_eval Positive a_eval b_eval mem1 ;;
  check (overflow =? 0) ;;
  '(t2, overflow) <- add_signed_same_len_in_place t2 value_neg1_sign c_eval ;;
  check (overflow =? 0) ;;
  '(t1, overflow) <- match value_neg1_sign with
     | Positive => add_mul_word_same_len_in_place t1 2 c_eval
     | Negative => sub_mul_word_same_len_in_place t1 2 c_eval
     end ;;
  check (overflow =? 0) ;;
  (* t1 /= 6, t2 /= 2 *)
  '(t1, t1_rem) <- div_by_word_in_place t1 6 ;;
  '(t2, t2_rem) <- shr_in_place t2 1 ;;
  check (t1_rem =? 0) ;;
  check (t2_rem =? 0) ;;
  (* c1 -= t1, c3 += t1, c2 += t2, c3 -= t2 *)
  '(c, k) <- on_window n3 (3 * n3 + 2) c
     (fun w => add_signed_same_len_in_place w (sign_neg s) t1) ;;
  carry_c1 <- sword_chk (carry_c1 + k) ;;
  '(c, carry_c3) <- on_window (3 * n3) (5 * n3 + 2) c
     (fun w => add_signed_same_len_in_place w s t1) ;;
  '(c, k) <- on_window (2 * n3) (4 * n3 + 2) c
     (fun w => add_signed_same_len_in_place w s t2) ;;
  carry_c2 <- sword_chk (carry_c2 + k) ;;
  '(c, k) <- on_window (3 * n3) (5 * n3 + 2) c
     (fun w => add_signed_same_len_in_place w (sign_neg s) t2) ;;
  carry_c3 <- sword_chk (carry_c3 + k) ;;
  (* Apply carries. *)
  '(c, k) <- on_window (2 * n3) (3 * n3 + 2) c
     (fun w => add_signed_word_in_place w carry_c0) ;;
  carry_c1 <- sword_chk (carry_c1 + k) ;;
  '(c, k) <- on_window (3 * n3 + 2) (4 * n3 + 2) c
     (fun w => add_signed_word_in_place w carry_c1) ;;
  carry_c2 <- sword_chk (carry_c2 + k) ;;
  '(c, k) <- on_window (4 * n3 + 2) (5 * n3 + 2) c
     (fun w => add_signed_word_in_place w carry_c2) ;;
  carry_c3 <- sword_chk (carry_c3 + k) ;;
  '(c, k) <- on_window (5 * n3 + 2) (length c) c
     (fun w => add_signed_word_in_place w carry_c3) ;;
  carry <- sword_chk (carry + k) ;;
  check (Z.abs carry <=? 1) ;;
  Ok (c, carry).

(** src/mul/mod.rs:156-173.  The fuel is the number of calls of the recursive
    multiplication functions that may be nested; running out of it is an
    [Internal] error. *)
Fixpoint same_len_fuel (fuel : nat) : mul_fn := fun c s a b mem =>
  match fuel with
  | O => Panic Internal
  | S fuel' =>
      let n := length a in
      check ((length b =? n) && (length c =? 2 * n))%nat ;;
      if (n <=? MAX_LEN_SIMPLE)%nat then simple_add_signed_mul_same_len c s a b mem
      else if (n <=? MAX_LEN_KARATSUBA)%nat then
        karatsuba_same_len (same_len_fuel fuel') c s a b mem
      else toom_3_same_len (same_len_fuel fuel') c s a b mem
  end.

Definition add_signed_mul_same_len : mul_fn := fun c s a b mem =>
  same_len_fuel (S (length a)) c s a b mem.

(** src/mul/mod.rs:130-150 with src/mul/simple.rs:31-53,
    src/mul/karatsuba.rs:43-61 and src/mul/toom_3.rs:62-80 inlined; the fuel
    is the number of calls that may be nested. *)
Fixpoint add_signed_mul_fuel (fuel : nat) : mul_fn := fun c s a b mem =>
  match fuel with
  | O => Panic Internal
  | S fuel' =>
      check (length c =? length a + length b)%nat ;;
      let '(a, b) := if (length a <? length b)%nat then (b, a) else (a, b) in
      let rec := add_signed_mul_fuel fuel' in
      if (length b <=? MAX_LEN_SIMPLE)%nat then
        check ((length b <=? length a) && (length c =? length a + length b))%nat ;;
        check (length b <=? CHUNK_LEN)%nat ;;
        if (length a <=? CHUNK_LEN)%nat then simple_add_signed_mul_chunk c s a b mem
        else add_signed_mul_split_into_chunks simple_add_signed_mul_chunk rec c s a b CHUNK_LEN mem
      else if (length b <=? MAX_LEN_KARATSUBA)%nat then
        check ((length b <=? length a) && (KARATSUBA_MIN_LEN <=? length b)
               && (length c =? length a + length b))%nat ;;
        add_signed_mul_split_into_chunks (karatsuba_same_len (same_len_fuel fuel')) rec
          c s a b (length b) mem
      else
        check ((length b <=? length a) && (TOOM_3_MIN_LEN <=? length b)
               && (length c =? length a + length b))%nat ;;
        add_signed_mul_split_into_chunks (toom_3_same_len (same_len_fuel fuel')) rec
          c s a b (length b) mem
  end.

Definition add_signed_mul : mul_fn := fun c s a b mem =>
  add_signed_mul_fuel (S (length a + length b)) c s a b mem.

End Mul.
