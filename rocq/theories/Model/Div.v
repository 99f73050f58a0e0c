(** Division of slices: src/div/mod.rs, src/div/simple.rs,
    src/div/divide_conquer.rs, and cmp_same_len of src/cmp.rs.  Definitions only. *)
From Verif Require Import Model.Base Model.Words Model.Add Model.Shift Model.FastDivide
  Model.DivWord Model.Memory Model.Mul.

Section Div.
Context {A : Arch}.

(** [Iterator::cmp]: lexicographic comparison, used by src/cmp.rs:53-56. *)
Fixpoint lex_cmp (a b : list Z) : comparison :=
  match a, b with
  | [], [] => Eq
  | [], _ :: _ => Lt
  | _ :: _, [] => Gt
  | x :: a', y :: b' =>
      match x ?= y with
      | Eq => lex_cmp a' b'
      | c => c
      end
  end.

(** src/cmp.rs:53-56 *)
Definition cmp_same_len (lhs rhs : list Z) : res comparison :=
  check (length lhs =? length rhs)%nat ;;
  Ok (lex_cmp (rev lhs) (rev rhs)).

(** src/div/mod.rs:16 *)
Definition DIV_MAX_LEN_SIMPLE : nat := 32.

(** [words.last().unwrap()]. E.g. src/div/mod.rs:23 *)
Definition last_word (words : list Z) : res Z := get (length words - 1) words.

(** src/div/mod.rs:21-27: the shifted words, the shift and the reciprocal. *)
Definition normalize_large (words : list Z) : res (list Z * Z * FastDivideNormalized) :=
  check (2 <=? length words)%nat ;;
  w <- last_word words ;;
  let shift := leading_zeros_w w in
  '(words, overflow) <- shl_in_place words shift ;;
  check (overflow =? 0) ;;
  top <- last_word words ;;
  f <- fdn_new top ;;
  Ok (words, shift, f).

(** src/div/simple.rs:66-72: the correction loop.  It runs at most twice;
    running out of fuel is an [Internal] error. *)
Fixpoint correct_q (fuel : nat) (q r rhs0 rhs1 lhs2 : Z) : res Z :=
  p <- dword_chk (extend_word q * extend_word rhs1) ;;
  if double_word lhs2 r <? p then
    match fuel with
    | O => Panic Internal
    | S fuel' =>
        q <- word_chk (q - 1) ;;
        if B <=? r + rhs0 then Ok q
        else correct_q fuel' q (r + rhs0) rhs0 rhs1 lhs2
    end
  else Ok q.

(** src/div/simple.rs:44-95: one step of the loop; [lhs_len] is the value of
    [lhs_len] at the start of the iteration. *)
Definition simple_div_step (f : FastDivideNormalized) (rhs : list Z) (lhs_len : nat)
    (lhs : list Z) : res (list Z) :=
  let n := length rhs in
  rhs0 <- get (n - 1) rhs ;;
  rhs1 <- get (n - 2) rhs ;;
  lhs0 <- get (lhs_len - 1) lhs ;;
  lhs1 <- get (lhs_len - 2) lhs ;;
  lhs2 <- get (lhs_len - 3) lhs ;;
  let lhs01 := double_word lhs1 lhs0 in
  q <- (if lhs0 <? rhs0 then
          '(q, r) <- fdn_div_rem f lhs01 ;;
          correct_q 2 q r rhs0 rhs1 lhs2
        else Ok (B - 1)) ;;
  '(lhs, borrow) <- on_window (lhs_len - 1 - n) (lhs_len - 1) lhs
     (fun w => sub_mul_word_same_len_in_place w q rhs) ;;
  '(lhs, q, borrow) <-
     (if lhs0 <? borrow then
        q <- word_chk (q - 1) ;;
        '(lhs, carry) <- on_window (lhs_len - 1 - n) (lhs_len - 1) lhs
           (fun w => add_same_len_in_place w rhs) ;;
        check (carry : bool) ;;
        borrow <- word_chk (borrow - 1) ;;
        Ok (lhs, q, borrow)
      else Ok (lhs, q, borrow)) ;;
  check (borrow =? lhs0) ;;
  set (lhs_len - 1) q lhs.

(** src/div/simple.rs:44-95: the loop, with [lhs_len = length rhs + k]. *)
Fixpoint simple_div_loop (k : nat) (f : FastDivideNormalized) (rhs lhs : list Z)
  : res (list Z) :=
  match k with
  | O => Ok lhs
  | S k' =>
      lhs <- simple_div_step f rhs (length rhs + k) lhs ;;
      simple_div_loop k' f rhs lhs
  end.

(** src/div/simple.rs:22-98 *)
Definition simple_div_rem_in_place (lhs rhs : list Z) (f : FastDivideNormalized)
  : res (list Z * bool) :=
  let n := length rhs in
  check (2 <=? n)%nat ;;
  let lhs_len := length lhs in
  check (n <=? lhs_len)%nat ;;
  top <- slice_from (lhs_len - n) lhs ;;
  ord <- cmp_same_len top rhs ;;
  let quotient_carry := match ord with Lt => false | _ => true end in
  lhs <- (if quotient_carry then
            '(lhs, overflow) <- on_window (lhs_len - n) lhs_len lhs
               (fun w => sub_same_len_in_place w rhs) ;;
            check (negb overflow) ;; Ok lhs
          else Ok lhs) ;;
  lhs <- simple_div_loop (lhs_len - n) f rhs lhs ;;
  Ok (lhs, quotient_carry).

(** The signature of the divide and conquer routines. E.g. src/div/divide_conquer.rs:35 *)
Definition div_fn : Type :=
  list Z -> list Z -> FastDivideNormalized -> Z -> res (list Z * bool).

(** src/div/divide_conquer.rs:130-133: the adjustment loop; it runs at most 4
    times, running out of fuel is an [Internal] error. *)
Fixpoint adjust_loop (fuel : nat) (rem q rhs : list Z) (rem_overflow q_overflow : Z)
  : res (list Z * list Z * Z * Z) :=
  if rem_overflow <? 0 then
    match fuel with
    | O => Panic Internal
    | S fuel' =>
        '(rem, o) <- add_same_len_in_place rem rhs ;;
        rem_overflow <- sword_chk (rem_overflow + Z.b2z o) ;;
        let '(q, o) := sub_one_in_place q in
        q_overflow <- sword_chk (q_overflow - Z.b2z o) ;;
        adjust_loop fuel' rem q rhs rem_overflow q_overflow
    end
  else Ok (rem, q, rem_overflow, q_overflow).

(** src/div/divide_conquer.rs:101-137, with [mul] standing for
    [mul::add_signed_mul] and [same_len] for [div_rem_in_place_same_len]. *)
Definition div_small_quotient (mul : mul_fn) (same_len : div_fn) : div_fn := fun lhs rhs f mem =>
  let n := length rhs in
  check ((2 <=? n) && (n <=? length lhs))%nat ;;
  let m := (length lhs - n)%nat in
  check (m <? n)%nat ;;
  if (m <=? DIV_MAX_LEN_SIMPLE)%nat then simple_div_rem_in_place lhs rhs f
  else
    rhs_top <- slice_from (n - m) rhs ;;
    '(lhs, q_overflow) <- on_window (n - m) (length lhs) lhs
       (fun w => same_len w rhs_top f mem) ;;
    let q_overflow := Z.b2z q_overflow in
    '(rem, q) <- split_at n lhs ;;
    rhs_rest <- slice_to (n - m) rhs ;;
    '(rem, rem_overflow) <- mul rem Negative q rhs_rest mem ;;
    '(rem, rem_overflow) <-
       (if negb (q_overflow =? 0) then
          '(rem, o) <- on_window m (length rem) rem
             (fun w => sub_same_len_in_place w rhs_rest) ;;
          rem_overflow <- sword_chk (rem_overflow - Z.b2z o) ;;
          Ok (rem, rem_overflow)
        else Ok (rem, rem_overflow)) ;;
    '(rem, q, rem_overflow, q_overflow) <- adjust_loop 4 rem q rhs rem_overflow q_overflow ;;
    check ((rem_overflow =? 0) && (0 <=? q_overflow) && (q_overflow <=? 1)) ;;
    Ok (rem ++ q, negb (q_overflow =? 0)).

(** src/div/divide_conquer.rs:67-89.  The fuel is the number of calls of the
    recursive division and multiplication functions that may be nested. *)
Fixpoint div_same_len_fuel (fuel : nat) : div_fn := fun lhs rhs f mem =>
  match fuel with
  | O => Panic Internal
  | S fuel' =>
      let n := length rhs in
      check ((DIV_MAX_LEN_SIMPLE <? n) && (length lhs =? 2 * n))%nat ;;
      let n_lo := (n / 2)%nat in
      '(lhs, overflow) <- on_window n_lo (length lhs) lhs
         (fun w => div_small_quotient (add_signed_mul_fuel fuel') (div_same_len_fuel fuel') w rhs f mem) ;;
      '(lhs, overflow_lo) <- on_window 0 (n + n_lo) lhs
         (fun w => div_small_quotient (add_signed_mul_fuel fuel') (div_same_len_fuel fuel') w rhs f mem) ;;
      check (negb overflow_lo) ;;
      Ok (lhs, overflow : bool)
  end.

(** src/div/divide_conquer.rs:47-62: the loop from [m] words down; [fuel] bounds
    the iterations, [depth] the nested calls. *)
Fixpoint dc_loop (depth fuel : nat) (lhs rhs : list Z) (f : FastDivideNormalized) (mem : Z)
    (m : nat) (overflow : bool) : res (list Z * bool) :=
  let n := length rhs in
  if (2 * n <=? m)%nat then
    match fuel with
    | O => Panic Internal
    | S fuel' =>
        '(lhs, o) <- on_window (m - 2 * n) m lhs (fun w => div_same_len_fuel depth w rhs f mem) ;;
        overflow <- (if (o : bool) then check (m =? length lhs)%nat ;; Ok true else Ok overflow) ;;
        dc_loop depth fuel' lhs rhs f mem (m - n) overflow
    end
  else if (n <? m)%nat then
    '(lhs, o) <- on_window 0 m lhs
       (fun w => div_small_quotient (add_signed_mul_fuel depth) (div_same_len_fuel depth) w rhs f mem) ;;
    overflow <- (if (o : bool) then check (m =? length lhs)%nat ;; Ok true else Ok overflow) ;;
    Ok (lhs, overflow)
  else Ok (lhs, overflow).

(** src/div/divide_conquer.rs:35-63 *)
Definition dc_div_rem_depth (depth : nat) : div_fn := fun lhs rhs f mem =>
  check ((length rhs + DIV_MAX_LEN_SIMPLE <? length lhs)
         && (DIV_MAX_LEN_SIMPLE <? length rhs))%nat ;;
  check ((DIV_MAX_LEN_SIMPLE <? length rhs) && (length rhs <=? length lhs))%nat ;;
  dc_loop depth (S (length lhs)) lhs rhs f mem (length lhs) false.

(** src/div/divide_conquer.rs:16-24 *)
Definition dc_memory (lhs_len rhs_len : nat) : Z :=
  mul_memory (Nat.min (rhs_len / 2) (lhs_len - rhs_len)).

(** src/div/mod.rs:112-119 *)
Definition div_memory (lhs_len rhs_len : nat) : res Z :=
  check ((rhs_len <=? lhs_len) && (2 <=? rhs_len))%nat ;;
  if ((rhs_len <=? DIV_MAX_LEN_SIMPLE) || (lhs_len - rhs_len <=? DIV_MAX_LEN_SIMPLE))%nat
  then Ok 0
  else Ok (dc_memory lhs_len rhs_len).

(** src/div/mod.rs:130-143, with at most [depth] nested calls *)
Definition div_rem_depth (depth : nat) : div_fn := fun lhs rhs f mem =>
  check ((length rhs <=? length lhs) && (2 <=? length rhs))%nat ;;
  if ((length rhs <=? DIV_MAX_LEN_SIMPLE)
      || (length lhs - length rhs <=? DIV_MAX_LEN_SIMPLE))%nat
  then simple_div_rem_in_place lhs rhs f
  else dc_div_rem_depth depth lhs rhs f mem.

(** src/div/mod.rs:130-143 *)
Definition div_rem_in_place : div_fn := fun lhs rhs f mem =>
  div_rem_depth (S (length rhs)) lhs rhs f mem.

End Div.
