(** Counting what division does: src/div/mod.rs, src/div/simple.rs and
    src/div/divide_conquer.rs again, with the counter of Model/Cost.v.  Definitions only. *)
From Verif Require Import Model.Base Model.Words Model.Add Model.Shift Model.FastDivide
  Model.DivWord Model.Memory Model.Mul Model.Div Model.Cost.

Section CostDiv.
Context {A : Arch}.

(** src/div/simple.rs:44-95: one step of the loop; [lhs_len] is the value of
    [lhs_len] at the start of the iteration. *)
Definition c_simple_div_step (f : FastDivideNormalized) (rhs : list Z) (lhs_len : nat)
    (lhs : list Z) : counted (list Z) :=
  let n := length rhs in
  rhs0 <+ free (get (n - 1) rhs) ;;
  rhs1 <+ free (get (n - 2) rhs) ;;
  lhs0 <+ free (get (lhs_len - 1) lhs) ;;
  lhs1 <+ free (get (lhs_len - 2) lhs) ;;
  lhs2 <+ free (get (lhs_len - 3) lhs) ;;
  let lhs01 := double_word lhs1 lhs0 in
  q <+ free (if lhs0 <? rhs0 then
          '(q, r) <- fdn_div_rem f lhs01 ;;
          correct_q 2 q r rhs0 rhs1 lhs2
        else Ok (B - 1)) ;;
  '(lhs, borrow) <+ c_window (lhs_len - 1 - n) (lhs_len - 1) lhs
     (fun w => call (length w) (sub_mul_word_same_len_in_place w q rhs)) ;;
  '(lhs, q, borrow) <+
     (if lhs0 <? borrow then
        q <+ free (word_chk (q - 1)) ;;
        '(lhs, carry) <+ c_window (lhs_len - 1 - n) (lhs_len - 1) lhs
           (fun w => call (length w) (add_same_len_in_place w rhs)) ;;
        ensure (carry : bool) ;;
        borrow <+ free (word_chk (borrow - 1)) ;;
        free (Ok (lhs, q, borrow))
      else free (Ok (lhs, q, borrow))) ;;
  ensure (borrow =? lhs0) ;;
  free (set (lhs_len - 1) q lhs).

(** src/div/simple.rs:44-95: the loop, with [lhs_len = length rhs + k]. *)
Fixpoint c_simple_div_loop (k : nat) (f : FastDivideNormalized) (rhs lhs : list Z)
  : counted (list Z) :=
  match k with
  | O => free (Ok lhs)
  | S k' =>
      lhs <+ c_simple_div_step f rhs (length rhs + k) lhs ;;
      c_simple_div_loop k' f rhs lhs
  end.

(** src/div/simple.rs:22-98 *)
Definition c_simple_div_rem_in_place (lhs rhs : list Z) (f : FastDivideNormalized)
  : counted (list Z * bool) :=
  let n := length rhs in
  ensure (2 <=? n)%nat ;;
  let lhs_len := length lhs in
  ensure (n <=? lhs_len)%nat ;;
  top <+ free (slice_from (lhs_len - n) lhs) ;;
  ord <+ call (length rhs) (cmp_same_len top rhs) ;;
  let quotient_carry := match ord with Lt => false | _ => true end in
  lhs <+ (if quotient_carry then
            '(lhs, overflow) <+ c_window (lhs_len - n) lhs_len lhs
               (fun w => call (length w) (sub_same_len_in_place w rhs)) ;;
            ensure (negb overflow) ;; free (Ok lhs)
          else free (Ok lhs)) ;;
  lhs <+ c_simple_div_loop (lhs_len - n) f rhs lhs ;;
  free (Ok (lhs, quotient_carry)).

(** The signature of the divide and conquer routines. E.g. src/div/divide_conquer.rs:35 *)
Definition c_div_fn : Type :=
  list Z -> list Z -> FastDivideNormalized -> Z -> counted (list Z * bool).

(** src/div/divide_conquer.rs:130-133: the adjustment loop; it runs at most 4
    times, running out of fuel is an [Internal] error. *)
Fixpoint c_adjust_loop (fuel : nat) (rem q rhs : list Z) (rem_overflow q_overflow : Z)
  : counted (list Z * list Z * Z * Z) :=
  if rem_overflow <? 0 then
    match fuel with
    | O => free (Panic Internal)
    | S fuel' =>
        '(rem, o) <+ call (length rem) (add_same_len_in_place rem rhs) ;;
        rem_overflow <+ free (sword_chk (rem_overflow + Z.b2z o)) ;;
        '(q, o) <+ call (length q) (Ok (sub_one_in_place q)) ;;
        q_overflow <+ free (sword_chk (q_overflow - Z.b2z o)) ;;
        c_adjust_loop fuel' rem q rhs rem_overflow q_overflow
    end
  else free (Ok (rem, q, rem_overflow, q_overflow)).

(** src/div/divide_conquer.rs:101-137, with [mul] standing for
    [mul::add_signed_mul] and [same_len] for [div_rem_in_place_same_len]. *)
Definition c_div_small_quotient (mul : c_mul_fn) (same_len : c_div_fn) : c_div_fn := fun lhs rhs f mem =>
  let n := length rhs in
  ensure ((2 <=? n) && (n <=? length lhs))%nat ;;
  let m := (length lhs - n)%nat in
  ensure (m <? n)%nat ;;
  if (m <=? DIV_MAX_LEN_SIMPLE)%nat then c_simple_div_rem_in_place lhs rhs f
  else
    rhs_top <+ free (slice_from (n - m) rhs) ;;
    '(lhs, q_overflow) <+ c_window (n - m) (length lhs) lhs
       (fun w => same_len w rhs_top f mem) ;;
    let q_overflow := Z.b2z q_overflow in
    '(rem, q) <+ free (split_at n lhs) ;;
    rhs_rest <+ free (slice_to (n - m) rhs) ;;
    '(rem, rem_overflow) <+ mul rem Negative q rhs_rest mem ;;
    '(rem, rem_overflow) <+
       (if negb (q_overflow =? 0) then
          '(rem, o) <+ c_window m (length rem) rem
             (fun w => call (length w) (sub_same_len_in_place w rhs_rest)) ;;
          rem_overflow <+ free (sword_chk (rem_overflow - Z.b2z o)) ;;
          free (Ok (rem, rem_overflow))
        else free (Ok (rem, rem_overflow))) ;;
    '(rem, q, rem_overflow, q_overflow) <+ c_adjust_loop 4 rem q rhs rem_overflow q_overflow ;;
    ensure ((rem_overflow =? 0) && (0 <=? q_overflow) && (q_overflow <=? 1)) ;;
    free (Ok (rem ++ q, negb (q_overflow =? 0))).

(** src/div/divide_conquer.rs:67-89.  The fuel is the number of calls of the
    recursive division and multiplication functions that may be nested. *)
Fixpoint c_div_same_len_fuel (fuel : nat) : c_div_fn := fun lhs rhs f mem =>
  match fuel with
  | O => free (Panic Internal)
  | S fuel' =>
      _ <+ call 0 (Ok tt) ;;
      let n := length rhs in
      ensure ((DIV_MAX_LEN_SIMPLE <? n) && (length lhs =? 2 * n))%nat ;;
      let n_lo := (n / 2)%nat in
      '(lhs, overflow) <+ c_window n_lo (length lhs) lhs
         (fun w => c_div_small_quotient (c_add_signed_mul_fuel fuel') (c_div_same_len_fuel fuel') w rhs f mem) ;;
      '(lhs, overflow_lo) <+ c_window 0 (n + n_lo) lhs
         (fun w => c_div_small_quotient (c_add_signed_mul_fuel fuel') (c_div_same_len_fuel fuel') w rhs f mem) ;;
      ensure (negb overflow_lo) ;;
      free (Ok (lhs, overflow : bool))
  end.

(** src/div/divide_conquer.rs:47-62: the loop from [m] words down; [fuel] bounds
    the iterations, [depth] the nested calls. *)
Fixpoint c_dc_loop (depth fuel : nat) (lhs rhs : list Z) (f : FastDivideNormalized) (mem : Z)
    (m : nat) (overflow : bool) : counted (list Z * bool) :=
  let n := length rhs in
  if (2 * n <=? m)%nat then
    match fuel with
    | O => free (Panic Internal)
    | S fuel' =>
        '(lhs, o) <+ c_window (m - 2 * n) m lhs (fun w => c_div_same_len_fuel depth w rhs f mem) ;;
        overflow <+ (if (o : bool) then ensure (m =? length lhs)%nat ;; free (Ok true) else free (Ok overflow)) ;;
        c_dc_loop depth fuel' lhs rhs f mem (m - n) overflow
    end
  else if (n <? m)%nat then
    '(lhs, o) <+ c_window 0 m lhs
       (fun w => c_div_small_quotient (c_add_signed_mul_fuel depth) (c_div_same_len_fuel depth) w rhs f mem) ;;
    overflow <+ (if (o : bool) then ensure (m =? length lhs)%nat ;; free (Ok true) else free (Ok overflow)) ;;
    free (Ok (lhs, overflow))
  else free (Ok (lhs, overflow)).

(** src/div/divide_conquer.rs:35-63 *)
Definition c_dc_div_rem_depth (depth : nat) : c_div_fn := fun lhs rhs f mem =>
  ensure ((length rhs + DIV_MAX_LEN_SIMPLE <? length lhs)
         && (DIV_MAX_LEN_SIMPLE <? length rhs))%nat ;;
  ensure ((DIV_MAX_LEN_SIMPLE <? length rhs) && (length rhs <=? length lhs))%nat ;;
  c_dc_loop depth (S (length lhs)) lhs rhs f mem (length lhs) false.

(** src/div/mod.rs:130-143, with at most [depth] nested calls *)
Definition c_div_rem_depth (depth : nat) : c_div_fn := fun lhs rhs f mem =>
  ensure ((length rhs <=? length lhs) && (2 <=? length rhs))%nat ;;
  if ((length rhs <=? DIV_MAX_LEN_SIMPLE)
      || (length lhs - length rhs <=? DIV_MAX_LEN_SIMPLE))%nat
  then c_simple_div_rem_in_place lhs rhs f
  else c_dc_div_rem_depth depth lhs rhs f mem.

(** src/div/mod.rs:130-143 *)
Definition c_div_rem_in_place : c_div_fn := fun lhs rhs f mem =>
  c_div_rem_depth (S (length rhs)) lhs rhs f mem.

End CostDiv.
