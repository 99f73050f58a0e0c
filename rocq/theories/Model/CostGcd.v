(** Counting what additions, subtractions, shifts and greatest common divisors do:
    src/add_ops.rs, src/shift_ops.rs, src/div_ops.rs and src/gcd.rs again, with the counter of
    Model/Cost.v.  Definitions only. *)
From Verif Require Import Model.Base Model.Words Model.Add Model.Shift Model.Memory Model.Buffer Model.UBig Model.IBig
  Model.Convert Model.AddOps Model.MulOps Model.ShiftOps Model.Bits Model.DivOps Model.PrimOps Model.Gcd Model.Cost
  Model.CostDiv Model.CostOps Model.CostFmt.

Section CostGcd.
Context {A : Arch}.

(** ** src/add_ops.rs *)

(** src/add_ops.rs:38-50 *)
Definition c_ubig_add_vr (a b : ubig) : counted ubig :=
  match a, b with
  | Small x, Small y => c_add_word x y
  | Small x, Large y => y <+ c_buffer_clone y ;; c_add_large_word y x
  | Large x, Small y => c_add_large_word x y
  | Large x, Large y => c_add_large x (words y)
  end.

(** src/add_ops.rs:61-79 *)
Definition c_ubig_add_rr (a b : ubig) : counted ubig :=
  match a, b with
  | Small x, Small y => c_add_word x y
  | Small x, Large y => y <+ c_buffer_clone y ;; c_add_large_word y x
  | Large x, Small y => x <+ c_buffer_clone x ;; c_add_large_word x y
  | Large x, Large y =>
      if (length (words y) <=? length (words x))%nat
      then x <+ c_buffer_clone x ;; c_add_large x (words y)
      else y <+ c_buffer_clone y ;; c_add_large y (words x)
  end.

(** src/add_ops.rs:568-573: no loop. *)
Definition c_sub_word (a b : Z) : counted ubig := call 0 (sub_word a b).

(** src/add_ops.rs:575-579 *)
Definition c_sub_large_word (b : Buffer) (rhs : Z) : counted ubig :=
  '(b, overflow) <+ c_on_words b (fun w => call (length w) (sub_word_in_place w rhs)) ;;
  ensure (negb overflow) ;;
  c_from_buffer b.

(** src/add_ops.rs:581-586 *)
Definition c_sub_large (lhs : Buffer) (rhs : list Z) : counted ubig :=
  if (length (words lhs) <? length rhs)%nat then free (Panic NegativeUBig)
  else
    '(lhs, overflow) <+ c_on_words lhs (fun w => call (length w) (sub_in_place w rhs)) ;;
    if (overflow : bool) then free (Panic NegativeUBig) else c_from_buffer lhs.

(** src/add_ops.rs:588-600 *)
Definition c_sub_large_ref_val (lhs : list Z) (rhs : Buffer) : counted ubig :=
  let n := length (words rhs) in
  if (length lhs <? n)%nat then free (Panic NegativeUBig)
  else
    lhs_lo <+ free (slice_to n lhs) ;;
    '(rhs, borrow) <+ c_on_words rhs (fun w => call (length w) (sub_same_len_in_place_swap lhs_lo w)) ;;
    rhs <+ call n (ensure_capacity rhs (len lhs)) ;;
    lhs_hi <+ free (slice_from n lhs) ;;
    rhs <+ call (length lhs_hi) (extend rhs lhs_hi) ;;
    '(rhs, borrow) <+
       (if (borrow : bool)
        then call (length (words rhs)) (on_buffer n (length (words rhs)) rhs (fun w => Ok (sub_one_in_place w)))
        else free (Ok (rhs, false))) ;;
    if (borrow : bool) then free (Panic NegativeUBig) else c_from_buffer rhs.

(** src/add_ops.rs:95-121: the two forms have the same code. *)
Definition c_ubig_sub_vr (a b : ubig) : counted ubig :=
  match a, b with
  | Small x, Small y => c_sub_word x y
  | Small _, Large _ => free (Panic NegativeUBig)
  | Large x, Small y => c_sub_large_word x y
  | Large x, Large y => c_sub_large x (words y)
  end.

(** src/add_ops.rs:123-135 *)
Definition c_ubig_sub_rv (a b : ubig) : counted ubig :=
  match a, b with
  | Small x, Small y => c_sub_word x y
  | Small _, Large _ => free (Panic NegativeUBig)
  | Large x, Small y => x <+ c_buffer_clone x ;; c_sub_large_word x y
  | Large x, Large y => c_sub_large_ref_val (words x) y
  end.

(** src/add_ops.rs:137-149 *)
Definition c_ubig_sub_rr (a b : ubig) : counted ubig :=
  match a, b with
  | Small x, Small y => c_sub_word x y
  | Small _, Large _ => free (Panic NegativeUBig)
  | Large x, Small y => x <+ c_buffer_clone x ;; c_sub_large_word x y
  | Large x, Large y => x <+ c_buffer_clone x ;; c_sub_large x (words y)
  end.

(** ** src/shift_ops.rs *)

(** src/shift_ops.rs:204-213 *)
Definition c_shl_word_slow (word rhs : Z) : counted ubig :=
  let shift_words := rhs / wbits in
  let shift_bits := rhs mod wbits in
  let '(lo, hi) := split_double_word (shl_dw (extend_word word) shift_bits) in
  n <+ free (usize_chk (shift_words + 2)) ;;
  b <+ call 0 (allocate n) ;;
  b <+ call (Z.to_nat shift_words) (push_zeros b (Z.to_nat shift_words)) ;;
  b <+ call 0 (push b lo) ;;
  b <+ call 0 (push b hi) ;;
  c_from_buffer b.

(** src/shift_ops.rs:193-201 *)
Definition c_shl_word (word rhs : Z) : counted ubig :=
  ensure (negb (word =? 0)) ;;
  if rhs <=? wbits then call 0 (ubig_from_dword (shl_dw (extend_word word) rhs))
  else c_shl_word_slow word rhs.

(** src/shift_ops.rs:231-241 *)
Definition c_shl_ref_large (ws : list Z) (rhs : Z) : counted ubig :=
  let shift_words := rhs / wbits in
  let shift_bits := rhs mod wbits in
  n <+ free (usize_chk (shift_words + len ws + 1)) ;;
  b <+ call 0 (allocate n) ;;
  b <+ call (Z.to_nat shift_words) (push_zeros b (Z.to_nat shift_words)) ;;
  b <+ call (length ws) (extend b ws) ;;
  '(b, carry) <+ call (length ws)
     (on_buffer (Z.to_nat shift_words) (length (words b)) b (fun w => shl_in_place w shift_bits)) ;;
  b <+ call 0 (push b carry) ;;
  c_from_buffer b.

(** src/shift_ops.rs:216-228: putting zeros in front moves the words. *)
Definition c_shl_large (b : Buffer) (rhs : Z) : counted ubig :=
  let shift_words := rhs / wbits in
  n <+ free (usize_chk (blen b + shift_words + 1)) ;;
  if cap b <? n then c_shl_ref_large (words b) rhs
  else
    let shift_bits := rhs mod wbits in
    '(b, carry) <+ c_on_words b (fun w => call (length w) (shl_in_place w shift_bits)) ;;
    b <+ call 0 (push b carry) ;;
    b <+ call (length (words b) + Z.to_nat shift_words) (push_zeros_front b (Z.to_nat shift_words)) ;;
    c_from_buffer b.

(** src/shift_ops.rs:255-264: erasing the front moves the other words. *)
Definition c_shr_large (b : Buffer) (rhs : Z) : counted ubig :=
  let shift_words := rhs / wbits in
  if blen b <=? shift_words then free (Ok (from_word 0))
  else
    let shift_bits := rhs mod wbits in
    b <+ call (length (words b)) (erase_front b (Z.to_nat shift_words)) ;;
    '(b, _) <+ c_on_words b (fun w => call (length w) (shr_in_place w shift_bits)) ;;
    c_from_buffer b.

(** src/shift_ops.rs:267-284 *)
Definition c_shr_large_ref (ws : list Z) (rhs : Z) : counted ubig :=
  let shift_words := rhs / wbits in
  let shift_bits := rhs mod wbits in
  let ws := skipn (Z.to_nat (Z.min shift_words (len ws))) ws in
  match ws with
  | [] => free (Ok (from_word 0))
  | [w] => free (Ok (from_word (shr_w w shift_bits)))
  | [lo; hi] => call 0 (ubig_from_dword (shr_w (double_word lo hi) shift_bits))
  | _ =>
      b <+ call 0 (allocate (len ws)) ;;
      b <+ call (length ws) (extend b ws) ;;
      '(b, _) <+ c_on_words b (fun w => call (length w) (shr_in_place w shift_bits)) ;;
      c_from_buffer b
  end.

(** src/shift_ops.rs:88-99 *)
Definition c_ubig_shl_v (u : ubig) (rhs : Z) : counted ubig :=
  match u with
  | Small w => if w =? 0 then free (Ok (from_word 0)) else c_shl_word w rhs
  | Large b => c_shl_large b rhs
  end.

(** src/shift_ops.rs:101-112 *)
Definition c_ubig_shl_r (u : ubig) (rhs : Z) : counted ubig :=
  match u with
  | Small w => if w =? 0 then free (Ok (from_word 0)) else c_shl_word w rhs
  | Large b => c_shl_ref_large (words b) rhs
  end.

(** src/shift_ops.rs:114-124 *)
Definition c_ubig_shr_v (u : ubig) (rhs : Z) : counted ubig :=
  match u with
  | Small w => call 0 (Ok (shr_word w rhs))
  | Large b => c_shr_large b rhs
  end.

(** src/shift_ops.rs:126-136 *)
Definition c_ubig_shr_r (u : ubig) (rhs : Z) : counted ubig :=
  match u with
  | Small w => call 0 (Ok (shr_word w rhs))
  | Large b => c_shr_large_ref (words b) rhs
  end.

(** ** src/ubig.rs, src/bits.rs and src/div_ops.rs *)

(** src/ubig.rs:121-128 *)
Definition c_ubig_clone (u : ubig) : counted ubig := call (length (as_words u)) (ubig_clone u).

(** src/bits.rs:135-152 *)
Definition c_ubig_trailing_zeros (u : ubig) : counted (option Z) :=
  call (length (as_words u)) (ubig_trailing_zeros u).

(** [&x & 1u8 != 0u8] looks at one word. E.g. src/gcd.rs:140 *)
Definition c_is_odd (u : ubig) : counted bool := call 0 (is_odd u).

(** src/div_ops.rs:135-153 *)
Definition c_ubig_rem_vr (a b : ubig) : counted ubig :=
  match a, b with
  | Small x, Small y => call 0 (rem_word x y)
  | Small x, Large _ => free (Ok (from_word x))
  | Large x, Small y => call (length (words x)) (rem_large_word (words x) y)
  | Large x, Large y =>
      if blen y <=? blen x then y <+ c_buffer_clone y ;; c_rem_large x y
      else c_from_buffer x
  end.

(** ** src/gcd.rs *)

(** src/gcd.rs:40-52 *)
Fixpoint c_gcd_loop (fuel : nat) (a b : ubig) : counted ubig :=
  match fuel with
  | O => free (Panic Internal)
  | S fuel =>
      tz <+ c_ubig_trailing_zeros a ;;
      match tz with
      | None => free (Ok b)
      | Some a_zeros =>
          a <+ c_ubig_shr_v a a_zeros ;;
          lt <+ c_ubig_lt a b ;;
          let '(a, b) := if (lt : bool) then (b, a) else (a, b) in
          a <+ c_ubig_sub_vr a b ;;
          c_gcd_loop fuel a b
      end
  end.

(** src/gcd.rs:19-55 *)
Definition c_ubig_gcd (self rhs : ubig) : counted ubig :=
  a <+ c_ubig_clone self ;;
  b <+ c_ubig_clone rhs ;;
  az <+ c_ubig_trailing_zeros a ;;
  bz <+ c_ubig_trailing_zeros b ;;
  match az, bz with
  | None, None => free (Panic GcdOfZeros)
  | None, Some _ => free (Ok b)
  | Some _, None => free (Ok a)
  | Some a_zeros, Some b_zeros =>
      a <+ c_ubig_shr_v a a_zeros ;;
      b <+ c_ubig_shr_v b b_zeros ;;
      let zeros := Z.min a_zeros b_zeros in
      lt <+ c_ubig_lt a b ;;
      let '(a, b) := if (lt : bool) then (b, a) else (a, b) in
      a <+ c_ubig_rem_vr a b ;;
      b <+ c_gcd_loop (gcd_fuel a b) a b ;;
      c_ubig_shl_v b zeros
  end.

(** src/gcd.rs:138-149 *)
Fixpoint c_halve_loop (fuel : nat) (u v : ubig) (t : triple) : counted triple :=
  match fuel with
  | O => free (Panic Internal)
  | S fuel =>
      let '(a, ax, ay) := t in
      odd <+ c_is_odd a ;;
      if (odd : bool) then free (Ok (a, ax, ay))
      else
        ox <+ c_is_odd ax ;;
        oy <+ (if (ox : bool) then free (Ok true) else c_is_odd ay) ;;
        '(ax, ay) <+
          (if (oy : bool)
           then ax <+ c_ubig_add_vr ax v ;; ay <+ c_ubig_add_vr ay u ;; free (Ok (ax, ay))
           else free (Ok (ax, ay))) ;;
        a <+ c_ubig_shr_v a 1 ;;
        ax <+ c_ubig_shr_v ax 1 ;;
        ay <+ c_ubig_shr_v ay 1 ;;
        c_halve_loop fuel u v (a, ax, ay)
  end.

(** src/gcd.rs:136-171; comparing with zero looks at one word. *)
Fixpoint c_egcd_loop (fuel : nat) (u v : ubig) (s t : triple) : counted triple :=
  match fuel with
  | O => free (Panic Internal)
  | S fuel =>
      let '(a, _, _) := s in
      if ubig_eqb a (from_word 0) then free (Ok t)
      else
        s <+ c_halve_loop (gcd_fuel a a) u v s ;;
        let '(a, _, _) := s in
        let '(b, _, _) := t in
        lt <+ c_ubig_lt a b ;;
        let '((a, ax, ay), (b, bx, by_)) := if (lt : bool) then (t, s) else (s, t) in
        a <+ c_ubig_sub_vr a b ;;
        lt <+ c_ubig_lt ax bx ;;
        '(ax, ay) <+
          (if (lt : bool)
           then ax <+ c_ubig_add_vr ax v ;; ay <+ c_ubig_add_vr ay u ;; free (Ok (ax, ay))
           else free (Ok (ax, ay))) ;;
        ax <+ c_ubig_sub_vr ax bx ;;
        ay <+ c_ubig_sub_vr ay by_ ;;
        c_egcd_loop fuel u v (a, ax, ay) (b, bx, by_)
  end.

(** src/gcd.rs:80-174 *)
Definition c_ubig_extended_gcd (self rhs : ubig) : counted (ubig * ibig * ibig) :=
  az <+ c_ubig_trailing_zeros self ;;
  bz <+ c_ubig_trailing_zeros rhs ;;
  match az, bz with
  | None, None => free (Panic GcdOfZeros)
  | None, Some _ =>
      g <+ c_ubig_clone rhs ;; x <+ free (ibig_from_unsigned 8 0) ;; y <+ free (ibig_from_unsigned 8 1) ;; free (Ok (g, x, y))
  | Some _, None =>
      g <+ c_ubig_clone self ;; x <+ free (ibig_from_unsigned 8 1) ;; y <+ free (ibig_from_unsigned 8 0) ;; free (Ok (g, x, y))
  | Some a_zeros, Some b_zeros =>
      let zeros := Z.min a_zeros b_zeros in
      u <+ c_ubig_shr_r self zeros ;;
      v <+ c_ubig_shr_r rhs zeros ;;
      le <+ c_ubig_le u v ;;
      '(s, t) <+
        (if (le : bool) then
           '(q, r) <+ c_ubig_div_rem_rr v u ;;
           a <+ c_ubig_clone u ;;
           bx <+ c_ubig_sub_rv v q ;;
           by_ <+ c_ubig_sub_rv u (from_word 1) ;;
           free (Ok ((a, from_word 1, from_word 0), (r, bx, by_)))
         else
           '(q, r) <+ c_ubig_div_rem_rr u v ;;
           a <+ c_ubig_clone v ;;
           ax <+ c_ubig_clone v ;;
           ay <+ c_ubig_sub_rv u (from_word 1) ;;
           free (Ok ((a, ax, ay), (r, from_word 1, q)))) ;;
      let '(b, _, _) := t in
      odd <+ c_is_odd b ;;
      let '(s, t) := if (odd : bool) then (s, t) else (t, s) in
      let '(a, _, _) := s in
      let '(b, _, _) := t in
      '(b, bx, by_) <+ c_egcd_loop (gcd_fuel a b) u v s t ;;
      g <+ c_ubig_shl_v b zeros ;;
      free (Ok (g, ibig_from_ubig bx, ibig_neg (ibig_from_ubig by_)))
  end.

End CostGcd.
