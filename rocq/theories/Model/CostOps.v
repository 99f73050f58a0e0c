(** Counting what the operators of [UBig] do: src/mul_ops.rs, src/add_ops.rs, src/div_ops.rs and
    src/pow.rs again, with the counter of Model/Cost.v.  Definitions only.

    The primitives are those of Model/Cost.v and the functions of src/buffer.rs; a buffer
    that may be reallocated is charged as if it were, and so is one that may be trimmed. *)
From Verif Require Import Model.Base Model.Words Model.Add Model.Shift Model.DivWord Model.Memory Model.Mul Model.Div
  Model.RawMemory Model.Buffer Model.UBig Model.IBig Model.Convert Model.AddOps Model.MulOps Model.DivOps Model.Bits
  Model.Pow Model.Cost Model.CostDiv.

Section CostOps.
Context {A : Arch}.

(** [on_words] of Model/Buffer.v: src/buffer.rs:197-211 *)
Definition c_on_words {R} (b : Buffer) (f : list Z -> counted (list Z * R)) : counted (Buffer * R) :=
  '(ws, r) <+ f (words b) ;; free (Ok (mkBuffer ws (cap b), r)).

(** src/ubig.rs:142-160: drops zeros, and may reallocate. *)
Definition c_from_buffer (b : Buffer) : counted ubig := call (2 * length (words b)) (from_buffer b).
(** src/buffer.rs:183-187 *)
Definition c_buffer_clone (b : Buffer) : counted Buffer := call (length (words b)) (buffer_clone b).
(** src/buffer.rs:79-82 *)
Definition c_push_may_reallocate (b : Buffer) (w : Z) : counted Buffer :=
  call (S (length (words b))) (push_may_reallocate b w).

(** ** src/mul_ops.rs *)

(** src/mul_ops.rs:304-306: no loop. *)
Definition c_mul_word (a b : Z) : counted ubig := call 0 (mul_word a b).

(** src/mul_ops.rs:309-321 *)
Definition c_mul_large_word (b : Buffer) (a : Z) : counted ubig :=
  if a =? 0 then free (Ok (from_word 0))
  else if a =? 1 then c_from_buffer b
  else
    '(b, carry) <+ c_on_words b (fun w => call (length w) (mul_word_in_place w a)) ;;
    b <+ (if carry =? 0 then free (Ok b) else c_push_may_reallocate b carry) ;;
    c_from_buffer b.

(** src/mul_ops.rs:324-341 *)
Definition c_mul_large (lhs rhs : list Z) : counted ubig :=
  ensure ((2 <=? length lhs)%nat && (2 <=? length rhs)%nat) ;;
  res_len <+ free (usize_chk (len lhs + len rhs)) ;;
  b <+ call 0 (allocate res_len) ;;
  b <+ call (length lhs + length rhs) (push_zeros b (length lhs + length rhs)) ;;
  l <+ free (mul_layout word_ty (Nat.min (length lhs) (length rhs))) ;;
  mem <+ call 0 (new_memory l) ;;
  '(b, overflow) <+ c_on_words b (fun w => c_add_signed_mul w Positive lhs rhs mem) ;;
  ensure (overflow =? 0) ;;
  c_from_buffer b.

(** src/mul_ops.rs:20-32 *)
Definition c_ubig_mul_vv (a b : ubig) : counted ubig :=
  match a, b with
  | Small x, Small y => c_mul_word x y
  | Small x, Large y => c_mul_large_word y x
  | Large x, Small y => c_mul_large_word x y
  | Large x, Large y => c_mul_large (words x) (words y)
  end.

(** src/mul_ops.rs:34-46 *)
Definition c_ubig_mul_vr (a b : ubig) : counted ubig :=
  match a, b with
  | Small x, Small y => c_mul_word x y
  | Small x, Large y => y <+ c_buffer_clone y ;; c_mul_large_word y x
  | Large x, Small y => c_mul_large_word x y
  | Large x, Large y => c_mul_large (words x) (words y)
  end.

(** src/mul_ops.rs:48-55 *)
Definition c_ubig_mul_rv (a b : ubig) : counted ubig := c_ubig_mul_vr b a.

(** src/mul_ops.rs:57-69 *)
Definition c_ubig_mul_rr (a b : ubig) : counted ubig :=
  match a, b with
  | Small x, Small y => c_mul_word x y
  | Small x, Large y => y <+ c_buffer_clone y ;; c_mul_large_word y x
  | Large x, Small y => x <+ c_buffer_clone x ;; c_mul_large_word x y
  | Large x, Large y => c_mul_large (words x) (words y)
  end.

(** ** src/add_ops.rs *)

(** src/add_ops.rs:531-541: no loop. *)
Definition c_add_word (a b : Z) : counted ubig := call 0 (add_word a b).

(** src/add_ops.rs:544-550 *)
Definition c_add_large_word (b : Buffer) (rhs : Z) : counted ubig :=
  ensure (2 <=? length (words b))%nat ;;
  '(b, overflow) <+ c_on_words b (fun w => call (length w) (add_word_in_place w rhs)) ;;
  b <+ (if (overflow : bool) then c_push_may_reallocate b 1 else free (Ok b)) ;;
  c_from_buffer b.

(** src/add_ops.rs:553-564 *)
Definition c_add_large (b : Buffer) (rhs : list Z) : counted ubig :=
  let n := Nat.min (length (words b)) (length rhs) in
  rhs_lo <+ free (slice_to n rhs) ;;
  '(b, overflow) <+ call n (on_buffer 0 n b (fun w => add_same_len_in_place w rhs_lo)) ;;
  b <+ (if (n <? length rhs)%nat then
          b <+ call (length (words b)) (ensure_capacity b (len rhs)) ;;
          rhs_hi <+ free (slice_from n rhs) ;;
          call (length rhs_hi) (extend b rhs_hi)
        else free (Ok b)) ;;
  '(b, overflow) <+
     (if (overflow : bool)
      then call (length (words b)) (on_buffer n (length (words b)) b (fun w => Ok (add_one_in_place w)))
      else free (Ok (b, false))) ;;
  b <+ (if overflow then c_push_may_reallocate b 1 else free (Ok b)) ;;
  c_from_buffer b.

(** src/add_ops.rs:18-36 *)
Definition c_ubig_add_vv (a b : ubig) : counted ubig :=
  match a, b with
  | Small x, Small y => c_add_word x y
  | Small x, Large y => c_add_large_word y x
  | Large x, Small y => c_add_large_word x y
  | Large x, Large y =>
      if (length (words y) <=? length (words x))%nat then c_add_large x (words y)
      else c_add_large y (words x)
  end.

(** ** src/pow.rs *)

(** src/pow.rs:38-47 *)
Fixpoint c_pow_loop (p : nat) (self : ubig) (exp : Z) (r : ubig) : counted ubig :=
  r <+ (if Z.testbit exp (Z.of_nat p) then c_ubig_mul_vr r self else free (Ok r)) ;;
  match p with
  | O => free (Ok r)
  | S p => r <+ c_ubig_mul_rr r r ;; c_pow_loop p self exp r
  end.

(** src/pow.rs:36-48 *)
Definition c_pow_large (self : ubig) (exp : Z) : counted ubig :=
  r <+ c_ubig_mul_rr self self ;; c_pow_loop (Z.to_nat (bitlen exp - 2)) self exp r.

(** src/pow.rs:19-49; a power of 2 takes a buffer of [exp / wbits + 1] words. *)
Definition c_ubig_pow (self : ubig) (exp : Z) : counted ubig :=
  if exp =? 0 then free (Ok (from_word 1))
  else if exp =? 1 then call (length (as_words self)) (ubig_clone self)
  else if exp =? 2 then c_ubig_mul_rr self self
  else
    match self with
    | Small w =>
        if w =? 0 then free (Ok (from_word 0))
        else if w =? 1 then free (Ok (from_word 1))
        else if w =? 2 then call (3 * (Z.to_nat (exp / wbits) + 1)) (set_bit (from_word 0) exp)
        else c_pow_large self exp
    | Large _ => c_pow_large self exp
    end.

(** ** src/div_ops.rs *)

(** src/div_ops.rs:1323-1329 *)
Definition c_div_rem_large_word (b : Buffer) (rhs : Z) : counted (ubig * ubig) :=
  if rhs =? 0 then free (Panic DivideByZero)
  else
    '(b, rem) <+ c_on_words b (fun w => call (2 * length w) (div_by_word_in_place w rhs)) ;;
    q <+ c_from_buffer b ;; free (Ok (q, from_word rem)).

(** src/div_ops.rs:1362-1376 *)
Definition c_div_rem_in_lhs (lhs rhs : Buffer) : counted (Buffer * Buffer * Z) :=
  '(rw, shift, f) <+ call (length (words rhs)) (normalize_large (words rhs)) ;;
  let rhs := mkBuffer rw (cap rhs) in
  '(lhs, lhs_carry) <+ c_on_words lhs (fun w => call (length w) (shl_in_place w shift)) ;;
  lhs <+ (if lhs_carry =? 0 then free (Ok lhs) else c_push_may_reallocate lhs lhs_carry) ;;
  l <+ free (div_layout word_ty (length (words lhs)) (length (words rhs))) ;;
  mem <+ call 0 (new_memory l) ;;
  '(lhs, overflow) <+ c_on_words lhs (fun w => c_div_rem_in_place w (words rhs) f mem) ;;
  lhs <+ (if overflow : bool then c_push_may_reallocate lhs 1 else free (Ok lhs)) ;;
  free (Ok (lhs, rhs, shift)).

(** The end of src/div_ops.rs:1339-1346 and 1349-1357: a copy and a shift. *)
Definition c_take_rem (lhs rhs : Buffer) (shift : Z) : counted Buffer :=
  call (2 * length (words rhs)) (take_rem lhs rhs shift).

(** src/div_ops.rs:1332-1336 *)
Definition c_div_large (lhs rhs : Buffer) : counted ubig :=
  '(lhs, rhs, _) <+ c_div_rem_in_lhs lhs rhs ;;
  lhs <+ call (length (words lhs)) (erase_front lhs (length (words rhs))) ;;
  c_from_buffer lhs.

(** src/div_ops.rs:1339-1346 *)
Definition c_rem_large (lhs rhs : Buffer) : counted ubig :=
  '(lhs, rhs, shift) <+ c_div_rem_in_lhs lhs rhs ;;
  rhs <+ c_take_rem lhs rhs shift ;;
  c_from_buffer rhs.

(** src/div_ops.rs:1349-1357 *)
Definition c_div_rem_large (lhs rhs : Buffer) : counted (ubig * ubig) :=
  '(lhs, rhs, shift) <+ c_div_rem_in_lhs lhs rhs ;;
  let n := length (words rhs) in
  rhs <+ c_take_rem lhs rhs shift ;;
  lhs <+ call (length (words lhs)) (erase_front lhs n) ;;
  q <+ c_from_buffer lhs ;;
  r <+ c_from_buffer rhs ;;
  free (Ok (q, r)).

(** src/div_ops.rs:211-230 *)
Definition c_ubig_div_rem_vv (a b : ubig) : counted (ubig * ubig) :=
  match a, b with
  | Small x, Small y => call 0 (div_rem_word x y)
  | Small x, Large _ => free (Ok (from_word 0, from_word x))
  | Large x, Small y => c_div_rem_large_word x y
  | Large x, Large y =>
      if blen y <=? blen x then c_div_rem_large x y
      else r <+ c_from_buffer x ;; free (Ok (from_word 0, r))
  end.

(** src/div_ops.rs:232-251 *)
Definition c_ubig_div_rem_vr (a b : ubig) : counted (ubig * ubig) :=
  match a, b with
  | Small x, Small y => call 0 (div_rem_word x y)
  | Small x, Large _ => free (Ok (from_word 0, from_word x))
  | Large x, Small y => c_div_rem_large_word x y
  | Large x, Large y =>
      if blen y <=? blen x then y <+ c_buffer_clone y ;; c_div_rem_large x y
      else r <+ c_from_buffer x ;; free (Ok (from_word 0, r))
  end.

(** src/div_ops.rs:276-295 *)
Definition c_ubig_div_rem_rr (a b : ubig) : counted (ubig * ubig) :=
  match a, b with
  | Small x, Small y => call 0 (div_rem_word x y)
  | Small x, Large _ => free (Ok (from_word 0, from_word x))
  | Large x, Small y => x <+ c_buffer_clone x ;; c_div_rem_large_word x y
  | Large x, Large y =>
      if blen y <=? blen x then x <+ c_buffer_clone x ;; y <+ c_buffer_clone y ;; c_div_rem_large x y
      else r <+ call (length (as_words a)) (ubig_clone a) ;; free (Ok (from_word 0, r))
  end.

End CostOps.
