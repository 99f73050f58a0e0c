(** Counting what bit operations and conversions to and from bytes do: src/bits.rs and
    src/convert.rs again, with the counter of Model/Cost.v.  Definitions only.

    Operations without loops (testing a bit, the number of bits) are left out. *)
From Verif Require Import Model.Base Model.Words Model.Add Model.Memory Model.Buffer Model.UBig Model.IBig
  Model.Convert Model.AddOps Model.MulOps Model.Bits Model.Cost Model.CostOps Model.CostGcd Model.CostInverse.

Section CostBits.
Context {A : Arch}.

(** ** Single bits *)

(** src/bits.rs:67-75 *)
Definition c_with_bit_word_slow (word n : Z) : counted ubig :=
  ensure (wbits <=? n) ;;
  let idx := n / wbits in
  m <+ free (usize_chk (idx + 1)) ;;
  b <+ call 0 (allocate m) ;;
  b <+ call 0 (push b word) ;;
  b <+ call (Z.to_nat (idx - 1)) (extend b (repeat 0 (Z.to_nat (idx - 1)))) ;;
  b <+ call 0 (push b (shl_w 1 (n mod wbits))) ;;
  c_from_buffer b.

(** src/bits.rs:77-87 *)
Definition c_with_bit_large (b : Buffer) (n : Z) : counted ubig :=
  let idx := n / wbits in
  b <+ (if idx <? blen b then
          w <+ free (get (Z.to_nat idx) (words b)) ;;
          ws <+ free (set (Z.to_nat idx) (Z.lor w (shl_w 1 (n mod wbits))) (words b)) ;;
          free (Ok (mkBuffer ws (cap b)))
        else
          m <+ free (usize_chk (idx + 1)) ;;
          b <+ call (length (words b)) (ensure_capacity b m) ;;
          b <+ call (Z.to_nat (idx - blen b)) (push_zeros b (Z.to_nat (idx - blen b))) ;;
          call 0 (push b (shl_w 1 (n mod wbits)))) ;;
  c_from_buffer b.

(** src/bits.rs:54-65 *)
Definition c_set_bit (u : ubig) (n : Z) : counted ubig :=
  match u with
  | Small w => if n <? wbits then call 0 (Ok (from_word (Z.lor w (shl_w 1 n)))) else c_with_bit_word_slow w n
  | Large b => c_with_bit_large b n
  end.

(** src/bits.rs:111-117 *)
Definition c_without_bit_large (b : Buffer) (n : Z) : counted ubig :=
  let idx := n / wbits in
  b <+ (if idx <? blen b then
          w <+ free (get (Z.to_nat idx) (words b)) ;;
          ws <+ free (set (Z.to_nat idx) (Z.land w (not_w (shl_w 1 (n mod wbits)))) (words b)) ;;
          free (Ok (mkBuffer ws (cap b)))
        else free (Ok b)) ;;
  c_from_buffer b.

(** src/bits.rs:100-109 *)
Definition c_clear_bit (u : ubig) (n : Z) : counted ubig :=
  match u with
  | Small w =>
      if n <? wbits then call 0 (Ok (from_word (Z.land w (not_w (shl_w 1 n))))) else call 0 (Ok (from_word 0))
  | Large b => c_without_bit_large b n
  end.

(** ** Powers of two *)

(** src/bits.rs:205-209 *)
Definition c_is_power_of_two_large (ws : list Z) : counted bool :=
  ensure (negb (last ws 0 =? 0)) ;;
  lo <+ free (slice_to (length ws - 1) ws) ;;
  w <+ free (get (length ws - 1) ws) ;;
  call (length lo) (Ok (forallb (fun x => x =? 0) lo && is_power_of_two_w w)).

(** src/bits.rs:198-203 *)
Definition c_is_power_of_two (u : ubig) : counted bool :=
  match u with
  | Small w => call 0 (Ok (is_power_of_two_w w))
  | Large b => c_is_power_of_two_large (words b)
  end.

(** src/bits.rs:259-290 *)
Definition c_next_power_of_two_large (b : Buffer) : counted ubig :=
  ensure (negb (last (words b) 0 =? 0)) ;;
  let n := length (words b) in
  '(b, carry) <+ call (n - 1) (on_buffer 0 (n - 1) b (fun w => Ok (clear_from_nonzero w))) ;;
  l <+ free (get (n - 1) (words b)) ;;
  b <+ (match (match checked_add_w l carry with
               | Some x => checked_next_power_of_two_w x
               | None => None
               end) with
        | Some p => ws <+ free (set (n - 1) p (words b)) ;; free (Ok (mkBuffer ws (cap b)))
        | None =>
            ws <+ free (set (n - 1) 0 (words b)) ;;
            m <+ free (usize_chk (Z.of_nat n + 1)) ;;
            b <+ call n (ensure_capacity (mkBuffer ws (cap b)) m) ;;
            call 0 (push b 1)
        end) ;;
  c_from_buffer b.

(** src/bits.rs:238-246 *)
Definition c_next_power_of_two_v (u : ubig) : counted ubig :=
  match u with
  | Small w =>
      match checked_next_power_of_two_w w with
      | Some p => call 0 (Ok (from_word p))
      | None => call 0 (ubig_from_dword (double_word 0 1))
      end
  | Large b => c_next_power_of_two_large b
  end.

(** src/bits.rs:253-255 *)
Definition c_next_power_of_two_r (u : ubig) : counted ubig :=
  u <+ c_ubig_clone u ;; c_next_power_of_two_v u.

(** ** And, or, exclusive or *)

(** [zip_words] of Model/Bits.v: the loop visits the words that both have. E.g. src/bits.rs:375 *)
Definition c_zip_words (f : Z -> Z -> Z) (b : Buffer) (rhs : list Z) : counted Buffer :=
  call (Nat.min (length (words b)) (length rhs)) (Ok (mkBuffer (zip_words f (words b) rhs) (cap b))).

(** src/bits.rs:371-379; truncating a vector of words has no loop. *)
Definition c_bitand_large (b : Buffer) (rhs : list Z) : counted ubig :=
  b <+ (if (length rhs <? length (words b))%nat then call 0 (truncate b (length rhs)) else free (Ok b)) ;;
  b <+ c_zip_words Z.land b rhs ;;
  c_from_buffer b.

(** src/bits.rs:460-465 *)
Definition c_bitor_large_word (b : Buffer) (rhs : Z) : counted ubig :=
  ensure (2 <=? length (words b))%nat ;;
  b <+ free (on_first b (fun x => Z.lor x rhs)) ;; c_from_buffer b.

(** src/bits.rs:467-476 *)
Definition c_bitor_large (b : Buffer) (rhs : list Z) : counted ubig :=
  b <+ c_zip_words Z.lor b rhs ;;
  b <+ (if (length (words b) <? length rhs)%nat then
          b <+ call (length (words b)) (ensure_capacity b (len rhs)) ;;
          hi <+ free (slice_from (length (words b)) rhs) ;;
          call (length hi) (extend b hi)
        else free (Ok b)) ;;
  c_from_buffer b.

(** src/bits.rs:557-562 *)
Definition c_bitxor_large_word (b : Buffer) (rhs : Z) : counted ubig :=
  ensure (2 <=? length (words b))%nat ;;
  b <+ free (on_first b (fun x => Z.lxor x rhs)) ;; c_from_buffer b.

(** src/bits.rs:564-573 *)
Definition c_bitxor_large (b : Buffer) (rhs : list Z) : counted ubig :=
  b <+ c_zip_words Z.lxor b rhs ;;
  b <+ (if (length (words b) <? length rhs)%nat then
          b <+ call (length (words b)) (ensure_capacity b (len rhs)) ;;
          hi <+ free (slice_from (length (words b)) rhs) ;;
          call (length hi) (extend b hi)
        else free (Ok b)) ;;
  c_from_buffer b.

(** src/bits.rs:634-639 *)
Definition c_and_not_large_word (b : Buffer) (rhs : Z) : counted ubig :=
  ensure (2 <=? length (words b))%nat ;;
  b <+ free (on_first b (fun x => Z.land x (not_w rhs))) ;; c_from_buffer b.

(** src/bits.rs:641-646 *)
Definition c_and_not_large (b : Buffer) (rhs : list Z) : counted ubig :=
  b <+ c_zip_words (fun x y => Z.land x (not_w y)) b rhs ;; c_from_buffer b.

(** src/bits.rs:297-310 *)
Definition c_ubig_and_vv (a b : ubig) : counted ubig :=
  match a, b with
  | Small x, Small y => call 0 (Ok (from_word (Z.land x y)))
  | Small x, Large y => call 0 (and_first x y)
  | Large x, Small y => call 0 (first_and x y)
  | Large x, Large y =>
      if (length (words x) <=? length (words y))%nat
      then c_bitand_large x (words y)
      else c_bitand_large y (words x)
  end.

(** src/bits.rs:317-324 *)
Definition c_ubig_and_vr (a b : ubig) : counted ubig :=
  match a, b with
  | Small x, Small y => call 0 (Ok (from_word (Z.land x y)))
  | Small x, Large y => call 0 (and_first x y)
  | Large x, Small y => call 0 (first_and x y)
  | Large x, Large y => c_bitand_large x (words y)
  end.

(** src/bits.rs:331-333 *)
Definition c_ubig_and_rv (a b : ubig) : counted ubig := c_ubig_and_vr b a.

(** src/bits.rs:340-353 *)
Definition c_ubig_and_rr (a b : ubig) : counted ubig :=
  match a, b with
  | Small x, Small y => call 0 (Ok (from_word (Z.land x y)))
  | Small x, Large y => call 0 (and_first x y)
  | Large x, Small y => call 0 (first_and x y)
  | Large x, Large y =>
      if (length (words x) <=? length (words y))%nat
      then x <+ c_buffer_clone x ;; c_bitand_large x (words y)
      else y <+ c_buffer_clone y ;; c_bitand_large y (words x)
  end.

(** src/bits.rs:386-399 *)
Definition c_ubig_or_vv (a b : ubig) : counted ubig :=
  match a, b with
  | Small x, Small y => call 0 (Ok (from_word (Z.lor x y)))
  | Small x, Large y => c_bitor_large_word y x
  | Large x, Small y => c_bitor_large_word x y
  | Large x, Large y =>
      if (length (words y) <=? length (words x))%nat
      then c_bitor_large x (words y)
      else c_bitor_large y (words x)
  end.

(** src/bits.rs:406-413 *)
Definition c_ubig_or_vr (a b : ubig) : counted ubig :=
  match a, b with
  | Small x, Small y => call 0 (Ok (from_word (Z.lor x y)))
  | Small x, Large y => y <+ c_buffer_clone y ;; c_bitor_large_word y x
  | Large x, Small y => c_bitor_large_word x y
  | Large x, Large y => c_bitor_large x (words y)
  end.

(** src/bits.rs:420-422 *)
Definition c_ubig_or_rv (a b : ubig) : counted ubig := c_ubig_or_vr b a.

(** src/bits.rs:429-442 *)
Definition c_ubig_or_rr (a b : ubig) : counted ubig :=
  match a, b with
  | Small x, Small y => call 0 (Ok (from_word (Z.lor x y)))
  | Small x, Large y => y <+ c_buffer_clone y ;; c_bitor_large_word y x
  | Large x, Small y => x <+ c_buffer_clone x ;; c_bitor_large_word x y
  | Large x, Large y =>
      if (length (words y) <=? length (words x))%nat
      then x <+ c_buffer_clone x ;; c_bitor_large x (words y)
      else y <+ c_buffer_clone y ;; c_bitor_large y (words x)
  end.

(** src/bits.rs:483-496 *)
Definition c_ubig_xor_vv (a b : ubig) : counted ubig :=
  match a, b with
  | Small x, Small y => call 0 (Ok (from_word (Z.lxor x y)))
  | Small x, Large y => c_bitxor_large_word y x
  | Large x, Small y => c_bitxor_large_word x y
  | Large x, Large y =>
      if (length (words y) <=? length (words x))%nat
      then c_bitxor_large x (words y)
      else c_bitxor_large y (words x)
  end.

(** src/bits.rs:503-510 *)
Definition c_ubig_xor_vr (a b : ubig) : counted ubig :=
  match a, b with
  | Small x, Small y => call 0 (Ok (from_word (Z.lxor x y)))
  | Small x, Large y => y <+ c_buffer_clone y ;; c_bitxor_large_word y x
  | Large x, Small y => c_bitxor_large_word x y
  | Large x, Large y => c_bitxor_large x (words y)
  end.

(** src/bits.rs:517-519 *)
Definition c_ubig_xor_rv (a b : ubig) : counted ubig := c_ubig_xor_vr b a.

(** src/bits.rs:526-539 *)
Definition c_ubig_xor_rr (a b : ubig) : counted ubig :=
  match a, b with
  | Small x, Small y => call 0 (Ok (from_word (Z.lxor x y)))
  | Small x, Large y => y <+ c_buffer_clone y ;; c_bitxor_large_word y x
  | Large x, Small y => x <+ c_buffer_clone x ;; c_bitxor_large_word x y
  | Large x, Large y =>
      if (length (words y) <=? length (words x))%nat
      then x <+ c_buffer_clone x ;; c_bitxor_large x (words y)
      else y <+ c_buffer_clone y ;; c_bitxor_large y (words x)
  end.

(** src/bits.rs:580-587 *)
Definition c_ubig_and_not_vv (a b : ubig) : counted ubig :=
  match a, b with
  | Small x, Small y => call 0 (Ok (from_word (Z.land x (not_w y))))
  | Small x, Large y => call 0 (and_not_first x y)
  | Large x, Small y => c_and_not_large_word x y
  | Large x, Large y => c_and_not_large x (words y)
  end.

(** src/bits.rs:594-601 *)
Definition c_ubig_and_not_vr (a b : ubig) : counted ubig :=
  match a, b with
  | Small x, Small y => call 0 (Ok (from_word (Z.land x (not_w y))))
  | Small x, Large y => call 0 (and_not_first x y)
  | Large x, Small y => c_and_not_large_word x y
  | Large x, Large y => c_and_not_large x (words y)
  end.

(** src/bits.rs:608-616 *)
Definition c_ubig_and_not_rv (a b : ubig) : counted ubig :=
  match a, b with
  | Small x, Small y => call 0 (Ok (from_word (Z.land x (not_w y))))
  | Small x, Large y => call 0 (and_not_first x y)
  | Large x, Small y => x <+ c_buffer_clone x ;; c_and_not_large_word x y
  | Large x, Large y => x <+ c_buffer_clone x ;; c_and_not_large x (words y)
  end.

(** src/bits.rs:623-630 *)
Definition c_ubig_and_not_rr (a b : ubig) : counted ubig :=
  match a, b with
  | Small x, Small y => call 0 (Ok (from_word (Z.land x (not_w y))))
  | Small x, Large y => call 0 (and_not_first x y)
  | Large x, Small y => x <+ c_buffer_clone x ;; c_and_not_large_word x y
  | Large x, Large y => x <+ c_buffer_clone x ;; c_and_not_large x (words y)
  end.


(** ** Signed numbers *)

(** [IBig::from], which has no loop. E.g. src/bits.rs:673 *)
Definition c_ibig_of (m : counted ubig) : counted ibig := u <+ m ;; free (Ok (ibig_from_ubig u)).
(** [-x], which has no loop. E.g. src/bits.rs:654 *)
Definition c_neg_res (m : counted ibig) : counted ibig := x <+ m ;; free (Ok (ibig_neg x)).

(** src/add_ops.rs:681-688 *)
Definition c_sub_ubig_val_ref (lhs rhs : ubig) : counted ibig :=
  match lhs, rhs with
  | Small x, Small y => call 0 (Ok (isub_word_word x y))
  | Small x, Large y => y <+ c_buffer_clone y ;; c_neg_res (c_isub_large_word y x)
  | Large x, Small y => c_isub_large_word x y
  | Large x, Large y => c_isub_large x (words y)
  end.

(** src/add_ops.rs:181-195 *)
Definition c_ibig_add_vr (x y : ibig) : counted ibig :=
  match isign x, isign y with
  | Positive, Positive => c_ibig_of (c_ubig_add_vr (imag x) (imag y))
  | Positive, Negative => c_sub_ubig_val_ref (imag x) (imag y)
  | Negative, Positive => c_neg_res (c_sub_ubig_val_ref (imag x) (imag y))
  | Negative, Negative => c_neg_res (c_ibig_of (c_ubig_add_vr (imag x) (imag y)))
  end.

(** src/add_ops.rs:197-204 *)
Definition c_ibig_add_rv (x y : ibig) : counted ibig := c_ibig_add_vr y x.

(** src/bits.rs:653-655 *)
Definition c_ibig_not_v (x : ibig) : counted ibig :=
  one <+ call 0 (ibig_from_unsigned 8 1) ;; c_neg_res (c_ibig_add_vv x one).
(** src/bits.rs:662-664 *)
Definition c_ibig_not_r (x : ibig) : counted ibig :=
  one <+ call 0 (ibig_from_unsigned 8 1) ;; c_neg_res (c_ibig_add_rv x one).

(** [(!x).unsigned_abs()]. E.g. src/bits.rs:674 *)
Definition c_not_mag_v (x : ibig) : counted ubig := y <+ c_ibig_not_v x ;; free (Ok (unsigned_abs y)).
(** E.g. src/bits.rs:688 *)
Definition c_not_mag_r (x : ibig) : counted ubig := y <+ c_ibig_not_r x ;; free (Ok (unsigned_abs y)).
(** [!IBig::from(u)]. E.g. src/bits.rs:676 *)
Definition c_not_of (m : counted ubig) : counted ibig := y <+ c_ibig_of m ;; c_ibig_not_v y.

(** src/bits.rs:671-678 *)
Definition c_ibig_and_vv (x y : ibig) : counted ibig :=
  match isign x, isign y with
  | Positive, Positive => c_ibig_of (c_ubig_and_vv (imag x) (imag y))
  | Positive, Negative => yn <+ c_not_mag_v y ;; c_ibig_of (c_ubig_and_not_vv (imag x) yn)
  | Negative, Positive => xn <+ c_not_mag_v x ;; c_ibig_of (c_ubig_and_not_vv (imag y) xn)
  | Negative, Negative => xn <+ c_not_mag_v x ;; yn <+ c_not_mag_v y ;; c_not_of (c_ubig_or_vv xn yn)
  end.

(** src/bits.rs:685-692 *)
Definition c_ibig_and_vr (x y : ibig) : counted ibig :=
  match isign x, isign y with
  | Positive, Positive => c_ibig_of (c_ubig_and_vr (imag x) (imag y))
  | Positive, Negative => yn <+ c_not_mag_r y ;; c_ibig_of (c_ubig_and_not_vv (imag x) yn)
  | Negative, Positive => xn <+ c_not_mag_v x ;; c_ibig_of (c_ubig_and_not_rv (imag y) xn)
  | Negative, Negative => xn <+ c_not_mag_v x ;; yn <+ c_not_mag_r y ;; c_not_of (c_ubig_or_vv xn yn)
  end.

(** src/bits.rs:699-701 *)
Definition c_ibig_and_rv (x y : ibig) : counted ibig := c_ibig_and_vr y x.

(** src/bits.rs:708-715 *)
Definition c_ibig_and_rr (x y : ibig) : counted ibig :=
  match isign x, isign y with
  | Positive, Positive => c_ibig_of (c_ubig_and_rr (imag x) (imag y))
  | Positive, Negative => yn <+ c_not_mag_r y ;; c_ibig_of (c_ubig_and_not_rv (imag x) yn)
  | Negative, Positive => xn <+ c_not_mag_r x ;; c_ibig_of (c_ubig_and_not_rv (imag y) xn)
  | Negative, Negative => xn <+ c_not_mag_r x ;; yn <+ c_not_mag_r y ;; c_not_of (c_ubig_or_vv xn yn)
  end.

(** src/bits.rs:736-743 *)
Definition c_ibig_or_vv (x y : ibig) : counted ibig :=
  match isign x, isign y with
  | Positive, Positive => c_ibig_of (c_ubig_or_vv (imag x) (imag y))
  | Positive, Negative => yn <+ c_not_mag_v y ;; c_not_of (c_ubig_and_not_vv yn (imag x))
  | Negative, Positive => xn <+ c_not_mag_v x ;; c_not_of (c_ubig_and_not_vv xn (imag y))
  | Negative, Negative => xn <+ c_not_mag_v x ;; yn <+ c_not_mag_v y ;; c_not_of (c_ubig_and_vv xn yn)
  end.

(** src/bits.rs:750-757 *)
Definition c_ibig_or_vr (x y : ibig) : counted ibig :=
  match isign x, isign y with
  | Positive, Positive => c_ibig_of (c_ubig_or_vr (imag x) (imag y))
  | Positive, Negative => yn <+ c_not_mag_r y ;; c_not_of (c_ubig_and_not_vv yn (imag x))
  | Negative, Positive => xn <+ c_not_mag_v x ;; c_not_of (c_ubig_and_not_vr xn (imag y))
  | Negative, Negative => xn <+ c_not_mag_v x ;; yn <+ c_not_mag_r y ;; c_not_of (c_ubig_and_vv xn yn)
  end.

(** src/bits.rs:764-766 *)
Definition c_ibig_or_rv (x y : ibig) : counted ibig := c_ibig_or_vr y x.

(** src/bits.rs:773-780 *)
Definition c_ibig_or_rr (x y : ibig) : counted ibig :=
  match isign x, isign y with
  | Positive, Positive => c_ibig_of (c_ubig_or_rr (imag x) (imag y))
  | Positive, Negative => yn <+ c_not_mag_r y ;; c_not_of (c_ubig_and_not_vr yn (imag x))
  | Negative, Positive => xn <+ c_not_mag_r x ;; c_not_of (c_ubig_and_not_vr xn (imag y))
  | Negative, Negative => xn <+ c_not_mag_r x ;; yn <+ c_not_mag_r y ;; c_not_of (c_ubig_and_vv xn yn)
  end.

(** src/bits.rs:801-808 *)
Definition c_ibig_xor_vv (x y : ibig) : counted ibig :=
  match isign x, isign y with
  | Positive, Positive => c_ibig_of (c_ubig_xor_vv (imag x) (imag y))
  | Positive, Negative => yn <+ c_not_mag_v y ;; c_not_of (c_ubig_xor_vv (imag x) yn)
  | Negative, Positive => xn <+ c_not_mag_v x ;; c_not_of (c_ubig_xor_vv xn (imag y))
  | Negative, Negative => xn <+ c_not_mag_v x ;; yn <+ c_not_mag_v y ;; c_ibig_of (c_ubig_xor_vv xn yn)
  end.

(** src/bits.rs:815-822 *)
Definition c_ibig_xor_vr (x y : ibig) : counted ibig :=
  match isign x, isign y with
  | Positive, Positive => c_ibig_of (c_ubig_xor_vr (imag x) (imag y))
  | Positive, Negative => yn <+ c_not_mag_r y ;; c_not_of (c_ubig_xor_vv (imag x) yn)
  | Negative, Positive => xn <+ c_not_mag_v x ;; c_not_of (c_ubig_xor_vr xn (imag y))
  | Negative, Negative => xn <+ c_not_mag_v x ;; yn <+ c_not_mag_r y ;; c_ibig_of (c_ubig_xor_vv xn yn)
  end.

(** src/bits.rs:829-831 *)
Definition c_ibig_xor_rv (x y : ibig) : counted ibig := c_ibig_xor_vr y x.

(** src/bits.rs:838-845 *)
Definition c_ibig_xor_rr (x y : ibig) : counted ibig :=
  match isign x, isign y with
  | Positive, Positive => c_ibig_of (c_ubig_xor_rr (imag x) (imag y))
  | Positive, Negative => yn <+ c_not_mag_r y ;; c_not_of (c_ubig_xor_rv (imag x) yn)
  | Negative, Positive => xn <+ c_not_mag_r x ;; c_not_of (c_ubig_xor_vr xn (imag y))
  | Negative, Negative => xn <+ c_not_mag_r x ;; yn <+ c_not_mag_r y ;; c_ibig_of (c_ubig_xor_vv xn yn)
  end.

(** src/bits.rs:866-875 *)
Definition c_ibig_and_not_vv (x y : ibig) : counted ibig :=
  match isign x, isign y with
  | Positive, Positive => c_ibig_of (c_ubig_and_not_vv (imag x) (imag y))
  | Positive, Negative => yn <+ c_not_mag_v y ;; c_ibig_of (c_ubig_and_vv (imag x) yn)
  | Negative, Positive => xn <+ c_not_mag_v x ;; c_not_of (c_ubig_or_vv xn (imag y))
  | Negative, Negative => yn <+ c_not_mag_v y ;; xn <+ c_not_mag_v x ;; c_ibig_of (c_ubig_and_not_vv yn xn)
  end.

(** src/bits.rs:882-891 *)
Definition c_ibig_and_not_vr (x y : ibig) : counted ibig :=
  match isign x, isign y with
  | Positive, Positive => c_ibig_of (c_ubig_and_not_vr (imag x) (imag y))
  | Positive, Negative => yn <+ c_not_mag_r y ;; c_ibig_of (c_ubig_and_vv (imag x) yn)
  | Negative, Positive => xn <+ c_not_mag_v x ;; c_not_of (c_ubig_or_vr xn (imag y))
  | Negative, Negative => yn <+ c_not_mag_r y ;; xn <+ c_not_mag_v x ;; c_ibig_of (c_ubig_and_not_vv yn xn)
  end.

(** src/bits.rs:898-907 *)
Definition c_ibig_and_not_rv (x y : ibig) : counted ibig :=
  match isign x, isign y with
  | Positive, Positive => c_ibig_of (c_ubig_and_not_rv (imag x) (imag y))
  | Positive, Negative => yn <+ c_not_mag_v y ;; c_ibig_of (c_ubig_and_rv (imag x) yn)
  | Negative, Positive => xn <+ c_not_mag_r x ;; c_not_of (c_ubig_or_vv xn (imag y))
  | Negative, Negative => yn <+ c_not_mag_v y ;; xn <+ c_not_mag_r x ;; c_ibig_of (c_ubig_and_not_vv yn xn)
  end.

(** src/bits.rs:914-923 *)
Definition c_ibig_and_not_rr (x y : ibig) : counted ibig :=
  match isign x, isign y with
  | Positive, Positive => c_ibig_of (c_ubig_and_not_rr (imag x) (imag y))
  | Positive, Negative => yn <+ c_not_mag_r y ;; c_ibig_of (c_ubig_and_rv (imag x) yn)
  | Negative, Positive => xn <+ c_not_mag_r x ;; c_not_of (c_ubig_or_vr xn (imag y))
  | Negative, Negative => yn <+ c_not_mag_r y ;; xn <+ c_not_mag_r x ;; c_ibig_of (c_ubig_and_not_vv yn xn)
  end.

(** ** Bytes: each byte is charged. *)

(** src/convert.rs:52-58 *)
Fixpoint c_le_chunks (fuel : nat) (bytes : list Z) (b : Buffer) : counted Buffer :=
  if (length bytes <? WORD_BYTES)%nat then
    match bytes with
    | [] => free (Ok b)
    | _ => w <+ call WORD_BYTES (word_from_le_bytes_partial bytes) ;; call 0 (push b w)
    end
  else
    match fuel with
    | O => free (Panic Internal)
    | S fuel =>
        b <+ call WORD_BYTES (push b (prim_from_le_bytes (firstn WORD_BYTES bytes))) ;;
        c_le_chunks fuel (skipn WORD_BYTES bytes) b
    end.

(** src/convert.rs:49-60 *)
Definition c_from_le_bytes_large (bytes : list Z) : counted ubig :=
  ensure (WORD_BYTES <? length bytes)%nat ;;
  b <+ call 0 (allocate (Z.of_nat ((length bytes - 1) / WORD_BYTES + 1))) ;;
  b <+ c_le_chunks (length bytes) bytes b ;;
  c_from_buffer b.

(** src/convert.rs:40-47 *)
Definition c_from_le_bytes (bytes : list Z) : counted ubig :=
  if (length bytes <=? WORD_BYTES)%nat then
    w <+ call WORD_BYTES (word_from_le_bytes_partial bytes) ;; free (Ok (from_word w))
  else c_from_le_bytes_large bytes.

(** src/convert.rs:83-89 *)
Fixpoint c_be_chunks (fuel : nat) (bytes : list Z) (b : Buffer) : counted Buffer :=
  if (length bytes <? WORD_BYTES)%nat then
    match bytes with
    | [] => free (Ok b)
    | _ => w <+ call WORD_BYTES (word_from_be_bytes_partial bytes) ;; call 0 (push b w)
    end
  else
    match fuel with
    | O => free (Panic Internal)
    | S fuel =>
        b <+ call WORD_BYTES (push b (prim_from_be_bytes (skipn (length bytes - WORD_BYTES) bytes))) ;;
        c_be_chunks fuel (firstn (length bytes - WORD_BYTES) bytes) b
    end.

(** src/convert.rs:80-91 *)
Definition c_from_be_bytes_large (bytes : list Z) : counted ubig :=
  ensure (WORD_BYTES <? length bytes)%nat ;;
  b <+ call 0 (allocate (Z.of_nat ((length bytes - 1) / WORD_BYTES + 1))) ;;
  b <+ c_be_chunks (length bytes) bytes b ;;
  c_from_buffer b.

(** src/convert.rs:71-78 *)
Definition c_from_be_bytes (bytes : list Z) : counted ubig :=
  if (length bytes <=? WORD_BYTES)%nat then
    w <+ call WORD_BYTES (word_from_be_bytes_partial bytes) ;; free (Ok (from_word w))
  else c_from_be_bytes_large bytes.

(** The loops of src/convert.rs:114-116 and 147-149 *)
Fixpoint c_words_bytes (f : Z -> list Z) (ws : list Z) : counted (list Z) :=
  match ws with
  | [] => free (Ok [])
  | w :: ws =>
      head <+ call WORD_BYTES (Ok (f w)) ;;
      rest <+ c_words_bytes f ws ;; free (Ok (head ++ rest))
  end.

(** src/convert.rs:102-122 *)
Definition c_to_le_bytes (u : ubig) : counted (list Z) :=
  match u with
  | Small x => call WORD_BYTES (slice_to (WORD_BYTES - skip_bytes x) (prim_to_le_bytes WORD_BYTES x))
  | Large b =>
      let n := length (words b) in
      last <+ free (get (n - 1) (words b)) ;;
      init <+ free (slice_to (n - 1) (words b)) ;;
      last_bytes <+ call WORD_BYTES (slice_to (WORD_BYTES - skip_bytes last) (prim_to_le_bytes WORD_BYTES last)) ;;
      bytes <+ c_words_bytes (prim_to_le_bytes WORD_BYTES) init ;;
      free (Ok (bytes ++ last_bytes))
  end.

(** src/convert.rs:133-153 *)
Definition c_to_be_bytes (u : ubig) : counted (list Z) :=
  match u with
  | Small x => call WORD_BYTES (slice_from (skip_bytes x) (prim_to_be_bytes WORD_BYTES x))
  | Large b =>
      let n := length (words b) in
      last <+ free (get (n - 1) (words b)) ;;
      init <+ free (slice_to (n - 1) (words b)) ;;
      last_bytes <+ call WORD_BYTES (slice_from (skip_bytes last) (prim_to_be_bytes WORD_BYTES last)) ;;
      bytes <+ c_words_bytes (prim_to_be_bytes WORD_BYTES) (rev init) ;;
      free (Ok (last_bytes ++ bytes))
  end.

End CostBits.
