(** Bit operations: src/bits.rs.  Definitions only. *)
From Verif Require Import Model.Base Model.Words Model.Memory Model.Buffer Model.UBig Model.IBig
  Model.Convert Model.AddOps Model.MulOps.

Section Bits.
Context {A : Arch}.

(** [!w] on a [Word]. E.g. src/bits.rs:104 *)
Definition not_w (w : Z) : Z := (Z.lnot w) mod B.

(** src/bits.rs:31-39 *)
Definition bit (u : ubig) (n : Z) : res bool :=
  match u with
  | Small w => Ok ((n <? wbits) && negb (Z.land w (shl_w 1 n) =? 0))
  | Large b =>
      let idx := n / wbits in
      if idx <? blen b then
        w <- get (Z.to_nat idx) (words b) ;; Ok (negb (Z.land w (shl_w 1 (n mod wbits)) =? 0))
      else Ok false
  end.

(** src/bits.rs:67-75 *)
Definition with_bit_word_slow (word n : Z) : res ubig :=
  check (wbits <=? n) ;;
  let idx := n / wbits in
  m <- usize_chk (idx + 1) ;;
  b <- allocate m ;;
  b <- push b word ;;
  b <- extend b (repeat 0 (Z.to_nat (idx - 1))) ;;
  b <- push b (shl_w 1 (n mod wbits)) ;;
  from_buffer b.

(** src/bits.rs:77-87 *)
Definition with_bit_large (b : Buffer) (n : Z) : res ubig :=
  let idx := n / wbits in
  b <- (if idx <? blen b then
          w <- get (Z.to_nat idx) (words b) ;;
          ws <- set (Z.to_nat idx) (Z.lor w (shl_w 1 (n mod wbits))) (words b) ;;
          Ok (mkBuffer ws (cap b))
        else
          m <- usize_chk (idx + 1) ;;
          b <- ensure_capacity b m ;;
          b <- push_zeros b (Z.to_nat (idx - blen b)) ;;
          push b (shl_w 1 (n mod wbits))) ;;
  from_buffer b.

(** src/bits.rs:54-65: the new value of [self]. *)
Definition set_bit (u : ubig) (n : Z) : res ubig :=
  match u with
  | Small w => if n <? wbits then Ok (from_word (Z.lor w (shl_w 1 n))) else with_bit_word_slow w n
  | Large b => with_bit_large b n
  end.

(** src/bits.rs:111-117 *)
Definition without_bit_large (b : Buffer) (n : Z) : res ubig :=
  let idx := n / wbits in
  b <- (if idx <? blen b then
          w <- get (Z.to_nat idx) (words b) ;;
          ws <- set (Z.to_nat idx) (Z.land w (not_w (shl_w 1 (n mod wbits)))) (words b) ;;
          Ok (mkBuffer ws (cap b))
        else Ok b) ;;
  from_buffer b.

(** src/bits.rs:100-109: the new value of [self].  [mem::take] leaves 0 in [self],
    and nothing is stored when a small number has no bit [n]. *)
Definition clear_bit (u : ubig) (n : Z) : res ubig :=
  match u with
  | Small w => if n <? wbits then Ok (from_word (Z.land w (not_w (shl_w 1 n)))) else Ok (from_word 0)
  | Large b => without_bit_large b n
  end.

(** src/bits.rs:143-152 *)
Fixpoint trailing_zeros_loop (idx : Z) (ws : list Z) : res Z :=
  match ws with
  | [] => Panic Internal
  | w :: t =>
      if w =? 0 then trailing_zeros_loop (idx + 1) t
      else usize_chk (idx * wbits + trailing_zeros_w w)
  end.
Definition trailing_zeros_large (ws : list Z) : res Z :=
  check (negb (last ws 0 =? 0)) ;; trailing_zeros_loop 0 ws.

(** src/bits.rs:135-141 *)
Definition ubig_trailing_zeros (u : ubig) : res (option Z) :=
  match u with
  | Small w => if w =? 0 then Ok None else Ok (Some (trailing_zeros_w w))
  | Large b => n <- trailing_zeros_large (words b) ;; Ok (Some n)
  end.

(** src/bits.rs:229-231 *)
Definition ibig_trailing_zeros (x : ibig) : res (option Z) := ubig_trailing_zeros (imag x).

(** src/bits.rs:178-185 *)
Definition ubig_bit_len (u : ubig) : res Z :=
  match u with
  | Small w => Ok (bit_len_w w)
  | Large b =>
      n <- usize_chk (blen b * wbits) ;;
      w <- get (length (words b) - 1) (words b) ;;
      usize_chk (n - leading_zeros_w w)
  end.

(** [is_power_of_two] of a [Word]: exactly one bit set. E.g. src/bits.rs:200 *)
Definition is_power_of_two_w (w : Z) : bool := negb (w =? 0) && (Z.land w (w - 1) =? 0).

(** src/bits.rs:205-209 *)
Definition is_power_of_two_large (ws : list Z) : res bool :=
  check (negb (last ws 0 =? 0)) ;;
  lo <- slice_to (length ws - 1) ws ;;
  w <- get (length ws - 1) ws ;;
  Ok (forallb (fun x => x =? 0) lo && is_power_of_two_w w).

(** src/bits.rs:198-203 *)
Definition is_power_of_two (u : ubig) : res bool :=
  match u with
  | Small w => Ok (is_power_of_two_w w)
  | Large b => is_power_of_two_large (words b)
  end.

(** [checked_next_power_of_two] of a [Word] ([Some 1] for 0). E.g. src/bits.rs:240 *)
Definition checked_next_power_of_two_w (w : Z) : option Z :=
  let p := if w <=? 1 then 1 else 2 ^ bitlen (w - 1) in
  if p <? B then Some p else None.

(** [checked_add] of a [Word]. E.g. src/bits.rs:278 *)
Definition checked_add_w (a b : Z) : option Z := if a + b <? B then Some (a + b) else None.

(** src/bits.rs:264-275: [skip_while] the zeros, then clear from the first
    nonzero word on; the carry tells whether there was one. *)
Fixpoint clear_from_nonzero (ws : list Z) : list Z * Z :=
  match ws with
  | [] => ([], 0)
  | w :: t =>
      if w =? 0 then let '(t', c) := clear_from_nonzero t in (w :: t', c)
      else (0 :: repeat 0 (length t), 1)
  end.

(** src/bits.rs:259-290 *)
Definition next_power_of_two_large (b : Buffer) : res ubig :=
  check (negb (last (words b) 0 =? 0)) ;;
  let n := length (words b) in
  '(b, carry) <- on_buffer 0 (n - 1) b (fun w => Ok (clear_from_nonzero w)) ;;
  l <- get (n - 1) (words b) ;;
  b <- (match (match checked_add_w l carry with
               | Some x => checked_next_power_of_two_w x
               | None => None
               end) with
        | Some p => ws <- set (n - 1) p (words b) ;; Ok (mkBuffer ws (cap b))
        | None =>
            ws <- set (n - 1) 0 (words b) ;;
            m <- usize_chk (Z.of_nat n + 1) ;;
            b <- ensure_capacity (mkBuffer ws (cap b)) m ;;
            push b 1
        end) ;;
  from_buffer b.

(** src/bits.rs:238-246 *)
Definition next_power_of_two_v (u : ubig) : res ubig :=
  match u with
  | Small w =>
      match checked_next_power_of_two_w w with
      | Some p => Ok (from_word p)
      | None => ubig_from_dword (double_word 0 1)
      end
  | Large b => next_power_of_two_large b
  end.

(** src/bits.rs:253-255 *)
Definition next_power_of_two_r (u : ubig) : res ubig :=
  u <- ubig_clone u ;; next_power_of_two_v u.

(** [for (x, y) in xs.iter_mut().zip(ys.iter())] with [x = f x y] as the body. E.g. src/bits.rs:375 *)
Fixpoint zip_words (f : Z -> Z -> Z) (xs ys : list Z) : list Z :=
  match xs, ys with
  | x :: xs, y :: ys => f x y :: zip_words f xs ys
  | _, _ => xs
  end.

(** [buffer.first_mut().unwrap() = f(..)]. E.g. src/bits.rs:463 *)
Definition on_first (b : Buffer) (f : Z -> Z) : res Buffer :=
  w <- get 0 (words b) ;;
  ws <- set 0 (f w) (words b) ;; Ok (mkBuffer ws (cap b)).

(** src/bits.rs:371-379 *)
Definition bitand_large (b : Buffer) (rhs : list Z) : res ubig :=
  b <- (if (length rhs <? length (words b))%nat then truncate b (length rhs) else Ok b) ;;
  from_buffer (mkBuffer (zip_words Z.land (words b) rhs) (cap b)).

(** [word & buffer.first().unwrap()]. E.g. src/bits.rs:300 *)
Definition and_first (w : Z) (b : Buffer) : res ubig :=
  x <- get 0 (words b) ;; Ok (from_word (Z.land w x)).
(** E.g. src/bits.rs:301 *)
Definition first_and (b : Buffer) (w : Z) : res ubig :=
  x <- get 0 (words b) ;; Ok (from_word (Z.land x w)).

(** src/bits.rs:297-310 *)
Definition ubig_and_vv (a b : ubig) : res ubig :=
  match a, b with
  | Small x, Small y => Ok (from_word (Z.land x y))
  | Small x, Large y => and_first x y
  | Large x, Small y => first_and x y
  | Large x, Large y =>
      if (length (words x) <=? length (words y))%nat
      then bitand_large x (words y)
      else bitand_large y (words x)
  end.

(** src/bits.rs:317-324 *)
Definition ubig_and_vr (a b : ubig) : res ubig :=
  match a, b with
  | Small x, Small y => Ok (from_word (Z.land x y))
  | Small x, Large y => and_first x y
  | Large x, Small y => first_and x y
  | Large x, Large y => bitand_large x (words y)
  end.

(** src/bits.rs:331-333 *)
Definition ubig_and_rv (a b : ubig) : res ubig := ubig_and_vr b a.

(** src/bits.rs:340-353 *)
Definition ubig_and_rr (a b : ubig) : res ubig :=
  match a, b with
  | Small x, Small y => Ok (from_word (Z.land x y))
  | Small x, Large y => and_first x y
  | Large x, Small y => first_and x y
  | Large x, Large y =>
      if (length (words x) <=? length (words y))%nat
      then x <- buffer_clone x ;; bitand_large x (words y)
      else y <- buffer_clone y ;; bitand_large y (words x)
  end.

(** src/bits.rs:358-367 *)
Definition ubig_and_assign_v (a b : ubig) : res ubig := ubig_and_vv a b.
Definition ubig_and_assign_r (a b : ubig) : res ubig := ubig_and_vr a b.

(** src/bits.rs:460-465 *)
Definition bitor_large_word (b : Buffer) (rhs : Z) : res ubig :=
  check (2 <=? length (words b))%nat ;;
  b <- on_first b (fun x => Z.lor x rhs) ;; from_buffer b.

(** src/bits.rs:467-476 *)
Definition bitor_large (b : Buffer) (rhs : list Z) : res ubig :=
  let b := mkBuffer (zip_words Z.lor (words b) rhs) (cap b) in
  b <- (if (length (words b) <? length rhs)%nat then
          b <- ensure_capacity b (len rhs) ;;
          hi <- slice_from (length (words b)) rhs ;;
          extend b hi
        else Ok b) ;;
  from_buffer b.

(** src/bits.rs:386-399 *)
Definition ubig_or_vv (a b : ubig) : res ubig :=
  match a, b with
  | Small x, Small y => Ok (from_word (Z.lor x y))
  | Small x, Large y => bitor_large_word y x
  | Large x, Small y => bitor_large_word x y
  | Large x, Large y =>
      if (length (words y) <=? length (words x))%nat
      then bitor_large x (words y)
      else bitor_large y (words x)
  end.

(** src/bits.rs:406-413 *)
Definition ubig_or_vr (a b : ubig) : res ubig :=
  match a, b with
  | Small x, Small y => Ok (from_word (Z.lor x y))
  | Small x, Large y => y <- buffer_clone y ;; bitor_large_word y x
  | Large x, Small y => bitor_large_word x y
  | Large x, Large y => bitor_large x (words y)
  end.

(** src/bits.rs:420-422 *)
Definition ubig_or_rv (a b : ubig) : res ubig := ubig_or_vr b a.

(** src/bits.rs:429-442 *)
Definition ubig_or_rr (a b : ubig) : res ubig :=
  match a, b with
  | Small x, Small y => Ok (from_word (Z.lor x y))
  | Small x, Large y => y <- buffer_clone y ;; bitor_large_word y x
  | Large x, Small y => x <- buffer_clone x ;; bitor_large_word x y
  | Large x, Large y =>
      if (length (words y) <=? length (words x))%nat
      then x <- buffer_clone x ;; bitor_large x (words y)
      else y <- buffer_clone y ;; bitor_large y (words x)
  end.

(** src/bits.rs:447-456 *)
Definition ubig_or_assign_v (a b : ubig) : res ubig := ubig_or_vv a b.
Definition ubig_or_assign_r (a b : ubig) : res ubig := ubig_or_vr a b.

(** src/bits.rs:557-562 *)
Definition bitxor_large_word (b : Buffer) (rhs : Z) : res ubig :=
  check (2 <=? length (words b))%nat ;;
  b <- on_first b (fun x => Z.lxor x rhs) ;; from_buffer b.

(** src/bits.rs:564-573 *)
Definition bitxor_large (b : Buffer) (rhs : list Z) : res ubig :=
  let b := mkBuffer (zip_words Z.lxor (words b) rhs) (cap b) in
  b <- (if (length (words b) <? length rhs)%nat then
          b <- ensure_capacity b (len rhs) ;;
          hi <- slice_from (length (words b)) rhs ;;
          extend b hi
        else Ok b) ;;
  from_buffer b.

(** src/bits.rs:483-496 *)
Definition ubig_xor_vv (a b : ubig) : res ubig :=
  match a, b with
  | Small x, Small y => Ok (from_word (Z.lxor x y))
  | Small x, Large y => bitxor_large_word y x
  | Large x, Small y => bitxor_large_word x y
  | Large x, Large y =>
      if (length (words y) <=? length (words x))%nat
      then bitxor_large x (words y)
      else bitxor_large y (words x)
  end.

(** src/bits.rs:503-510 *)
Definition ubig_xor_vr (a b : ubig) : res ubig :=
  match a, b with
  | Small x, Small y => Ok (from_word (Z.lxor x y))
  | Small x, Large y => y <- buffer_clone y ;; bitxor_large_word y x
  | Large x, Small y => bitxor_large_word x y
  | Large x, Large y => bitxor_large x (words y)
  end.

(** src/bits.rs:517-519 *)
Definition ubig_xor_rv (a b : ubig) : res ubig := ubig_xor_vr b a.

(** src/bits.rs:526-539 *)
Definition ubig_xor_rr (a b : ubig) : res ubig :=
  match a, b with
  | Small x, Small y => Ok (from_word (Z.lxor x y))
  | Small x, Large y => y <- buffer_clone y ;; bitxor_large_word y x
  | Large x, Small y => x <- buffer_clone x ;; bitxor_large_word x y
  | Large x, Large y =>
      if (length (words y) <=? length (words x))%nat
      then x <- buffer_clone x ;; bitxor_large x (words y)
      else y <- buffer_clone y ;; bitxor_large y (words x)
  end.

(** src/bits.rs:544-553 *)
Definition ubig_xor_assign_v (a b : ubig) : res ubig := ubig_xor_vv a b.
Definition ubig_xor_assign_r (a b : ubig) : res ubig := ubig_xor_vr a b.

(** src/bits.rs:634-639 *)
Definition and_not_large_word (b : Buffer) (rhs : Z) : res ubig :=
  check (2 <=? length (words b))%nat ;;
  b <- on_first b (fun x => Z.land x (not_w rhs)) ;; from_buffer b.

(** src/bits.rs:641-646 *)
Definition and_not_large (b : Buffer) (rhs : list Z) : res ubig :=
  from_buffer (mkBuffer (zip_words (fun x y => Z.land x (not_w y)) (words b) rhs) (cap b)).

(** [word & !buffer.first().unwrap()]. E.g. src/bits.rs:583 *)
Definition and_not_first (w : Z) (b : Buffer) : res ubig :=
  x <- get 0 (words b) ;; Ok (from_word (Z.land w (not_w x))).

(** src/bits.rs:580-587 *)
Definition ubig_and_not_vv (a b : ubig) : res ubig :=
  match a, b with
  | Small x, Small y => Ok (from_word (Z.land x (not_w y)))
  | Small x, Large y => and_not_first x y
  | Large x, Small y => and_not_large_word x y
  | Large x, Large y => and_not_large x (words y)
  end.

(** src/bits.rs:594-601 *)
Definition ubig_and_not_vr (a b : ubig) : res ubig :=
  match a, b with
  | Small x, Small y => Ok (from_word (Z.land x (not_w y)))
  | Small x, Large y => and_not_first x y
  | Large x, Small y => and_not_large_word x y
  | Large x, Large y => and_not_large x (words y)
  end.

(** src/bits.rs:608-616 *)
Definition ubig_and_not_rv (a b : ubig) : res ubig :=
  match a, b with
  | Small x, Small y => Ok (from_word (Z.land x (not_w y)))
  | Small x, Large y => and_not_first x y
  | Large x, Small y => x <- buffer_clone x ;; and_not_large_word x y
  | Large x, Large y => x <- buffer_clone x ;; and_not_large x (words y)
  end.

(** src/bits.rs:623-630 *)
Definition ubig_and_not_rr (a b : ubig) : res ubig :=
  match a, b with
  | Small x, Small y => Ok (from_word (Z.land x (not_w y)))
  | Small x, Large y => and_not_first x y
  | Large x, Small y => x <- buffer_clone x ;; and_not_large_word x y
  | Large x, Large y => x <- buffer_clone x ;; and_not_large x (words y)
  end.

(** src/bits.rs:653-655 *)
Definition ibig_not_v (x : ibig) : res ibig :=
  one <- ibig_from_unsigned 8 1 ;; neg_res (ibig_add_vv x one).
(** src/bits.rs:662-664 *)
Definition ibig_not_r (x : ibig) : res ibig :=
  one <- ibig_from_unsigned 8 1 ;; neg_res (ibig_add_rv x one).

(** [(!x).unsigned_abs()]. E.g. src/bits.rs:674 *)
Definition not_mag_v (x : ibig) : res ubig := y <- ibig_not_v x ;; Ok (unsigned_abs y).
(** E.g. src/bits.rs:674 *)
Definition not_mag_r (x : ibig) : res ubig := y <- ibig_not_r x ;; Ok (unsigned_abs y).
(** [!IBig::from(u)]. E.g. src/bits.rs:676 *)
Definition not_of (r : res ubig) : res ibig := y <- ibig_of r ;; ibig_not_v y.

(** src/bits.rs:671-678 *)
Definition ibig_and_vv (x y : ibig) : res ibig :=
  match isign x, isign y with
  | Positive, Positive => ibig_of (ubig_and_vv (imag x) (imag y))
  | Positive, Negative => yn <- not_mag_v y ;; ibig_of (ubig_and_not_vv (imag x) yn)
  | Negative, Positive => xn <- not_mag_v x ;; ibig_of (ubig_and_not_vv (imag y) xn)
  | Negative, Negative => xn <- not_mag_v x ;; yn <- not_mag_v y ;; not_of (ubig_or_vv xn yn)
  end.

(** src/bits.rs:685-692 *)
Definition ibig_and_vr (x y : ibig) : res ibig :=
  match isign x, isign y with
  | Positive, Positive => ibig_of (ubig_and_vr (imag x) (imag y))
  | Positive, Negative => yn <- not_mag_r y ;; ibig_of (ubig_and_not_vv (imag x) yn)
  | Negative, Positive => xn <- not_mag_v x ;; ibig_of (ubig_and_not_rv (imag y) xn)
  | Negative, Negative => xn <- not_mag_v x ;; yn <- not_mag_r y ;; not_of (ubig_or_vv xn yn)
  end.

(** src/bits.rs:699-701 *)
Definition ibig_and_rv (x y : ibig) : res ibig := ibig_and_vr y x.

(** src/bits.rs:708-715 *)
Definition ibig_and_rr (x y : ibig) : res ibig :=
  match isign x, isign y with
  | Positive, Positive => ibig_of (ubig_and_rr (imag x) (imag y))
  | Positive, Negative => yn <- not_mag_r y ;; ibig_of (ubig_and_not_rv (imag x) yn)
  | Negative, Positive => xn <- not_mag_r x ;; ibig_of (ubig_and_not_rv (imag y) xn)
  | Negative, Negative => xn <- not_mag_r x ;; yn <- not_mag_r y ;; not_of (ubig_or_vv xn yn)
  end.

(** src/bits.rs:720-729 *)
Definition ibig_and_assign_v (a b : ibig) : res ibig := ibig_and_vv a b.
Definition ibig_and_assign_r (a b : ibig) : res ibig := ibig_and_vr a b.

(** src/bits.rs:736-743 *)
Definition ibig_or_vv (x y : ibig) : res ibig :=
  match isign x, isign y with
  | Positive, Positive => ibig_of (ubig_or_vv (imag x) (imag y))
  | Positive, Negative => yn <- not_mag_v y ;; not_of (ubig_and_not_vv yn (imag x))
  | Negative, Positive => xn <- not_mag_v x ;; not_of (ubig_and_not_vv xn (imag y))
  | Negative, Negative => xn <- not_mag_v x ;; yn <- not_mag_v y ;; not_of (ubig_and_vv xn yn)
  end.

(** src/bits.rs:750-757 *)
Definition ibig_or_vr (x y : ibig) : res ibig :=
  match isign x, isign y with
  | Positive, Positive => ibig_of (ubig_or_vr (imag x) (imag y))
  | Positive, Negative => yn <- not_mag_r y ;; not_of (ubig_and_not_vv yn (imag x))
  | Negative, Positive => xn <- not_mag_v x ;; not_of (ubig_and_not_vr xn (imag y))
  | Negative, Negative => xn <- not_mag_v x ;; yn <- not_mag_r y ;; not_of (ubig_and_vv xn yn)
  end.

(** src/bits.rs:764-766 *)
Definition ibig_or_rv (x y : ibig) : res ibig := ibig_or_vr y x.

(** src/bits.rs:773-780 *)
Definition ibig_or_rr (x y : ibig) : res ibig :=
  match isign x, isign y with
  | Positive, Positive => ibig_of (ubig_or_rr (imag x) (imag y))
  | Positive, Negative => yn <- not_mag_r y ;; not_of (ubig_and_not_vr yn (imag x))
  | Negative, Positive => xn <- not_mag_r x ;; not_of (ubig_and_not_vr xn (imag y))
  | Negative, Negative => xn <- not_mag_r x ;; yn <- not_mag_r y ;; not_of (ubig_and_vv xn yn)
  end.

(** src/bits.rs:785-794 *)
Definition ibig_or_assign_v (a b : ibig) : res ibig := ibig_or_vv a b.
Definition ibig_or_assign_r (a b : ibig) : res ibig := ibig_or_vr a b.

(** src/bits.rs:801-808 *)
Definition ibig_xor_vv (x y : ibig) : res ibig :=
  match isign x, isign y with
  | Positive, Positive => ibig_of (ubig_xor_vv (imag x) (imag y))
  | Positive, Negative => yn <- not_mag_v y ;; not_of (ubig_xor_vv (imag x) yn)
  | Negative, Positive => xn <- not_mag_v x ;; not_of (ubig_xor_vv xn (imag y))
  | Negative, Negative => xn <- not_mag_v x ;; yn <- not_mag_v y ;; ibig_of (ubig_xor_vv xn yn)
  end.

(** src/bits.rs:815-822 *)
Definition ibig_xor_vr (x y : ibig) : res ibig :=
  match isign x, isign y with
  | Positive, Positive => ibig_of (ubig_xor_vr (imag x) (imag y))
  | Positive, Negative => yn <- not_mag_r y ;; not_of (ubig_xor_vv (imag x) yn)
  | Negative, Positive => xn <- not_mag_v x ;; not_of (ubig_xor_vr xn (imag y))
  | Negative, Negative => xn <- not_mag_v x ;; yn <- not_mag_r y ;; ibig_of (ubig_xor_vv xn yn)
  end.

(** src/bits.rs:829-831 *)
Definition ibig_xor_rv (x y : ibig) : res ibig := ibig_xor_vr y x.

(** src/bits.rs:838-845 *)
Definition ibig_xor_rr (x y : ibig) : res ibig :=
  match isign x, isign y with
  | Positive, Positive => ibig_of (ubig_xor_rr (imag x) (imag y))
  | Positive, Negative => yn <- not_mag_r y ;; not_of (ubig_xor_rv (imag x) yn)
  | Negative, Positive => xn <- not_mag_r x ;; not_of (ubig_xor_vr xn (imag y))
  | Negative, Negative => xn <- not_mag_r x ;; yn <- not_mag_r y ;; ibig_of (ubig_xor_vv xn yn)
  end.

(** src/bits.rs:850-859 *)
Definition ibig_xor_assign_v (a b : ibig) : res ibig := ibig_xor_vv a b.
Definition ibig_xor_assign_r (a b : ibig) : res ibig := ibig_xor_vr a b.

(** src/bits.rs:866-875 *)
Definition ibig_and_not_vv (x y : ibig) : res ibig :=
  match isign x, isign y with
  | Positive, Positive => ibig_of (ubig_and_not_vv (imag x) (imag y))
  | Positive, Negative => yn <- not_mag_v y ;; ibig_of (ubig_and_vv (imag x) yn)
  | Negative, Positive => xn <- not_mag_v x ;; not_of (ubig_or_vv xn (imag y))
  | Negative, Negative => yn <- not_mag_v y ;; xn <- not_mag_v x ;; ibig_of (ubig_and_not_vv yn xn)
  end.

(** src/bits.rs:882-891 *)
Definition ibig_and_not_vr (x y : ibig) : res ibig :=
  match isign x, isign y with
  | Positive, Positive => ibig_of (ubig_and_not_vr (imag x) (imag y))
  | Positive, Negative => yn <- not_mag_r y ;; ibig_of (ubig_and_vv (imag x) yn)
  | Negative, Positive => xn <- not_mag_v x ;; not_of (ubig_or_vr xn (imag y))
  | Negative, Negative => yn <- not_mag_r y ;; xn <- not_mag_v x ;; ibig_of (ubig_and_not_vv yn xn)
  end.

(** src/bits.rs:898-907 *)
Definition ibig_and_not_rv (x y : ibig) : res ibig :=
  match isign x, isign y with
  | Positive, Positive => ibig_of (ubig_and_not_rv (imag x) (imag y))
  | Positive, Negative => yn <- not_mag_v y ;; ibig_of (ubig_and_rv (imag x) yn)
  | Negative, Positive => xn <- not_mag_r x ;; not_of (ubig_or_vv xn (imag y))
  | Negative, Negative => yn <- not_mag_v y ;; xn <- not_mag_r x ;; ibig_of (ubig_and_not_vv yn xn)
  end.

(** src/bits.rs:914-923 *)
Definition ibig_and_not_rr (x y : ibig) : res ibig :=
  match isign x, isign y with
  | Positive, Positive => ibig_of (ubig_and_not_rr (imag x) (imag y))
  | Positive, Negative => yn <- not_mag_r y ;; ibig_of (ubig_and_rv (imag x) yn)
  | Negative, Positive => xn <- not_mag_r x ;; not_of (ubig_or_vr xn (imag y))
  | Negative, Negative => yn <- not_mag_r y ;; xn <- not_mag_r x ;; ibig_of (ubig_and_not_vv yn xn)
  end.

End Bits.
