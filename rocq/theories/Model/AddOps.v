(** Addition and subtraction operators: src/add_ops.rs.  Definitions only.

    [_vv], [_vr], [_rv], [_rr] tell which operands are taken by value and which
    by reference; a by-reference operand that must be modified is cloned. *)
From Verif Require Import Model.Base Model.Words Model.Add Model.Memory Model.Buffer Model.UBig
  Model.IBig.

Section AddOps.
Context {A : Arch}.

(** src/add_ops.rs:531-541 *)
Definition add_word (a b : Z) : res ubig :=
  let '(r, overflow) := overflowing_add a b in
  if overflow then
    buf <- allocate 2 ;; buf <- push buf r ;; buf <- push buf 1 ;; from_buffer buf
  else Ok (from_word r).

(** src/add_ops.rs:544-550 *)
Definition add_large_word (b : Buffer) (rhs : Z) : res ubig :=
  check (2 <=? length (words b))%nat ;;
  '(b, overflow) <- on_words b (fun w => add_word_in_place w rhs) ;;
  b <- (if (overflow : bool) then push_may_reallocate b 1 else Ok b) ;;
  from_buffer b.

(** [buffer[i..j]] modified in place. E.g. src/add_ops.rs:555 *)
Definition on_buffer {R} (i j : nat) (b : Buffer) (f : list Z -> res (list Z * R))
  : res (Buffer * R) := on_words b (fun w => on_window i j w f).

(** src/add_ops.rs:553-564 *)
Definition add_large (b : Buffer) (rhs : list Z) : res ubig :=
  let n := Nat.min (length (words b)) (length rhs) in
  rhs_lo <- slice_to n rhs ;;
  '(b, overflow) <- on_buffer 0 n b (fun w => add_same_len_in_place w rhs_lo) ;;
  b <- (if (n <? length rhs)%nat then
          b <- ensure_capacity b (len rhs) ;;
          rhs_hi <- slice_from n rhs ;;
          extend b rhs_hi
        else Ok b) ;;
  '(b, overflow) <-
     (if (overflow : bool)
      then on_buffer n (length (words b)) b (fun w => Ok (add_one_in_place w))
      else Ok (b, false)) ;;
  b <- (if overflow then push_may_reallocate b 1 else Ok b) ;;
  from_buffer b.

(** src/add_ops.rs:18-36 *)
Definition ubig_add_vv (a b : ubig) : res ubig :=
  match a, b with
  | Small x, Small y => add_word x y
  | Small x, Large y => add_large_word y x
  | Large x, Small y => add_large_word x y
  | Large x, Large y =>
      if (length (words y) <=? length (words x))%nat then add_large x (words y)
      else add_large y (words x)
  end.

(** src/add_ops.rs:38-50 *)
Definition ubig_add_vr (a b : ubig) : res ubig :=
  match a, b with
  | Small x, Small y => add_word x y
  | Small x, Large y => y <- buffer_clone y ;; add_large_word y x
  | Large x, Small y => add_large_word x y
  | Large x, Large y => add_large x (words y)
  end.

(** src/add_ops.rs:52-59 *)
Definition ubig_add_rv (a b : ubig) : res ubig := ubig_add_vr b a.

(** src/add_ops.rs:61-79 *)
Definition ubig_add_rr (a b : ubig) : res ubig :=
  match a, b with
  | Small x, Small y => add_word x y
  | Small x, Large y => y <- buffer_clone y ;; add_large_word y x
  | Large x, Small y => x <- buffer_clone x ;; add_large_word x y
  | Large x, Large y =>
      if (length (words y) <=? length (words x))%nat
      then x <- buffer_clone x ;; add_large x (words y)
      else y <- buffer_clone y ;; add_large y (words x)
  end.

(** src/add_ops.rs:81-93: [add_assign]: the new value of [self]. *)
Definition ubig_add_assign_v (a b : ubig) : res ubig := ubig_add_vv a b.
Definition ubig_add_assign_r (a b : ubig) : res ubig := ubig_add_vr a b.

(** src/add_ops.rs:568-573 *)
Definition sub_word (a b : Z) : res ubig :=
  if b <=? a then Ok (from_word (a - b)) else Panic NegativeUBig.

(** src/add_ops.rs:575-579 *)
Definition sub_large_word (b : Buffer) (rhs : Z) : res ubig :=
  '(b, overflow) <- on_words b (fun w => sub_word_in_place w rhs) ;;
  check (negb overflow) ;;
  from_buffer b.

(** src/add_ops.rs:581-586 *)
Definition sub_large (lhs : Buffer) (rhs : list Z) : res ubig :=
  if (length (words lhs) <? length rhs)%nat then Panic NegativeUBig
  else
    '(lhs, overflow) <- on_words lhs (fun w => sub_in_place w rhs) ;;
    if (overflow : bool) then Panic NegativeUBig else from_buffer lhs.

(** src/add_ops.rs:588-600 *)
Definition sub_large_ref_val (lhs : list Z) (rhs : Buffer) : res ubig :=
  let n := length (words rhs) in
  if (length lhs <? n)%nat then Panic NegativeUBig
  else
    lhs_lo <- slice_to n lhs ;;
    '(rhs, borrow) <- on_words rhs (fun w => sub_same_len_in_place_swap lhs_lo w) ;;
    rhs <- ensure_capacity rhs (len lhs) ;;
    lhs_hi <- slice_from n lhs ;;
    rhs <- extend rhs lhs_hi ;;
    '(rhs, borrow) <-
       (if (borrow : bool)
        then on_buffer n (length (words rhs)) rhs (fun w => Ok (sub_one_in_place w))
        else Ok (rhs, false)) ;;
    if (borrow : bool) then Panic NegativeUBig else from_buffer rhs.

(** src/add_ops.rs:95-107 *)
Definition ubig_sub_vv (a b : ubig) : res ubig :=
  match a, b with
  | Small x, Small y => sub_word x y
  | Small _, Large _ => Panic NegativeUBig
  | Large x, Small y => sub_large_word x y
  | Large x, Large y => sub_large x (words y)
  end.

(** src/add_ops.rs:109-121: the same code. *)
Definition ubig_sub_vr (a b : ubig) : res ubig :=
  match a, b with
  | Small x, Small y => sub_word x y
  | Small _, Large _ => Panic NegativeUBig
  | Large x, Small y => sub_large_word x y
  | Large x, Large y => sub_large x (words y)
  end.

(** src/add_ops.rs:123-135 *)
Definition ubig_sub_rv (a b : ubig) : res ubig :=
  match a, b with
  | Small x, Small y => sub_word x y
  | Small _, Large _ => Panic NegativeUBig
  | Large x, Small y => x <- buffer_clone x ;; sub_large_word x y
  | Large x, Large y => sub_large_ref_val (words x) y
  end.

(** src/add_ops.rs:137-149 *)
Definition ubig_sub_rr (a b : ubig) : res ubig :=
  match a, b with
  | Small x, Small y => sub_word x y
  | Small _, Large _ => Panic NegativeUBig
  | Large x, Small y => x <- buffer_clone x ;; sub_large_word x y
  | Large x, Large y => x <- buffer_clone x ;; sub_large x (words y)
  end.

(** src/add_ops.rs:151-163 *)
Definition ubig_sub_assign_v (a b : ubig) : res ubig := ubig_sub_vv a b.
Definition ubig_sub_assign_r (a b : ubig) : res ubig := ubig_sub_vr a b.

(** src/add_ops.rs:707-714; [IBig::from(Word)] of a value that fits in a word. *)
Definition isub_word_word (lhs rhs : Z) : ibig :=
  let '(v, overflow) := overflowing_sub lhs rhs in
  if negb overflow then ibig_from_ubig (from_word v)
  else ibig_neg (ibig_from_ubig (from_word ((- v) mod B))).

(** src/add_ops.rs:716-718 *)
Definition isub_large_word (lhs : Buffer) (rhs : Z) : res ibig :=
  u <- sub_large_word lhs rhs ;; Ok (ibig_from_ubig u).

(** src/add_ops.rs:720-728 *)
Definition isub_large (lhs : Buffer) (rhs : list Z) : res ibig :=
  if (length rhs <=? length (words lhs))%nat then
    '(lhs, s) <- on_words lhs (fun w => sub_in_place_with_sign w rhs) ;;
    u <- from_buffer lhs ;; Ok (from_sign_magnitude s u)
  else
    u <- sub_large_ref_val rhs lhs ;; Ok (from_sign_magnitude Negative u).

Definition neg_res (r : res ibig) : res ibig := x <- r ;; Ok (ibig_neg x).

(** src/add_ops.rs:665-678 *)
Definition sub_ubig_val_val (lhs rhs : ubig) : res ibig :=
  match lhs, rhs with
  | Small x, Small y => Ok (isub_word_word x y)
  | Small x, Large y => neg_res (isub_large_word y x)
  | Large x, Small y => isub_large_word x y
  | Large x, Large y =>
      if (length (words y) <=? length (words x))%nat then isub_large x (words y)
      else neg_res (isub_large y (words x))
  end.

(** src/add_ops.rs:681-688 *)
Definition sub_ubig_val_ref (lhs rhs : ubig) : res ibig :=
  match lhs, rhs with
  | Small x, Small y => Ok (isub_word_word x y)
  | Small x, Large y => y <- buffer_clone y ;; neg_res (isub_large_word y x)
  | Large x, Small y => isub_large_word x y
  | Large x, Large y => isub_large x (words y)
  end.

(** src/add_ops.rs:691-704 *)
Definition sub_ubig_ref_ref (lhs rhs : ubig) : res ibig :=
  match lhs, rhs with
  | Small x, Small y => Ok (isub_word_word x y)
  | Small x, Large y => y <- buffer_clone y ;; neg_res (isub_large_word y x)
  | Large x, Small y => x <- buffer_clone x ;; isub_large_word x y
  | Large x, Large y =>
      if (length (words y) <=? length (words x))%nat
      then x <- buffer_clone x ;; isub_large x (words y)
      else y <- buffer_clone y ;; neg_res (isub_large y (words x))
  end.

Definition ibig_of (r : res ubig) : res ibig := u <- r ;; Ok (ibig_from_ubig u).

(** src/add_ops.rs:165-179 *)
Definition ibig_add_vv (x y : ibig) : res ibig :=
  match isign x, isign y with
  | Positive, Positive => ibig_of (ubig_add_vv (imag x) (imag y))
  | Positive, Negative => sub_ubig_val_val (imag x) (imag y)
  | Negative, Positive => sub_ubig_val_val (imag y) (imag x)
  | Negative, Negative => neg_res (ibig_of (ubig_add_vv (imag x) (imag y)))
  end.

(** src/add_ops.rs:181-195 *)
Definition ibig_add_vr (x y : ibig) : res ibig :=
  match isign x, isign y with
  | Positive, Positive => ibig_of (ubig_add_vr (imag x) (imag y))
  | Positive, Negative => sub_ubig_val_ref (imag x) (imag y)
  | Negative, Positive => neg_res (sub_ubig_val_ref (imag x) (imag y))
  | Negative, Negative => neg_res (ibig_of (ubig_add_vr (imag x) (imag y)))
  end.

(** src/add_ops.rs:197-204 *)
Definition ibig_add_rv (x y : ibig) : res ibig := ibig_add_vr y x.

(** src/add_ops.rs:206-220 *)
Definition ibig_add_rr (x y : ibig) : res ibig :=
  match isign x, isign y with
  | Positive, Positive => ibig_of (ubig_add_rr (imag x) (imag y))
  | Positive, Negative => sub_ubig_ref_ref (imag x) (imag y)
  | Negative, Positive => sub_ubig_ref_ref (imag y) (imag x)
  | Negative, Negative => neg_res (ibig_of (ubig_add_rr (imag x) (imag y)))
  end.

(** src/add_ops.rs:222-234 *)
Definition ibig_add_assign_v (x y : ibig) : res ibig := ibig_add_vv x y.
Definition ibig_add_assign_r (x y : ibig) : res ibig := ibig_add_vr x y.

(** src/add_ops.rs:236-243 *)
Definition ibig_sub_vv (x y : ibig) : res ibig := ibig_add_vv x (ibig_neg y).
(** src/add_ops.rs:245-252 *)
Definition ibig_sub_vr (x y : ibig) : res ibig := neg_res (ibig_add_vr (ibig_neg x) y).
(** src/add_ops.rs:254-261 *)
Definition ibig_sub_rv (x y : ibig) : res ibig := ibig_add_rv x (ibig_neg y).
(** src/add_ops.rs:263-277 *)
Definition ibig_sub_rr (x y : ibig) : res ibig :=
  match isign x, isign y with
  | Positive, Positive => sub_ubig_ref_ref (imag x) (imag y)
  | Positive, Negative => ibig_of (ubig_add_rr (imag x) (imag y))
  | Negative, Positive => neg_res (ibig_of (ubig_add_rr (imag x) (imag y)))
  | Negative, Negative => sub_ubig_ref_ref (imag y) (imag x)
  end.

(** src/add_ops.rs:279-291 *)
Definition ibig_sub_assign_v (x y : ibig) : res ibig := ibig_sub_vv x y.
Definition ibig_sub_assign_r (x y : ibig) : res ibig := ibig_sub_vr x y.

End AddOps.
