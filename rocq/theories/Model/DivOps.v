(** Division operators: src/div_ops.rs.  Definitions only. *)
From Verif Require Import Model.Base Model.Words Model.Shift Model.Memory Model.FastDivide Model.DivWord
  Model.Div Model.RawMemory Model.Buffer Model.UBig Model.IBig Model.Convert Model.AddOps.

Section DivOps.
Context {A : Arch}.

(** src/div_ops.rs:1282-1287; [checked_div] is [None] only for a zero divisor. *)
Definition div_word (lhs rhs : Z) : res ubig :=
  if rhs =? 0 then Panic DivideByZero else Ok (from_word (lhs / rhs)).

(** src/div_ops.rs:1291-1296 *)
Definition rem_word (lhs rhs : Z) : res ubig :=
  if rhs =? 0 then Panic DivideByZero else Ok (from_word (lhs mod rhs)).

(** src/div_ops.rs:1300-1306 *)
Definition div_rem_word (lhs rhs : Z) : res (ubig * ubig) :=
  if rhs =? 0 then Panic DivideByZero else Ok (from_word (lhs / rhs), from_word (lhs mod rhs)).

(** src/div_ops.rs:1323-1329 *)
Definition div_rem_large_word (b : Buffer) (rhs : Z) : res (ubig * ubig) :=
  if rhs =? 0 then Panic DivideByZero
  else
    '(b, rem) <- on_words b (fun w => div_by_word_in_place w rhs) ;;
    q <- from_buffer b ;; Ok (q, from_word rem).

(** src/div_ops.rs:1309-1312 *)
Definition div_large_word (lhs : Buffer) (rhs : Z) : res ubig :=
  '(q, _) <- div_rem_large_word lhs rhs ;; Ok q.

(** src/div_ops.rs:1315-1320 *)
Definition rem_large_word (lhs : list Z) (rhs : Z) : res ubig :=
  if rhs =? 0 then Panic DivideByZero
  else r <- rem_by_word lhs rhs ;; Ok (from_word r).

(** src/div_ops.rs:1362-1376: the new [lhs] and [rhs], and the shift. *)
Definition div_rem_in_lhs (lhs rhs : Buffer) : res (Buffer * Buffer * Z) :=
  '(rw, shift, f) <- normalize_large (words rhs) ;;
  let rhs := mkBuffer rw (cap rhs) in
  '(lhs, lhs_carry) <- on_words lhs (fun w => shl_in_place w shift) ;;
  lhs <- (if lhs_carry =? 0 then Ok lhs else push_may_reallocate lhs lhs_carry) ;;
  l <- div_layout word_ty (length (words lhs)) (length (words rhs)) ;;
  mem <- new_memory l ;;
  '(lhs, overflow) <- on_words lhs (fun w => div_rem_in_place w (words rhs) f mem) ;;
  lhs <- (if overflow : bool then push_may_reallocate lhs 1 else Ok lhs) ;;
  Ok (lhs, rhs, shift).

(** src/div_ops.rs:1332-1336 *)
Definition div_large (lhs rhs : Buffer) : res ubig :=
  '(lhs, rhs, _) <- div_rem_in_lhs lhs rhs ;;
  lhs <- erase_front lhs (length (words rhs)) ;;
  from_buffer lhs.

(** The end of src/div_ops.rs:1339-1346 and 1349-1357: copy the remainder from
    [lhs] to [rhs] and shift it back. *)
Definition take_rem (lhs rhs : Buffer) (shift : Z) : res Buffer :=
  lo <- slice_to (length (words rhs)) (words lhs) ;;
  '(rhs, low_bits) <- on_words (mkBuffer lo (cap rhs)) (fun w => shr_in_place w shift) ;;
  check (low_bits =? 0) ;;
  Ok rhs.

(** src/div_ops.rs:1339-1346 *)
Definition rem_large (lhs rhs : Buffer) : res ubig :=
  '(lhs, rhs, shift) <- div_rem_in_lhs lhs rhs ;;
  rhs <- take_rem lhs rhs shift ;;
  from_buffer rhs.

(** src/div_ops.rs:1349-1357 *)
Definition div_rem_large (lhs rhs : Buffer) : res (ubig * ubig) :=
  '(lhs, rhs, shift) <- div_rem_in_lhs lhs rhs ;;
  let n := length (words rhs) in
  rhs <- take_rem lhs rhs shift ;;
  lhs <- erase_front lhs n ;;
  q <- from_buffer lhs ;;
  r <- from_buffer rhs ;;
  Ok (q, r).

(** src/div_ops.rs:21-39 *)
Definition ubig_div_vv (a b : ubig) : res ubig :=
  match a, b with
  | Small x, Small y => div_word x y
  | Small _, Large _ => Ok (from_word 0)
  | Large x, Small y => div_large_word x y
  | Large x, Large y =>
      if blen y <=? blen x then div_large x y
      else Ok (from_word 0)
  end.

(** src/div_ops.rs:41-59 *)
Definition ubig_div_vr (a b : ubig) : res ubig :=
  match a, b with
  | Small x, Small y => div_word x y
  | Small _, Large _ => Ok (from_word 0)
  | Large x, Small y => div_large_word x y
  | Large x, Large y =>
      if blen y <=? blen x then y <- buffer_clone y ;; div_large x y
      else Ok (from_word 0)
  end.

(** src/div_ops.rs:61-79 *)
Definition ubig_div_rv (a b : ubig) : res ubig :=
  match a, b with
  | Small x, Small y => div_word x y
  | Small _, Large _ => Ok (from_word 0)
  | Large x, Small y => x <- buffer_clone x ;; div_large_word x y
  | Large x, Large y =>
      if blen y <=? blen x then x <- buffer_clone x ;; div_large x y
      else Ok (from_word 0)
  end.

(** src/div_ops.rs:81-99 *)
Definition ubig_div_rr (a b : ubig) : res ubig :=
  match a, b with
  | Small x, Small y => div_word x y
  | Small _, Large _ => Ok (from_word 0)
  | Large x, Small y => x <- buffer_clone x ;; div_large_word x y
  | Large x, Large y =>
      if blen y <=? blen x then x <- buffer_clone x ;; y <- buffer_clone y ;; div_large x y
      else Ok (from_word 0)
  end.

(** src/div_ops.rs:101-106 *)
Definition ubig_div_assign_v (a b : ubig) : res ubig := ubig_div_vv a b.
(** src/div_ops.rs:108-113 *)
Definition ubig_div_assign_r (a b : ubig) : res ubig := ubig_div_vr a b.

(** src/div_ops.rs:115-133 *)
Definition ubig_rem_vv (a b : ubig) : res ubig :=
  match a, b with
  | Small x, Small y => rem_word x y
  | Small x, Large _ => Ok (from_word x)
  | Large x, Small y => rem_large_word (words x) y
  | Large x, Large y =>
      if blen y <=? blen x then rem_large x y
      else from_buffer x
  end.

(** src/div_ops.rs:135-153 *)
Definition ubig_rem_vr (a b : ubig) : res ubig :=
  match a, b with
  | Small x, Small y => rem_word x y
  | Small x, Large _ => Ok (from_word x)
  | Large x, Small y => rem_large_word (words x) y
  | Large x, Large y =>
      if blen y <=? blen x then y <- buffer_clone y ;; rem_large x y
      else from_buffer x
  end.

(** src/div_ops.rs:155-175 *)
Definition ubig_rem_rv (a b : ubig) : res ubig :=
  match a, b with
  | Small x, Small y => rem_word x y
  | Small x, Large _ => Ok (from_word x)
  | Large x, Small y => rem_large_word (words x) y
  | Large x, Large y =>
      if blen y <=? blen x then x <- buffer_clone x ;; rem_large x y
      else y <- resizing_clone_from y x ;; from_buffer y
  end.

(** src/div_ops.rs:177-195 *)
Definition ubig_rem_rr (a b : ubig) : res ubig :=
  match a, b with
  | Small x, Small y => rem_word x y
  | Small x, Large _ => Ok (from_word x)
  | Large x, Small y => rem_large_word (words x) y
  | Large x, Large y =>
      if blen y <=? blen x then x <- buffer_clone x ;; y <- buffer_clone y ;; rem_large x y
      else ubig_clone a
  end.

(** src/div_ops.rs:197-202 *)
Definition ubig_rem_assign_v (a b : ubig) : res ubig := ubig_rem_vv a b.
(** src/div_ops.rs:204-209 *)
Definition ubig_rem_assign_r (a b : ubig) : res ubig := ubig_rem_vr a b.

(** src/div_ops.rs:211-230 *)
Definition ubig_div_rem_vv (a b : ubig) : res (ubig * ubig) :=
  match a, b with
  | Small x, Small y => div_rem_word x y
  | Small x, Large _ => Ok (from_word 0, from_word x)
  | Large x, Small y => div_rem_large_word x y
  | Large x, Large y =>
      if blen y <=? blen x then div_rem_large x y
      else r <- from_buffer x ;; Ok (from_word 0, r)
  end.

(** src/div_ops.rs:232-251 *)
Definition ubig_div_rem_vr (a b : ubig) : res (ubig * ubig) :=
  match a, b with
  | Small x, Small y => div_rem_word x y
  | Small x, Large _ => Ok (from_word 0, from_word x)
  | Large x, Small y => div_rem_large_word x y
  | Large x, Large y =>
      if blen y <=? blen x then y <- buffer_clone y ;; div_rem_large x y
      else r <- from_buffer x ;; Ok (from_word 0, r)
  end.

(** src/div_ops.rs:253-274 *)
Definition ubig_div_rem_rv (a b : ubig) : res (ubig * ubig) :=
  match a, b with
  | Small x, Small y => div_rem_word x y
  | Small x, Large _ => Ok (from_word 0, from_word x)
  | Large x, Small y => x <- buffer_clone x ;; div_rem_large_word x y
  | Large x, Large y =>
      if blen y <=? blen x then x <- buffer_clone x ;; div_rem_large x y
      else y <- resizing_clone_from y x ;; r <- from_buffer y ;; Ok (from_word 0, r)
  end.

(** src/div_ops.rs:276-295 *)
Definition ubig_div_rem_rr (a b : ubig) : res (ubig * ubig) :=
  match a, b with
  | Small x, Small y => div_rem_word x y
  | Small x, Large _ => Ok (from_word 0, from_word x)
  | Large x, Small y => x <- buffer_clone x ;; div_rem_large_word x y
  | Large x, Large y =>
      if blen y <=? blen x then x <- buffer_clone x ;; y <- buffer_clone y ;; div_rem_large x y
      else r <- ubig_clone a ;; Ok (from_word 0, r)
  end.

(** src/div_ops.rs:297-304 *)
Definition ubig_div_euclid_vv (a b : ubig) : res ubig := ubig_div_vv a b.
(** src/div_ops.rs:333-340 *)
Definition ubig_rem_euclid_vv (a b : ubig) : res ubig := ubig_rem_vv a b.
(** src/div_ops.rs:369-377 *)
Definition ubig_div_rem_euclid_vv (a b : ubig) : res (ubig * ubig) := ubig_div_rem_vv a b.

(** src/div_ops.rs:306-313 *)
Definition ubig_div_euclid_vr (a b : ubig) : res ubig := ubig_div_vr a b.
(** src/div_ops.rs:342-349 *)
Definition ubig_rem_euclid_vr (a b : ubig) : res ubig := ubig_rem_vr a b.
(** src/div_ops.rs:379-387 *)
Definition ubig_div_rem_euclid_vr (a b : ubig) : res (ubig * ubig) := ubig_div_rem_vr a b.

(** src/div_ops.rs:315-322 *)
Definition ubig_div_euclid_rv (a b : ubig) : res ubig := ubig_div_rv a b.
(** src/div_ops.rs:351-358 *)
Definition ubig_rem_euclid_rv (a b : ubig) : res ubig := ubig_rem_rv a b.
(** src/div_ops.rs:389-397 *)
Definition ubig_div_rem_euclid_rv (a b : ubig) : res (ubig * ubig) := ubig_div_rem_rv a b.

(** src/div_ops.rs:324-331 *)
Definition ubig_div_euclid_rr (a b : ubig) : res ubig := ubig_div_rr a b.
(** src/div_ops.rs:360-367 *)
Definition ubig_rem_euclid_rr (a b : ubig) : res ubig := ubig_rem_rr a b.
(** src/div_ops.rs:399-407 *)
Definition ubig_div_rem_euclid_rr (a b : ubig) : res (ubig * ubig) := ubig_div_rem_rr a b.

(** src/div_ops.rs:409-419 *)
Definition ibig_div_vv (x y : ibig) : res ibig :=
  q <- ubig_div_vv (imag x) (imag y) ;;
  Ok (from_sign_magnitude (sign_mul (isign x) (isign y)) q).
(** src/div_ops.rs:471-481 *)
Definition ibig_rem_vv (x y : ibig) : res ibig :=
  r <- ubig_rem_vv (imag x) (imag y) ;; Ok (from_sign_magnitude (isign x) r).
(** src/div_ops.rs:533-548 *)
Definition ibig_div_rem_vv (x y : ibig) : res (ibig * ibig) :=
  '(q, r) <- ubig_div_rem_vv (imag x) (imag y) ;;
  Ok (from_sign_magnitude (sign_mul (isign x) (isign y)) q, from_sign_magnitude (isign x) r).

(** src/div_ops.rs:421-431 *)
Definition ibig_div_vr (x y : ibig) : res ibig :=
  q <- ubig_div_vr (imag x) (imag y) ;;
  Ok (from_sign_magnitude (sign_mul (isign x) (isign y)) q).
(** src/div_ops.rs:483-493 *)
Definition ibig_rem_vr (x y : ibig) : res ibig :=
  r <- ubig_rem_vr (imag x) (imag y) ;; Ok (from_sign_magnitude (isign x) r).
(** src/div_ops.rs:550-565 *)
Definition ibig_div_rem_vr (x y : ibig) : res (ibig * ibig) :=
  '(q, r) <- ubig_div_rem_vr (imag x) (imag y) ;;
  Ok (from_sign_magnitude (sign_mul (isign x) (isign y)) q, from_sign_magnitude (isign x) r).

(** src/div_ops.rs:433-443 *)
Definition ibig_div_rv (x y : ibig) : res ibig :=
  q <- ubig_div_rv (imag x) (imag y) ;;
  Ok (from_sign_magnitude (sign_mul (isign x) (isign y)) q).
(** src/div_ops.rs:495-505 *)
Definition ibig_rem_rv (x y : ibig) : res ibig :=
  r <- ubig_rem_rv (imag x) (imag y) ;; Ok (from_sign_magnitude (isign x) r).
(** src/div_ops.rs:567-582 *)
Definition ibig_div_rem_rv (x y : ibig) : res (ibig * ibig) :=
  '(q, r) <- ubig_div_rem_rv (imag x) (imag y) ;;
  Ok (from_sign_magnitude (sign_mul (isign x) (isign y)) q, from_sign_magnitude (isign x) r).

(** src/div_ops.rs:445-455 *)
Definition ibig_div_rr (x y : ibig) : res ibig :=
  q <- ubig_div_rr (imag x) (imag y) ;;
  Ok (from_sign_magnitude (sign_mul (isign x) (isign y)) q).
(** src/div_ops.rs:507-517 *)
Definition ibig_rem_rr (x y : ibig) : res ibig :=
  r <- ubig_rem_rr (imag x) (imag y) ;; Ok (from_sign_magnitude (isign x) r).
(** src/div_ops.rs:584-599 *)
Definition ibig_div_rem_rr (x y : ibig) : res (ibig * ibig) :=
  '(q, r) <- ubig_div_rem_rr (imag x) (imag y) ;;
  Ok (from_sign_magnitude (sign_mul (isign x) (isign y)) q, from_sign_magnitude (isign x) r).

(** src/div_ops.rs:457-462 *)
Definition ibig_div_assign_v (x y : ibig) : res ibig := ibig_div_vv x y.
(** src/div_ops.rs:464-469 *)
Definition ibig_div_assign_r (x y : ibig) : res ibig := ibig_div_vr x y.
(** src/div_ops.rs:519-524 *)
Definition ibig_rem_assign_v (x y : ibig) : res ibig := ibig_rem_vv x y.
(** src/div_ops.rs:526-531 *)
Definition ibig_rem_assign_r (x y : ibig) : res ibig := ibig_rem_vr x y.

(** src/div_ops.rs:601-613 *)
Definition ibig_div_euclid_vv (x y : ibig) : res ibig :=
  s <- signum y ;;
  '(q, r) <- ibig_div_rem_vv x y ;;
  match isign r with
  | Positive => Ok q
  | Negative => ibig_sub_vv q s
  end.
(** src/div_ops.rs:655-666 *)
Definition ibig_rem_euclid_vv (x y : ibig) : res ibig :=
  r <- ibig_rem_vr x y ;;
  match isign r with
  | Positive => Ok r
  | Negative => let m := ibig_abs y in ibig_add_vv r m
  end.
(** src/div_ops.rs:707-719 *)
Definition ibig_div_rem_euclid_vv (x y : ibig) : res (ibig * ibig) :=
  '(q, r) <- ibig_div_rem_vr x y ;;
  match isign r with
  | Positive => Ok (q, r)
  | Negative =>
      s <- signum y ;; q <- ibig_sub_vv q s ;;
      let m := ibig_abs y in r <- ibig_add_vv r m ;;
      Ok (q, r)
  end.

(** src/div_ops.rs:615-626 *)
Definition ibig_div_euclid_vr (x y : ibig) : res ibig :=
  '(q, r) <- ibig_div_rem_vr x y ;;
  match isign r with
  | Positive => Ok q
  | Negative => s <- signum y ;; ibig_sub_vv q s
  end.
(** src/div_ops.rs:668-679 *)
Definition ibig_rem_euclid_vr (x y : ibig) : res ibig :=
  r <- ibig_rem_vr x y ;;
  match isign r with
  | Positive => Ok r
  | Negative => m <- ibig_abs_ref y ;; ibig_add_vv r m
  end.
(** src/div_ops.rs:721-733 *)
Definition ibig_div_rem_euclid_vr (x y : ibig) : res (ibig * ibig) :=
  '(q, r) <- ibig_div_rem_vr x y ;;
  match isign r with
  | Positive => Ok (q, r)
  | Negative =>
      s <- signum y ;; q <- ibig_sub_vv q s ;;
      m <- ibig_abs_ref y ;; r <- ibig_add_vv r m ;;
      Ok (q, r)
  end.

(** src/div_ops.rs:628-640 *)
Definition ibig_div_euclid_rv (x y : ibig) : res ibig :=
  s <- signum y ;;
  '(q, r) <- ibig_div_rem_rv x y ;;
  match isign r with
  | Positive => Ok q
  | Negative => ibig_sub_vv q s
  end.
(** src/div_ops.rs:681-692 *)
Definition ibig_rem_euclid_rv (x y : ibig) : res ibig :=
  r <- ibig_rem_rr x y ;;
  match isign r with
  | Positive => Ok r
  | Negative => let m := ibig_abs y in ibig_add_vv r m
  end.
(** src/div_ops.rs:735-747 *)
Definition ibig_div_rem_euclid_rv (x y : ibig) : res (ibig * ibig) :=
  '(q, r) <- ibig_div_rem_rr x y ;;
  match isign r with
  | Positive => Ok (q, r)
  | Negative =>
      s <- signum y ;; q <- ibig_sub_vv q s ;;
      let m := ibig_abs y in r <- ibig_add_vv r m ;;
      Ok (q, r)
  end.

(** src/div_ops.rs:642-653 *)
Definition ibig_div_euclid_rr (x y : ibig) : res ibig :=
  '(q, r) <- ibig_div_rem_rr x y ;;
  match isign r with
  | Positive => Ok q
  | Negative => s <- signum y ;; ibig_sub_vv q s
  end.
(** src/div_ops.rs:694-705 *)
Definition ibig_rem_euclid_rr (x y : ibig) : res ibig :=
  r <- ibig_rem_rr x y ;;
  match isign r with
  | Positive => Ok r
  | Negative => m <- ibig_abs_ref y ;; ibig_add_vv r m
  end.
(** src/div_ops.rs:749-761 *)
Definition ibig_div_rem_euclid_rr (x y : ibig) : res (ibig * ibig) :=
  '(q, r) <- ibig_div_rem_rr x y ;;
  match isign r with
  | Positive => Ok (q, r)
  | Negative =>
      s <- signum y ;; q <- ibig_sub_vv q s ;;
      m <- ibig_abs_ref y ;; r <- ibig_add_vv r m ;;
      Ok (q, r)
  end.

End DivOps.
