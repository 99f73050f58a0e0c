(** Multiplication operators: src/mul_ops.rs.  Definitions only. *)
From Verif Require Import Model.Base Model.Words Model.Memory Model.Mul Model.RawMemory Model.Buffer Model.UBig
  Model.IBig Model.Convert.

Section MulOps.
Context {A : Arch}.

(** [UBig::from(DoubleWord)]. E.g. src/mul_ops.rs:305 *)
Definition ubig_from_dword (dw : Z) : res ubig := ubig_from_unsigned (2 * wbits) dw.

(** src/mul_ops.rs:304-306 *)
Definition mul_word (a b : Z) : res ubig :=
  dw <- dword_chk (extend_word a * extend_word b) ;; ubig_from_dword dw.

(** src/mul_ops.rs:309-321 *)
Definition mul_large_word (b : Buffer) (a : Z) : res ubig :=
  if a =? 0 then Ok (from_word 0)
  else if a =? 1 then from_buffer b
  else
    '(b, carry) <- on_words b (fun w => mul_word_in_place w a) ;;
    b <- (if carry =? 0 then Ok b else push_may_reallocate b carry) ;;
    from_buffer b.

(** src/mul_ops.rs:324-341 *)
Definition mul_large (lhs rhs : list Z) : res ubig :=
  check (2 <=? length lhs)%nat && (2 <=? length rhs)%nat ;;
  res_len <- usize_chk (len lhs + len rhs) ;;
  b <- allocate res_len ;;
  b <- push_zeros b (length lhs + length rhs) ;;
  l <- mul_layout word_ty (Nat.min (length lhs) (length rhs)) ;;
  mem <- new_memory l ;;
  '(b, overflow) <- on_words b (fun w => add_signed_mul w Positive lhs rhs mem) ;;
  check (overflow =? 0) ;;
  from_buffer b.

(** src/mul_ops.rs:20-32 *)
Definition ubig_mul_vv (a b : ubig) : res ubig :=
  match a, b with
  | Small x, Small y => mul_word x y
  | Small x, Large y => mul_large_word y x
  | Large x, Small y => mul_large_word x y
  | Large x, Large y => mul_large (words x) (words y)
  end.

(** src/mul_ops.rs:34-46 *)
Definition ubig_mul_vr (a b : ubig) : res ubig :=
  match a, b with
  | Small x, Small y => mul_word x y
  | Small x, Large y => y <- buffer_clone y ;; mul_large_word y x
  | Large x, Small y => mul_large_word x y
  | Large x, Large y => mul_large (words x) (words y)
  end.

(** src/mul_ops.rs:48-55 *)
Definition ubig_mul_rv (a b : ubig) : res ubig := ubig_mul_vr b a.

(** src/mul_ops.rs:57-69 *)
Definition ubig_mul_rr (a b : ubig) : res ubig :=
  match a, b with
  | Small x, Small y => mul_word x y
  | Small x, Large y => y <- buffer_clone y ;; mul_large_word y x
  | Large x, Small y => x <- buffer_clone x ;; mul_large_word x y
  | Large x, Large y => mul_large (words x) (words y)
  end.

(** src/mul_ops.rs:71-83 *)
Definition ubig_mul_assign_v (a b : ubig) : res ubig := ubig_mul_vv a b.
Definition ubig_mul_assign_r (a b : ubig) : res ubig := ubig_mul_vr a b.

(** src/mul_ops.rs:85-94 *)
Definition ibig_mul_vv (x y : ibig) : res ibig :=
  m <- ubig_mul_vv (imag x) (imag y) ;; Ok (from_sign_magnitude (sign_mul (isign x) (isign y)) m).
(** src/mul_ops.rs:96-105 *)
Definition ibig_mul_vr (x y : ibig) : res ibig :=
  m <- ubig_mul_vr (imag x) (imag y) ;; Ok (from_sign_magnitude (sign_mul (isign x) (isign y)) m).
(** src/mul_ops.rs:107-114 *)
Definition ibig_mul_rv (x y : ibig) : res ibig := ibig_mul_vr y x.
(** src/mul_ops.rs:116-125 *)
Definition ibig_mul_rr (x y : ibig) : res ibig :=
  m <- ubig_mul_rr (imag x) (imag y) ;; Ok (from_sign_magnitude (sign_mul (isign x) (isign y)) m).
(** src/mul_ops.rs:127-139 *)
Definition ibig_mul_assign_v (x y : ibig) : res ibig := ibig_mul_vv x y.
Definition ibig_mul_assign_r (x y : ibig) : res ibig := ibig_mul_vr x y.

End MulOps.
