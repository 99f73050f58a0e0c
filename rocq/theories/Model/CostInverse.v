(** Counting what modular inverses and quotients do: src/modular/div.rs again, with the
    counter of Model/Cost.v.  Definitions only. *)
From Verif Require Import Model.Base Model.Words Model.Add Model.Shift Model.Buffer Model.UBig Model.IBig Model.Convert
  Model.AddOps Model.DivOps Model.PrimOps Model.Gcd Model.Modular Model.Cost Model.CostOps Model.CostGcd Model.CostModular.

Section CostInverse.
Context {A : Arch}.

(** ** src/add_ops.rs, src/div_ops.rs *)

(** src/add_ops.rs:716-718 *)
Definition c_isub_large_word (lhs : Buffer) (rhs : Z) : counted ibig :=
  u <+ c_sub_large_word lhs rhs ;; free (Ok (ibig_from_ubig u)).

(** src/add_ops.rs:720-728; subtracting with a sign (src/add.rs:133-182) looks for the top
    words that are not zero, compares and subtracts. *)
Definition c_isub_large (lhs : Buffer) (rhs : list Z) : counted ibig :=
  if (length rhs <=? length (words lhs))%nat then
    '(lhs, s) <+ c_on_words lhs (fun w => call (3 * length w) (sub_in_place_with_sign w rhs)) ;;
    u <+ c_from_buffer lhs ;; free (Ok (from_sign_magnitude s u))
  else
    u <+ c_sub_large_ref_val rhs lhs ;; free (Ok (from_sign_magnitude Negative u)).

(** src/add_ops.rs:665-678 *)
Definition c_sub_ubig_val_val (lhs rhs : ubig) : counted ibig :=
  match lhs, rhs with
  | Small x, Small y => call 0 (Ok (isub_word_word x y))
  | Small x, Large y => r <+ c_isub_large_word y x ;; free (Ok (ibig_neg r))
  | Large x, Small y => c_isub_large_word x y
  | Large x, Large y =>
      if (length (words y) <=? length (words x))%nat then c_isub_large x (words y)
      else r <+ c_isub_large y (words x) ;; free (Ok (ibig_neg r))
  end.

(** src/add_ops.rs:165-179 *)
Definition c_ibig_add_vv (x y : ibig) : counted ibig :=
  match isign x, isign y with
  | Positive, Positive => u <+ c_ubig_add_vv (imag x) (imag y) ;; free (Ok (ibig_from_ubig u))
  | Positive, Negative => c_sub_ubig_val_val (imag x) (imag y)
  | Negative, Positive => c_sub_ubig_val_val (imag y) (imag x)
  | Negative, Negative => u <+ c_ubig_add_vv (imag x) (imag y) ;; free (Ok (ibig_neg (ibig_from_ubig u)))
  end.

(** src/div_ops.rs:483-493 *)
Definition c_ibig_rem_vr (x y : ibig) : counted ibig :=
  r <+ c_ubig_rem_vr (imag x) (imag y) ;; free (Ok (from_sign_magnitude (isign x) r)).

(** src/div_ops.rs:655-666 *)
Definition c_ibig_rem_euclid_vv (x y : ibig) : counted ibig :=
  r <+ c_ibig_rem_vr x y ;;
  match isign r with
  | Positive => free (Ok r)
  | Negative => let m := ibig_abs y in c_ibig_add_vv r m
  end.

(** ** src/modular/convert.rs *)

(** src/modular/convert.rs:64-71 and 128-135 *)
Definition c_denormalize (v : list Z) (shift : Z) : counted ubig :=
  b <+ call 0 (allocate (len v)) ;;
  b <+ call (length v) (extend b v) ;;
  '(b, low_bits) <+ c_on_words b (fun ws => call (length ws) (shr_in_place ws shift)) ;;
  ensure (low_bits =? 0) ;;
  c_from_buffer b.

(** src/modular/convert.rs:86-91 *)
Definition c_residue (m : modulo) : counted ubig :=
  match m with
  | MSmall a => w <+ call 0 (small_residue a) ;; free (Ok (from_word w))
  | MLarge a => c_denormalize (ml_value a) (rl_shift (ml_ring a))
  end.

(** ** src/modular/div.rs *)

(** The derived equality of [UBig]: src/ubig.rs:13 *)
Definition c_ubig_eqb (a b : ubig) : counted bool := call (length (as_words a)) (Ok (ubig_eqb a b)).

(** src/modular/div.rs:88-103 *)
Definition c_small_inverse (m : modulo_small) : counted (option modulo_small) :=
  a <+ call 0 (small_residue m) ;;
  let b := ring_small_modulus (ms_ring m) in
  ua <+ call 0 (ubig_from_unsigned wbits a) ;;
  ub <+ call 0 (ubig_from_unsigned wbits b) ;;
  '(gcd, x, _) <+ c_ubig_extended_gcd ua ub ;;
  eq <+ c_ubig_eqb gcd (from_word 1) ;;
  if eq : bool then
    ib <+ call 0 (ibig_from_unsigned wbits b) ;;
    rem <+ c_ibig_rem_euclid_vv x ib ;;
    o <+ call 0 (ibig_try_to_unsigned wbits rem) ;;
    w <+ free (unwrap o) ;;
    raw <+ call 0 (raw_from_word w (ms_ring m)) ;;
    m <+ call 0 (small_new raw (ms_ring m)) ;;
    free (Ok (Some m))
  else free (Ok None).

(** src/modular/div.rs:108-119 *)
Definition c_large_inverse (m : modulo_large) : counted (option modulo_large) :=
  a <+ c_denormalize (ml_value m) (rl_shift (ml_ring m)) ;;
  b <+ c_denormalize (rl_modulus (ml_ring m)) (rl_shift (ml_ring m)) ;;
  '(gcd, x, _) <+ c_ubig_extended_gcd a b ;;
  eq <+ c_ubig_eqb gcd (from_word 1) ;;
  if eq : bool then
    rem <+ c_ibig_rem_euclid_vv x (ibig_from_ubig b) ;;
    u <+ free (unwrap (ubig_try_from_ibig rem)) ;;
    m <+ c_large_from_ubig u (ml_ring m) ;;
    free (Ok (Some m))
  else free (Ok None).

(** src/modular/div.rs:23-28 *)
Definition c_inverse (m : modulo) : counted (option modulo) :=
  match m with
  | MSmall a => o <+ c_small_inverse a ;; free (Ok (option_map MSmall o))
  | MLarge a => o <+ c_large_inverse a ;; free (Ok (option_map MLarge o))
  end.

(** src/modular/div.rs:58-70 *)
Definition c_mod_div_rr (a b : modulo) : counted modulo :=
  o <+ c_inverse b ;;
  match o with
  | None => free (Panic NonInvertible)
  | Some inv => c_mod_mul_assign_r inv a
  end.

(** src/modular/pow.rs:52-60 *)
Definition c_mod_pow_signed (m : modulo) (exp : ibig) : counted modulo :=
  match isign exp with
  | Positive => c_mod_pow m (imag exp)
  | Negative =>
      o <+ c_inverse m ;;
      match o with
      | None => free (Panic NonInvertible)
      | Some inv => c_mod_pow inv (imag exp)
      end
  end.

End CostInverse.
