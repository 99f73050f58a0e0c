(** Greatest common divisor: src/gcd.rs.  Definitions only. *)
From Verif Require Import Model.Base Model.Words Model.Buffer Model.UBig Model.IBig Model.Convert Model.AddOps Model.MulOps
  Model.ShiftOps Model.Bits Model.DivOps Model.PrimOps.

Section Gcd.
Context {A : Arch}.

(** [a < b]: the default [lt] of src/cmp.rs:26-31. *)
Definition ubig_lt (a b : ubig) : res bool :=
  c <- ubig_cmp a b ;; Ok (match c with Lt => true | _ => false end).
(** [a <= b]. E.g. src/gcd.rs:105 *)
Definition ubig_le (a b : ubig) : res bool :=
  c <- ubig_cmp a b ;; Ok (match c with Gt => false | _ => true end).

(** Loops run on fuel: enough steps for numbers of this many words.  Running out
    of fuel is a panic, which the theorems exclude. E.g. src/gcd.rs:40 *)
Definition gcd_fuel (a b : ubig) : nat := (3 + Z.to_nat (wbits * (len (as_words a) + len (as_words b))))%nat.

(** src/gcd.rs:40-52 *)
Fixpoint gcd_loop (fuel : nat) (a b : ubig) : res ubig :=
  match fuel with
  | O => Panic Internal
  | S fuel =>
      tz <- ubig_trailing_zeros a ;;
      match tz with
      | None => Ok b
      | Some a_zeros =>
          a <- ubig_shr_assign a a_zeros ;;
          lt <- ubig_lt a b ;;
          let '(a, b) := if (lt : bool) then (b, a) else (a, b) in
          a <- ubig_sub_assign_r a b ;;
          gcd_loop fuel a b
      end
  end.

(** src/gcd.rs:19-55 *)
Definition ubig_gcd (self rhs : ubig) : res ubig :=
  a <- ubig_clone self ;;
  b <- ubig_clone rhs ;;
  az <- ubig_trailing_zeros a ;;
  bz <- ubig_trailing_zeros b ;;
  match az, bz with
  | None, None => Panic GcdOfZeros
  | None, Some _ => Ok b
  | Some _, None => Ok a
  | Some a_zeros, Some b_zeros =>
      a <- ubig_shr_assign a a_zeros ;;
      b <- ubig_shr_assign b b_zeros ;;
      let zeros := Z.min a_zeros b_zeros in
      lt <- ubig_lt a b ;;
      let '(a, b) := if (lt : bool) then (b, a) else (a, b) in
      a <- ubig_rem_assign_r a b ;;
      b <- gcd_loop (gcd_fuel a b) a b ;;
      ubig_shl_v b zeros
  end.

(** The variables [a], [ax], [ay] (or [b], [bx], [by]). E.g. src/gcd.rs:92 *)
Definition triple : Type := ubig * ubig * ubig.

(** [&x & 1u8 != 0u8]. E.g. src/gcd.rs:140 *)
Definition is_odd (x : ubig) : res bool :=
  w <- ubig_and_ref_unsigned 8 x 1 ;; Ok (negb (w =? 0)).

(** src/gcd.rs:138-149 *)
Fixpoint halve_loop (fuel : nat) (u v : ubig) (t : triple) : res triple :=
  match fuel with
  | O => Panic Internal
  | S fuel =>
      let '(a, ax, ay) := t in
      odd <- is_odd a ;;
      if (odd : bool) then Ok (a, ax, ay)
      else
        ox <- is_odd ax ;;
        oy <- (if (ox : bool) then Ok true else is_odd ay) ;;
        '(ax, ay) <-
          (if (oy : bool)
           then ax <- ubig_add_assign_r ax v ;; ay <- ubig_add_assign_r ay u ;; Ok (ax, ay)
           else Ok (ax, ay)) ;;
        a <- ubig_shr_assign a 1 ;;
        ax <- ubig_shr_assign ax 1 ;;
        ay <- ubig_shr_assign ay 1 ;;
        halve_loop fuel u v (a, ax, ay)
  end.

(** src/gcd.rs:136-171 *)
Fixpoint egcd_loop (fuel : nat) (u v : ubig) (s t : triple) : res triple :=
  match fuel with
  | O => Panic Internal
  | S fuel =>
      let '(a, _, _) := s in
      if ubig_eqb a (from_word 0) then Ok t
      else
        s <- halve_loop (gcd_fuel a a) u v s ;;
        let '(a, _, _) := s in
        let '(b, _, _) := t in
        lt <- ubig_lt a b ;;
        let '((a, ax, ay), (b, bx, by_)) := if (lt : bool) then (t, s) else (s, t) in
        a <- ubig_sub_assign_r a b ;;
        lt <- ubig_lt ax bx ;;
        '(ax, ay) <-
          (if (lt : bool)
           then ax <- ubig_add_assign_r ax v ;; ay <- ubig_add_assign_r ay u ;; Ok (ax, ay)
           else Ok (ax, ay)) ;;
        ax <- ubig_sub_assign_r ax bx ;;
        ay <- ubig_sub_assign_r ay by_ ;;
        egcd_loop fuel u v (a, ax, ay) (b, bx, by_)
  end.

(** src/gcd.rs:80-174 *)
Definition ubig_extended_gcd (self rhs : ubig) : res (ubig * ibig * ibig) :=
  az <- ubig_trailing_zeros self ;;
  bz <- ubig_trailing_zeros rhs ;;
  match az, bz with
  | None, None => Panic GcdOfZeros
  | None, Some _ =>
      g <- ubig_clone rhs ;; x <- ibig_from_unsigned 8 0 ;; y <- ibig_from_unsigned 8 1 ;; Ok (g, x, y)
  | Some _, None =>
      g <- ubig_clone self ;; x <- ibig_from_unsigned 8 1 ;; y <- ibig_from_unsigned 8 0 ;; Ok (g, x, y)
  | Some a_zeros, Some b_zeros =>
      let zeros := Z.min a_zeros b_zeros in
      u <- ubig_shr_r self zeros ;;
      v <- ubig_shr_r rhs zeros ;;
      le <- ubig_le u v ;;
      '(s, t) <-
        (if (le : bool) then
           '(q, r) <- ubig_div_rem_rr v u ;;
           a <- ubig_clone u ;;
           bx <- ubig_sub_rv v q ;;
           by_ <- ubig_sub_rv u (from_word 1) ;;
           Ok ((a, from_word 1, from_word 0), (r, bx, by_))
         else
           '(q, r) <- ubig_div_rem_rr u v ;;
           a <- ubig_clone v ;;
           ax <- ubig_clone v ;;
           ay <- ubig_sub_rv u (from_word 1) ;;
           Ok ((a, ax, ay), (r, from_word 1, q))) ;;
      let '(b, _, _) := t in
      odd <- is_odd b ;;
      let '(s, t) := if (odd : bool) then (s, t) else (t, s) in
      let '(a, _, _) := s in
      let '(b, _, _) := t in
      '(b, bx, by_) <- egcd_loop (gcd_fuel a b) u v s t ;;
      g <- ubig_shl_v b zeros ;;
      Ok (g, ibig_from_ubig bx, ibig_neg (ibig_from_ubig by_))
  end.

(** src/gcd.rs:190-192 *)
Definition ibig_gcd (self rhs : ibig) : res ibig :=
  g <- ubig_gcd (imag self) (imag rhs) ;; Ok (ibig_from_ubig g).

(** src/gcd.rs:217-220 *)
Definition ibig_extended_gcd (self rhs : ibig) : res (ibig * ibig * ibig) :=
  '(g, x, y) <- ubig_extended_gcd (imag self) (imag rhs) ;;
  Ok (ibig_from_ubig g, sign_mul_ibig (isign self) x, sign_mul_ibig (isign rhs) y).

End Gcd.
