(** Division by a single word: src/div/mod.rs:29-109.  Definitions only. *)
From Verif Require Import Model.Base Model.Words Model.Shift Model.FastDivide.

Section DivWord.
Context {A : Arch}.

(** [Word::is_power_of_two]. E.g. src/div/mod.rs:40 *)
Definition is_power_of_two (w : Z) : bool :=
  negb (w =? 0) && (Z.land w (w - 1) =? 0).

(** The loop of src/div/mod.rs:62-67, from the most significant word down. *)
Fixpoint fast_div_loop (words : list Z) (f : FastDivideNormalized) (rem0 : Z)
  : res (list Z * Z) :=
  match words with
  | [] => Ok ([], rem0)
  | word :: rest =>
      '(rest', rem) <- fast_div_loop rest f rem0 ;;
      '(q, r) <- fdn_div_rem f (double_word word rem) ;;
      Ok (q :: rest', r)
  end.

(** src/div/mod.rs:54-69 *)
Definition fast_div_by_word_in_place (words : list Z) (rhs : Z) (f : FastDivideNormalized)
  : res (list Z * Z) :=
  let shift := leading_zeros_w rhs in
  '(words, rem) <- shl_in_place words shift ;;
  '(words, rem) <- fast_div_loop words f rem ;;
  Ok (words, shr_w rem shift).

(** src/div/mod.rs:35-48 *)
Definition div_by_word_in_place (words : list Z) (rhs : Z) : res (list Z * Z) :=
  check negb (rhs =? 0) ;;
  match words with
  | [] => Ok (words, 0)
  | _ =>
      if is_power_of_two rhs then shr_in_place words (trailing_zeros_w rhs)
      else
        f <- fdn_new (shl_w rhs (leading_zeros_w rhs)) ;;
        fast_div_by_word_in_place words rhs f
  end.

(** The loop of src/div/mod.rs:102-106 over the reversed words. *)
Fixpoint fast_rem_loop (rev_words : list Z) (f : FastDivideNormalized) (rem : Z) : res Z :=
  match rev_words with
  | [] => Ok rem
  | word :: rest =>
      '(_, r) <- fdn_div_rem f (double_word word rem) ;;
      fast_rem_loop rest f r
  end.

(** src/div/mod.rs:90-109 *)
Definition fast_rem_by_normalized_word (words : list Z) (f : FastDivideNormalized) : res Z :=
  match rev words with
  | [] => Ok 0
  | word :: rest =>
      '(_, rem) <- fdn_div_rem_word f word ;;
      fast_rem_loop rest f rem
  end.

(** src/div/mod.rs:72-87 *)
Definition rem_by_word (words : list Z) (rhs : Z) : res Z :=
  check negb (rhs =? 0) ;;
  match words with
  | [] => Ok 0
  | w0 :: _ =>
      if is_power_of_two rhs then
        m <- word_chk (rhs - 1) ;; Ok (Z.land w0 m)
      else
        let shift := leading_zeros_w rhs in
        f <- fdn_new (shl_w rhs shift) ;;
        rem <- fast_rem_by_normalized_word words f ;;
        let a := shl_dw (extend_word rem) shift in
        '(_, rem) <- fdn_div_rem f a ;;
        Ok (shr_w rem shift)
  end.

End DivWord.
