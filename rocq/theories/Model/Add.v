(** Addition and subtraction on word slices: src/add.rs and
    src/arch/generic/add.rs.  Definitions only. *)
From Verif Require Import Model.Base Model.Words.

Section Add.
Context {A : Arch}.

(** src/arch/generic/add.rs:6-11.  [core::arch::x86{,_64}::_addcarry] is modelled
    by [x86_add_with_carry] below. *)
Definition add_with_carry (a b : Z) (carry : bool) : Z * bool :=
  let '(sum, c0) := overflowing_add a b in
  let '(sum, c1) := overflowing_add sum (Z.b2z carry) in
  (sum, c0 || c1).

(** src/arch/generic/add.rs:16-21 *)
Definition sub_with_borrow (a b : Z) (borrow : bool) : Z * bool :=
  let '(diff, b0) := overflowing_sub a b in
  let '(diff, b1) := overflowing_sub diff (Z.b2z borrow) in
  (diff, b0 || b1).

(** src/arch/x86_64/add.rs:6-11 and src/arch/x86/add.rs:6-11, with the
    documented meaning of the intrinsics. *)
Definition x86_add_with_carry (a b : Z) (carry : bool) : Z * bool :=
  let s := a + b + Z.b2z carry in (s mod B, B <=? s).
Definition x86_sub_with_borrow (a b : Z) (borrow : bool) : Z * bool :=
  let d := a - b - Z.b2z borrow in (d mod B, d <? 0).

(** src/add.rs:17-26 *)
Fixpoint add_one_in_place (words : list Z) : list Z * bool :=
  match words with
  | [] => ([], true)
  | word :: rest =>
      let '(a, overflow) := overflowing_add word 1 in
      if negb overflow then (a :: rest, false)
      else let '(rest', o) := add_one_in_place rest in (a :: rest', o)
  end.

(** src/add.rs:32-41 *)
Fixpoint sub_one_in_place (words : list Z) : list Z * bool :=
  match words with
  | [] => ([], true)
  | word :: rest =>
      let '(a, borrow) := overflowing_sub word 1 in
      if negb borrow then (a :: rest, false)
      else let '(rest', o) := sub_one_in_place rest in (a :: rest', o)
  end.

(** src/add.rs:47-52 *)
Definition add_word_in_place (words : list Z) (rhs : Z) : res (list Z * bool) :=
  match words with
  | [] => Panic Internal
  | word_0 :: words_hi =>
      let '(a, overflow) := overflowing_add word_0 rhs in
      if overflow then
        let '(hi, o) := add_one_in_place words_hi in Ok (a :: hi, o)
      else Ok (a :: words_hi, false)
  end.

(** src/add.rs:58-63 *)
Definition sub_word_in_place (words : list Z) (rhs : Z) : res (list Z * bool) :=
  match words with
  | [] => Panic Internal
  | word_0 :: words_hi =>
      let '(a, borrow) := overflowing_sub word_0 rhs in
      if borrow then
        let '(hi, o) := sub_one_in_place words_hi in Ok (a :: hi, o)
      else Ok (a :: words_hi, false)
  end.

(** The loop of src/add.rs:72-78. *)
Fixpoint add_loop (words rhs : list Z) (carry : bool) : list Z * bool :=
  match words, rhs with
  | a :: words', b :: rhs' =>
      let '(sum, c) := add_with_carry a b carry in
      let '(rest, c') := add_loop words' rhs' c in
      (sum :: rest, c')
  | _, _ => (words, carry)
  end.

(** src/add.rs:69-79 *)
Definition add_same_len_in_place (words rhs : list Z) : res (list Z * bool) :=
  check (length words =? length rhs)%nat ;;
  Ok (add_loop words rhs false).

(** The loop of src/add.rs:87-93. *)
Fixpoint sub_loop (lhs rhs : list Z) (borrow : bool) : list Z * bool :=
  match lhs, rhs with
  | a :: lhs', b :: rhs' =>
      let '(diff, b1) := sub_with_borrow a b borrow in
      let '(rest, b') := sub_loop lhs' rhs' b1 in
      (diff :: rest, b')
  | _, _ => (lhs, borrow)
  end.

(** src/add.rs:85-94 *)
Definition sub_same_len_in_place (lhs rhs : list Z) : res (list Z * bool) :=
  check (length lhs =? length rhs)%nat ;;
  Ok (sub_loop lhs rhs false).

(** src/add.rs:100-104 *)
Definition add_in_place (lhs rhs : list Z) : res (list Z * bool) :=
  '(lhs_lo, lhs_hi) <- split_at (length rhs) lhs ;;
  '(lo, carry) <- add_same_len_in_place lhs_lo rhs ;;
  if carry then
    let '(hi, o) := add_one_in_place lhs_hi in Ok (lo ++ hi, o)
  else Ok (lo ++ lhs_hi, false).

(** src/add.rs:110-114 *)
Definition sub_in_place (lhs rhs : list Z) : res (list Z * bool) :=
  '(lhs_lo, lhs_hi) <- split_at (length rhs) lhs ;;
  '(lo, borrow) <- sub_same_len_in_place lhs_lo rhs ;;
  if borrow then
    let '(hi, o) := sub_one_in_place lhs_hi in Ok (lo ++ hi, o)
  else Ok (lo ++ lhs_hi, false).

(** src/add.rs:120-129.  Returns the new [rhs]. *)
Definition sub_same_len_in_place_swap (lhs rhs : list Z) : res (list Z * bool) :=
  check (length lhs =? length rhs)%nat ;;
  Ok (sub_loop lhs rhs false).

(** The length without leading zeros: the loops of src/add.rs:135-142. *)
Fixpoint trim_len (ws : list Z) (n : nat) : nat :=
  match n with
  | O => O
  | S m => if nth m ws 0 =? 0 then trim_len ws m else n
  end.

(** src/add.rs:158-180, the [Equal] branch. *)
Fixpoint sub_sign_eq_loop (lhs rhs : list Z) (n : nat) : res (list Z * sign) :=
  match n with
  | O => Ok (lhs, Positive)
  | S m =>
      match nth m lhs 0 ?= nth m rhs 0 with
      | Gt =>
          '(lo, hi) <- split_at n lhs ;;
          r <- slice_to n rhs ;;
          '(lo', overflow) <- sub_same_len_in_place lo r ;;
          check (negb overflow) ;;
          Ok (lo' ++ hi, Positive)
      | Lt =>
          '(lo, hi) <- split_at n lhs ;;
          r <- slice_to n rhs ;;
          '(lo', overflow) <- sub_same_len_in_place_swap r lo ;;
          check (negb overflow) ;;
          Ok (lo' ++ hi, Negative)
      | Eq => sub_sign_eq_loop (upd m 0 lhs) rhs m
      end
  end.

(** src/add.rs:133-182 *)
Definition sub_in_place_with_sign (lhs rhs : list Z) : res (list Z * sign) :=
  check (length rhs <=? length lhs)%nat ;;
  let lhs_len := trim_len lhs (length lhs) in
  let rhs_len := trim_len rhs (length rhs) in
  match (lhs_len ?= rhs_len)%nat with
  | Gt =>
      '(lo, hi) <- split_at lhs_len lhs ;;
      r <- slice_to rhs_len rhs ;;
      '(lo', overflow) <- sub_in_place lo r ;;
      check (negb overflow) ;;
      Ok (lo' ++ hi, Positive)
  | Lt =>
      '(lo, hi) <- split_at lhs_len lhs ;;
      r <- slice_to lhs_len rhs ;;
      '(lo', borrow) <- sub_same_len_in_place_swap r lo ;;
      '(_, rest) <- split_at (rhs_len - lhs_len) hi ;;
      mid <- slice_to (rhs_len - lhs_len) (skipn lhs_len rhs) ;;
      if borrow then
        let '(mid', overflow) := sub_one_in_place mid in
        check (negb overflow) ;;
        Ok (lo' ++ mid' ++ rest, Negative)
      else Ok (lo' ++ mid ++ rest, Negative)
  | Eq => sub_sign_eq_loop lhs rhs lhs_len
  end.

(** src/primitive.rs:102-109 at type [SignedWord]. *)
Definition signed_to_sign_magnitude (x : Z) : sign * Z :=
  if 0 <=? x then (Positive, x) else (Negative, (- (x mod B)) mod B).

(** src/add.rs:188-196 *)
Definition add_signed_word_in_place (words : list Z) (rhs : Z) : res (list Z * Z) :=
  if (rhs =? 0) || (length words =? 0)%nat then Ok (words, rhs)
  else
    match signed_to_sign_magnitude rhs with
    | (Positive, u) =>
        '(ws, o) <- add_word_in_place words u ;; Ok (ws, Z.b2z o)
    | (Negative, u) =>
        '(ws, o) <- sub_word_in_place words u ;; Ok (ws, - Z.b2z o)
    end.

(** src/add.rs:202-212 *)
Definition add_signed_same_len_in_place (words : list Z) (s : sign) (rhs : list Z)
  : res (list Z * Z) :=
  check (length words =? length rhs)%nat ;;
  match s with
  | Positive => '(ws, o) <- add_same_len_in_place words rhs ;; Ok (ws, Z.b2z o)
  | Negative => '(ws, o) <- sub_same_len_in_place words rhs ;; Ok (ws, - Z.b2z o)
  end.

(** src/add.rs:218-224 *)
Definition add_signed_in_place (words : list Z) (s : sign) (rhs : list Z)
  : res (list Z * Z) :=
  check (length rhs <=? length words)%nat ;;
  match s with
  | Positive => '(ws, o) <- add_in_place words rhs ;; Ok (ws, Z.b2z o)
  | Negative => '(ws, o) <- sub_in_place words rhs ;; Ok (ws, - Z.b2z o)
  end.

End Add.
