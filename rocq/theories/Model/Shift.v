(** Bit shifts of word slices: src/shift.rs.  Definitions only. *)
From Verif Require Import Model.Base Model.Words.

Section Shift.
Context {A : Arch}.

(** The loop of src/shift.rs:15-21. *)
Fixpoint shl_loop (words : list Z) (shift carry : Z) : list Z * Z :=
  match words with
  | [] => ([], carry)
  | word :: rest =>
      let '(new_word, new_carry) := split_double_word (shl_dw (extend_word word) shift) in
      let '(rest', c) := shl_loop rest shift new_carry in
      (Z.lor new_word carry :: rest', c)
  end.

(** src/shift.rs:10-22 *)
Definition shl_in_place (words : list Z) (shift : Z) : res (list Z * Z) :=
  check (shift <? wbits) ;;
  if shift =? 0 then Ok (words, 0)
  else Ok (shl_loop words shift 0).

(** The loop of src/shift.rs:31-36, which runs from the most significant word
    down; the result is the new slice and the final carry. *)
Fixpoint shr_loop (words : list Z) (shift : Z) : list Z * Z :=
  match words with
  | [] => ([], 0)
  | word :: rest =>
      let '(rest', carry) := shr_loop rest shift in
      let '(new_carry, new_word) := split_double_word (shr_w (double_word 0 word) shift) in
      (Z.lor new_word carry :: rest', new_carry)
  end.

(** src/shift.rs:26-38 *)
Definition shr_in_place (words : list Z) (shift : Z) : res (list Z * Z) :=
  check (shift <? wbits) ;;
  if shift =? 0 then Ok (words, 0)
  else
    let '(ws, carry) := shr_loop words shift in
    Ok (ws, shr_w carry (wbits - shift)).

End Shift.
