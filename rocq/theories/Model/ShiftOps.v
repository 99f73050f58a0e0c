(** Shift operators: src/shift_ops.rs, and [are_low_bits_nonzero] of src/bits.rs.
    Definitions only.  The shift amount [rhs] is a [usize]. *)
From Verif Require Import Model.Base Model.Words Model.Shift Model.Memory Model.Buffer Model.UBig
  Model.IBig Model.Convert Model.AddOps Model.MulOps.

Section ShiftOps.
Context {A : Arch}.

(** src/shift_ops.rs:204-213 *)
Definition shl_word_slow (word rhs : Z) : res ubig :=
  let shift_words := rhs / wbits in
  let shift_bits := rhs mod wbits in
  let '(lo, hi) := split_double_word (shl_dw (extend_word word) shift_bits) in
  n <- usize_chk (shift_words + 2) ;;
  b <- allocate n ;;
  b <- push_zeros b (Z.to_nat shift_words) ;;
  b <- push b lo ;;
  b <- push b hi ;;
  from_buffer b.

(** src/shift_ops.rs:193-201 *)
Definition shl_word (word rhs : Z) : res ubig :=
  check (negb (word =? 0)) ;;
  if rhs <=? wbits then ubig_from_dword (shl_dw (extend_word word) rhs)
  else shl_word_slow word rhs.

(** src/shift_ops.rs:231-241 *)
Definition shl_ref_large (ws : list Z) (rhs : Z) : res ubig :=
  let shift_words := rhs / wbits in
  let shift_bits := rhs mod wbits in
  n <- usize_chk (shift_words + len ws + 1) ;;
  b <- allocate n ;;
  b <- push_zeros b (Z.to_nat shift_words) ;;
  b <- extend b ws ;;
  '(b, carry) <- on_buffer (Z.to_nat shift_words) (length (words b)) b
                   (fun w => shl_in_place w shift_bits) ;;
  b <- push b carry ;;
  from_buffer b.

(** src/shift_ops.rs:216-228 *)
Definition shl_large (b : Buffer) (rhs : Z) : res ubig :=
  let shift_words := rhs / wbits in
  n <- usize_chk (blen b + shift_words + 1) ;;
  if cap b <? n then shl_ref_large (words b) rhs
  else
    let shift_bits := rhs mod wbits in
    '(b, carry) <- on_words b (fun w => shl_in_place w shift_bits) ;;
    b <- push b carry ;;
    b <- push_zeros_front b (Z.to_nat shift_words) ;;
    from_buffer b.

(** src/shift_ops.rs:245-252 *)
Definition shr_word (word rhs : Z) : ubig :=
  from_word (if rhs <? wbits then shr_w word rhs else 0).

(** src/shift_ops.rs:255-264 *)
Definition shr_large (b : Buffer) (rhs : Z) : res ubig :=
  let shift_words := rhs / wbits in
  if blen b <=? shift_words then Ok (from_word 0)
  else
    let shift_bits := rhs mod wbits in
    b <- erase_front b (Z.to_nat shift_words) ;;
    '(b, _) <- on_words b (fun w => shr_in_place w shift_bits) ;;
    from_buffer b.

(** src/shift_ops.rs:267-284 *)
Definition shr_large_ref (ws : list Z) (rhs : Z) : res ubig :=
  let shift_words := rhs / wbits in
  let shift_bits := rhs mod wbits in
  let ws := skipn (Z.to_nat (Z.min shift_words (len ws))) ws in
  match ws with
  | [] => Ok (from_word 0)
  | [w] => Ok (from_word (shr_w w shift_bits))
  | [lo; hi] => ubig_from_dword (shr_w (double_word lo hi) shift_bits)
  | _ =>
      b <- allocate (len ws) ;;
      b <- extend b ws ;;
      '(b, _) <- on_words b (fun w => shr_in_place w shift_bits) ;;
      from_buffer b
  end.

(** src/shift_ops.rs:88-99 *)
Definition ubig_shl_v (u : ubig) (rhs : Z) : res ubig :=
  match u with
  | Small w => if w =? 0 then Ok (from_word 0) else shl_word w rhs
  | Large b => shl_large b rhs
  end.

(** src/shift_ops.rs:101-112 *)
Definition ubig_shl_r (u : ubig) (rhs : Z) : res ubig :=
  match u with
  | Small w => if w =? 0 then Ok (from_word 0) else shl_word w rhs
  | Large b => shl_ref_large (words b) rhs
  end.

(** src/shift_ops.rs:114-124 *)
Definition ubig_shr_v (u : ubig) (rhs : Z) : res ubig :=
  match u with
  | Small w => Ok (shr_word w rhs)
  | Large b => shr_large b rhs
  end.

(** src/shift_ops.rs:126-136 *)
Definition ubig_shr_r (u : ubig) (rhs : Z) : res ubig :=
  match u with
  | Small w => Ok (shr_word w rhs)
  | Large b => shr_large_ref (words b) rhs
  end.

(** src/shift_ops.rs:138-146 *)
Definition ibig_shl_v (x : ibig) (rhs : Z) : res ibig :=
  m <- ubig_shl_v (imag x) rhs ;; Ok (from_sign_magnitude (isign x) m).
(** src/shift_ops.rs:148-156 *)
Definition ibig_shl_r (x : ibig) (rhs : Z) : res ibig :=
  m <- ubig_shl_r (imag x) rhs ;; Ok (from_sign_magnitude (isign x) m).

(** src/bits.rs:929-946: [are_low_bits_nonzero] *)
Definition are_low_bits_nonzero (u : ubig) (n : Z) : res bool :=
  match u with
  | Small w => Ok (negb (Z.land w (ones_w (Z.min n wbits)) =? 0))
  | Large b =>
      let n_words := n / wbits in
      if blen b <=? n_words then Ok true
      else
        let n_top := n mod wbits in
        lo <- slice_to (Z.to_nat n_words) (words b) ;;
        if existsb (fun x => negb (x =? 0)) lo then Ok true
        else w <- get (Z.to_nat n_words) (words b) ;; Ok (negb (Z.land w (ones_w n_top) =? 0))
  end.

(** src/shift_ops.rs:158-172 *)
Definition ibig_shr_v (x : ibig) (rhs : Z) : res ibig :=
  match isign x with
  | Positive => ibig_of (ubig_shr_v (imag x) rhs)
  | Negative =>
      b <- are_low_bits_nonzero (imag x) rhs ;;
      q <- neg_res (ibig_of (ubig_shr_v (imag x) rhs)) ;;
      b <- ibig_from_bool b ;;
      ibig_sub_vv q b
  end.
(** src/shift_ops.rs:174-188 *)
Definition ibig_shr_r (x : ibig) (rhs : Z) : res ibig :=
  match isign x with
  | Positive => ibig_of (ubig_shr_r (imag x) rhs)
  | Negative =>
      b <- are_low_bits_nonzero (imag x) rhs ;;
      q <- neg_res (ibig_of (ubig_shr_r (imag x) rhs)) ;;
      b <- ibig_from_bool b ;;
      ibig_sub_vv q b
  end.

(** src/shift_ops.rs:17-86: the assigning and the by-reference-shift forms
    forward to these, the assigning ones through the by-value form. *)
Definition ubig_shl_assign (u : ubig) (rhs : Z) : res ubig := ubig_shl_v u rhs.
Definition ubig_shr_assign (u : ubig) (rhs : Z) : res ubig := ubig_shr_v u rhs.
Definition ibig_shl_assign (x : ibig) (rhs : Z) : res ibig := ibig_shl_v x rhs.
Definition ibig_shr_assign (x : ibig) (rhs : Z) : res ibig := ibig_shr_v x rhs.

End ShiftOps.
