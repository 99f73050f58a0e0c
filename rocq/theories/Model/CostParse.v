(** Counting what parsing does: src/parse/*.rs again, with the counter of Model/Cost.v.
    Definitions only.

    Besides the words of the numbers, the bytes of the text are counted: one for each
    byte a loop can visit. *)
From Verif Require Import Model.Base Model.Words Model.Mul Model.Buffer Model.UBig Model.IBig Model.AddOps
  Model.MulOps Model.Pow Model.Radix Model.Parse Model.Cost Model.CostDiv Model.CostOps.

(** The [?] operator. E.g. src/parse/power_two.rs:18 *)
Definition cpbind {S T} (m : counted (presult S)) (k : S -> counted (presult T)) : counted (presult T) :=
  r <+ m ;; match r with POk x => k x | PErr e => free (Ok (PErr e)) end.
Notation "x <+? m ;; k" := (cpbind m (fun x => k))
  (at level 61, m at next level, right associativity).

(** [return Ok(r?)] for an infallible [r]. E.g. src/parse/power_two.rs:73 *)
Definition cpok {T} (m : counted T) : counted (presult T) := x <+ m ;; free (Ok (POk x)).

Section CostParse.
Context {A : Arch}.

(** ** src/parse/power_two.rs *)

(** src/parse/power_two.rs:28-41 *)
Definition c_p2_parse_word (src : list Z) (radix : Z) : counted (presult Z) :=
  call (length src) (p2_parse_word src radix).

(** src/parse/power_two.rs:58-73 *)
Fixpoint c_p2_large_loop (radix log_radix : Z) (rev_bytes : list Z) (b : Buffer) (word bits : Z)
  : counted (presult ubig) :=
  match rev_bytes with
  | [] =>
      b <+ (if 0 <? bits then call 0 (push b word) else free (Ok b)) ;;
      cpok (c_from_buffer b)
  | byte :: rest =>
      digit <+? call 0 (digit_of byte radix) ;;
      ensure (bits <? wbits) ;;
      let word := Z.lor word (shl_w digit bits) in
      new_bits <+ free (checked 32 (bits + log_radix)) ;;
      if wbits <=? new_bits then
        b <+ call 0 (push b word) ;;
        ensure (0 <? bits) ;;
        c_p2_large_loop radix log_radix rest b (shr_w digit (wbits - bits)) (new_bits - wbits)
      else c_p2_large_loop radix log_radix rest b word new_bits
  end.

(** src/parse/power_two.rs:46-74 *)
Definition c_p2_parse_large (src : list Z) (radix : Z) : counted (presult ubig) :=
  ensure (is_radix_valid radix && is_pow2 radix) ;;
  let log_radix := z_tz radix in
  let num_bits := len src * log_radix in
  if USIZE_MAX <? num_bits then free (Panic NumberTooLarge)
  else
    n1 <+ free (usize_chk (num_bits - 1)) ;;
    b <+ call 0 (allocate (n1 / wbits + 1)) ;;
    c_p2_large_loop radix log_radix (rev src) b 0 0.

(** src/parse/power_two.rs:13-23 *)
Definition c_p2_parse (src : list Z) (radix : Z) : counted (presult ubig) :=
  ensure (is_radix_valid radix && is_pow2 radix) ;;
  ri <+ free (radix_info radix) ;;
  if len src <=? digits_per_word ri then
    word <+? c_p2_parse_word src radix ;; free (Ok (POk (from_word word)))
  else c_p2_parse_large src radix.

(** ** src/parse/non_power_two.rs *)

(** src/parse/non_power_two.rs:35-45 *)
Definition c_np_parse_word (src : list Z) (radix : Z) : counted (presult Z) :=
  call (length src) (np_parse_word src radix).

(** src/parse/non_power_two.rs:57-64 *)
Fixpoint c_np_chunk_loop (ri : RadixInfo) (radix : Z) (groups : list (list Z)) (b : Buffer)
  : counted (presult ubig) :=
  match groups with
  | [] => cpok (c_from_buffer b)
  | group :: rest =>
      next <+? c_np_parse_word group radix ;;
      '(b, carry) <+ c_on_words b
         (fun ws => call (length ws) (mul_word_in_place_with_carry ws (range_per_word ri) next)) ;;
      b <+ (if carry =? 0 then free (Ok b) else call 0 (push b carry)) ;;
      c_np_chunk_loop ri radix rest b
  end.

(** src/parse/non_power_two.rs:50-65 *)
Definition c_np_parse_chunk (bytes : list Z) (radix : Z) : counted (presult ubig) :=
  ensure (is_radix_valid radix && negb (is_pow2 radix)) ;;
  ri <+ free (radix_info radix) ;;
  m <+ free (usize_chk (PARSE_CHUNK_LEN * digits_per_word ri)) ;;
  ensure (len bytes <=? m) ;;
  let groups := rchunks_rev (Z.to_nat (digits_per_word ri)) bytes in
  b <+ call 0 (allocate (Z.of_nat (length groups))) ;;
  c_np_chunk_loop ri radix groups b.

(** src/parse/non_power_two.rs:81-85 *)
Fixpoint c_powers_loop (fuel : nat) (chunk_bytes n : Z) (radix_powers : list ubig) : counted (list ubig) :=
  let k := Z.of_nat (length radix_powers) in
  ensure (k <? ubits) ;;
  if chunk_bytes <=? Z.shiftr (n - 1) k then
    match fuel, radix_powers with
    | S fuel, prev :: _ =>
        new <+ c_ubig_mul_rr prev prev ;; c_powers_loop fuel chunk_bytes n (new :: radix_powers)
    | _, _ => free (Panic Internal)
    end
  else free (Ok radix_powers).

(** src/parse/non_power_two.rs:93-117 *)
Fixpoint c_np_divide_conquer (bytes : list Z) (radix chunk_bytes : Z) (radix_powers : list ubig)
  {struct radix_powers} : counted (presult ubig) :=
  limit <+ call 0 (shl_usize chunk_bytes (Z.of_nat (length radix_powers))) ;;
  ensure (len bytes <=? limit) ;;
  match radix_powers with
  | [] => c_np_parse_chunk bytes radix
  | radix_power :: radix_powers =>
      bytes_lo_len <+ free (shl_usize chunk_bytes (Z.of_nat (length radix_powers))) ;;
      if len bytes <=? bytes_lo_len then c_np_divide_conquer bytes radix chunk_bytes radix_powers
      else
        '(bytes_hi, bytes_lo) <+ free (split_at (Z.to_nat (len bytes - bytes_lo_len)) bytes) ;;
        res_hi <+? c_np_divide_conquer bytes_hi radix chunk_bytes radix_powers ;;
        res_lo <+? c_np_divide_conquer bytes_lo radix chunk_bytes radix_powers ;;
        p <+ c_ubig_mul_vr res_hi radix_power ;;
        cpok (c_ubig_add_vv p res_lo)
  end.

(** src/parse/non_power_two.rs:70-88 *)
Definition c_np_parse_large (bytes : list Z) (radix : Z) : counted (presult ubig) :=
  ensure (is_radix_valid radix && negb (is_pow2 radix)) ;;
  ri <+ free (radix_info radix) ;;
  chunk_bytes <+ free (usize_chk (PARSE_CHUNK_LEN * digits_per_word ri)) ;;
  ensure (chunk_bytes <? len bytes) ;;
  p <+ c_ubig_pow (from_word (range_per_word ri)) PARSE_CHUNK_LEN ;;
  radix_powers <+ c_powers_loop (Z.to_nat ubits) chunk_bytes (len bytes) [p] ;;
  c_np_divide_conquer bytes radix chunk_bytes radix_powers.

(** src/parse/non_power_two.rs:17-30 *)
Definition c_np_parse (src : list Z) (radix : Z) : counted (presult ubig) :=
  ensure (is_radix_valid radix && negb (is_pow2 radix)) ;;
  ri <+ free (radix_info radix) ;;
  if len src <=? digits_per_word ri then
    word <+? c_np_parse_word src radix ;; free (Ok (POk (from_word word)))
  else
    m <+ free (usize_chk (PARSE_CHUNK_LEN * digits_per_word ri)) ;;
    if len src <=? m then c_np_parse_chunk src radix else c_np_parse_large src radix.

(** ** src/parse/mod.rs *)

(** src/parse/mod.rs:86-101; skipping zeros visits the whole text at most. *)
Definition c_from_str_radix_no_sign (src : list Z) (radix : Z) : counted (presult ubig) :=
  ensure (is_radix_valid radix) ;;
  match src with
  | [] => free (Ok (PErr NoDigits))
  | _ =>
      src <+ call (length src) (Ok (strip_zeros src)) ;;
      if is_pow2 radix then c_p2_parse src radix else c_np_parse src radix
  end.

(** src/parse/mod.rs:47-51 *)
Definition c_ubig_from_str_radix (src : list Z) (radix : Z) : counted (presult ubig) :=
  _ <+ free (check_radix_valid radix) ;; c_from_str_radix_no_sign (strip_plus src) radix.

(** src/parse/mod.rs:120-135 *)
Definition c_ibig_from_str_radix (src : list Z) (radix : Z) : counted (presult ibig) :=
  _ <+ free (check_radix_valid radix) ;;
  let '(s, src) := strip_sign src in
  mag <+? c_from_str_radix_no_sign src radix ;;
  free (Ok (POk (from_sign_magnitude s mag))).

End CostParse.
