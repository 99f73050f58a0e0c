(** Parsing: src/parse/mod.rs, src/parse/power_two.rs, src/parse/non_power_two.rs.
    Definitions only.

    A string is the list of its bytes.  All characters the parser looks for are
    ASCII, so [str::strip_prefix] is a comparison of the first bytes. *)
From Verif Require Import Model.Base Model.Words Model.Mul Model.Buffer Model.UBig Model.IBig Model.AddOps
  Model.MulOps Model.Pow Model.Radix.

(** src/error.rs:20-25 *)
Inductive parse_error : Set := NoDigits | InvalidDigit.

(** [Result<T, ParseError>]. E.g. src/parse/mod.rs:18 *)
Inductive presult (T : Type) : Type :=
| POk (x : T)
| PErr (e : parse_error).
Arguments POk {T} x.
Arguments PErr {T} e.

(** The [?] operator. E.g. src/parse/power_two.rs:18 *)
Definition pbind {S T} (m : res (presult S)) (k : S -> res (presult T)) : res (presult T) :=
  match m with
  | Ok (POk x) => k x
  | Ok (PErr e) => Ok (PErr e)
  | Panic p => Panic p
  end.
Notation "x <-? m ;; k" := (pbind m (fun x => k))
  (at level 61, m at next level, right associativity).

(** [return Ok(r?)] for an infallible [r]. E.g. src/parse/power_two.rs:73 *)
Definition pok {T} (m : res T) : res (presult T) := x <- m ;; Ok (POk x).

Section Parse.
Context {A : Arch}.

(** [radix::digit_from_utf8_byte(byte, radix).ok_or(ParseError::InvalidDigit)]. E.g. src/parse/power_two.rs:36 *)
Definition digit_of (byte radix : Z) : res (presult Z) :=
  match digit_from_utf8_byte byte radix with
  | Some d => Ok (POk d)
  | None => Ok (PErr InvalidDigit)
  end.

(** ** src/parse/power_two.rs *)

(** src/parse/power_two.rs:35-39, over the reversed bytes.  [word |= ..] on words. *)
Fixpoint p2_word_loop (radix log_radix : Z) (rev_bytes : list Z) (word bits : Z) : res (presult Z) :=
  match rev_bytes with
  | [] => Ok (POk word)
  | byte :: rest =>
      digit <-? digit_of byte radix ;;
      check (bits <? wbits) ;;
      let word := Z.lor word (shl_w digit bits) in
      bits <- checked 32 (bits + log_radix) ;;
      p2_word_loop radix log_radix rest word bits
  end.

(** src/parse/power_two.rs:28-41 *)
Definition p2_parse_word (src : list Z) (radix : Z) : res (presult Z) :=
  check (is_radix_valid radix && is_pow2 radix) ;;
  ri <- radix_info radix ;;
  check (len src <=? digits_per_word ri) ;;
  p2_word_loop radix (z_tz radix) (rev src) 0 0.

(** src/parse/power_two.rs:58-73; the shift amounts are checked. *)
Fixpoint p2_large_loop (radix log_radix : Z) (rev_bytes : list Z) (b : Buffer) (word bits : Z)
  : res (presult ubig) :=
  match rev_bytes with
  | [] =>
      b <- (if 0 <? bits then push b word else Ok b) ;;
      pok (from_buffer b)
  | byte :: rest =>
      digit <-? digit_of byte radix ;;
      check (bits <? wbits) ;;
      let word := Z.lor word (shl_w digit bits) in
      new_bits <- checked 32 (bits + log_radix) ;;
      if wbits <=? new_bits then
        b <- push b word ;;
        check (0 <? bits) ;;
        p2_large_loop radix log_radix rest b (shr_w digit (wbits - bits)) (new_bits - wbits)
      else p2_large_loop radix log_radix rest b word new_bits
  end.

(** src/parse/power_two.rs:46-74 *)
Definition p2_parse_large (src : list Z) (radix : Z) : res (presult ubig) :=
  check (is_radix_valid radix && is_pow2 radix) ;;
  let log_radix := z_tz radix in
  let num_bits := len src * log_radix in
  if USIZE_MAX <? num_bits then Panic NumberTooLarge
  else
    n1 <- usize_chk (num_bits - 1) ;;
    b <- allocate (n1 / wbits + 1) ;;
    p2_large_loop radix log_radix (rev src) b 0 0.

(** src/parse/power_two.rs:13-23 *)
Definition p2_parse (src : list Z) (radix : Z) : res (presult ubig) :=
  check (is_radix_valid radix && is_pow2 radix) ;;
  ri <- radix_info radix ;;
  if len src <=? digits_per_word ri then
    word <-? p2_parse_word src radix ;; Ok (POk (from_word word))
  else p2_parse_large src radix.

(** ** src/parse/non_power_two.rs *)

(** src/parse/non_power_two.rs:14 *)
Definition PARSE_CHUNK_LEN : Z := 256.

(** src/parse/non_power_two.rs:40-43 *)
Fixpoint np_word_loop (radix : Z) (bytes : list Z) (word : Z) : res (presult Z) :=
  match bytes with
  | [] => Ok (POk word)
  | byte :: rest =>
      digit <-? digit_of byte radix ;;
      m <- word_chk (word * radix) ;;
      word <- word_chk (m + digit) ;;
      np_word_loop radix rest word
  end.

(** src/parse/non_power_two.rs:35-45 *)
Definition np_parse_word (src : list Z) (radix : Z) : res (presult Z) :=
  check (is_radix_valid radix && negb (is_pow2 radix)) ;;
  ri <- radix_info radix ;;
  check (len src <=? digits_per_word ri) ;;
  np_word_loop radix src 0.

(** [slice::chunks(n)]; the fuel is the length of the slice. E.g. src/parse/non_power_two.rs:55 *)
Fixpoint chunks {T} (fuel : nat) (n : nat) (l : list T) : list (list T) :=
  match fuel, l with
  | S fuel, _ :: _ => firstn n l :: chunks fuel n (skipn n l)
  | _, _ => []
  end.

(** [slice::rchunks(n).rev()]: only the first group may be shorter than [n]. E.g. src/parse/non_power_two.rs:55 *)
Definition rchunks_rev {T} (n : nat) (l : list T) : list (list T) :=
  let r := (length l mod n)%nat in
  (if (r =? 0)%nat then [] else [firstn r l]) ++ chunks (length l) n (skipn r l).

(** src/parse/non_power_two.rs:57-64 *)
Fixpoint np_chunk_loop (ri : RadixInfo) (radix : Z) (groups : list (list Z)) (b : Buffer)
  : res (presult ubig) :=
  match groups with
  | [] => pok (from_buffer b)
  | group :: rest =>
      next <-? np_parse_word group radix ;;
      '(b, carry) <- on_words b (fun ws => mul_word_in_place_with_carry ws (range_per_word ri) next) ;;
      b <- (if carry =? 0 then Ok b else push b carry) ;;
      np_chunk_loop ri radix rest b
  end.

(** src/parse/non_power_two.rs:50-65 *)
Definition np_parse_chunk (bytes : list Z) (radix : Z) : res (presult ubig) :=
  check (is_radix_valid radix && negb (is_pow2 radix)) ;;
  ri <- radix_info radix ;;
  m <- usize_chk (PARSE_CHUNK_LEN * digits_per_word ri) ;;
  check (len bytes <=? m) ;;
  let groups := rchunks_rev (Z.to_nat (digits_per_word ri)) bytes in
  b <- allocate (Z.of_nat (length groups)) ;;
  np_chunk_loop ri radix groups b.

(** [usize << n]: the shift amount is checked, bits shifted out are lost. E.g. src/parse/non_power_two.rs:99 *)
Definition shl_usize (x n : Z) : res Z := check (n <? ubits) ;; Ok (Z.shiftl x n mod 2 ^ ubits).

(** src/parse/non_power_two.rs:81-85.  [radix_powers] is held last element
    first. *)
Fixpoint powers_loop (fuel : nat) (chunk_bytes n : Z) (radix_powers : list ubig) : res (list ubig) :=
  let k := Z.of_nat (length radix_powers) in
  check (k <? ubits) ;;
  if chunk_bytes <=? Z.shiftr (n - 1) k then
    match fuel, radix_powers with
    | S fuel, prev :: _ =>
        new <- ubig_mul_rr prev prev ;; powers_loop fuel chunk_bytes n (new :: radix_powers)
    | _, _ => Panic Internal
    end
  else Ok radix_powers.

(** src/parse/non_power_two.rs:93-117; [radix_powers] is held last element first. *)
Fixpoint np_divide_conquer (bytes : list Z) (radix chunk_bytes : Z) (radix_powers : list ubig)
  {struct radix_powers} : res (presult ubig) :=
  limit <- shl_usize chunk_bytes (Z.of_nat (length radix_powers)) ;;
  check (len bytes <=? limit) ;;
  match radix_powers with
  | [] => np_parse_chunk bytes radix
  | radix_power :: radix_powers =>
      bytes_lo_len <- shl_usize chunk_bytes (Z.of_nat (length radix_powers)) ;;
      if len bytes <=? bytes_lo_len then np_divide_conquer bytes radix chunk_bytes radix_powers
      else
        '(bytes_hi, bytes_lo) <- split_at (Z.to_nat (len bytes - bytes_lo_len)) bytes ;;
        res_hi <-? np_divide_conquer bytes_hi radix chunk_bytes radix_powers ;;
        res_lo <-? np_divide_conquer bytes_lo radix chunk_bytes radix_powers ;;
        p <- ubig_mul_vr res_hi radix_power ;;
        pok (ubig_add_vv p res_lo)
  end.

(** src/parse/non_power_two.rs:70-88 *)
Definition np_parse_large (bytes : list Z) (radix : Z) : res (presult ubig) :=
  check (is_radix_valid radix && negb (is_pow2 radix)) ;;
  ri <- radix_info radix ;;
  chunk_bytes <- usize_chk (PARSE_CHUNK_LEN * digits_per_word ri) ;;
  check (chunk_bytes <? len bytes) ;;
  p <- ubig_pow (from_word (range_per_word ri)) PARSE_CHUNK_LEN ;;
  radix_powers <- powers_loop (Z.to_nat ubits) chunk_bytes (len bytes) [p] ;;
  np_divide_conquer bytes radix chunk_bytes radix_powers.

(** src/parse/non_power_two.rs:17-30 *)
Definition np_parse (src : list Z) (radix : Z) : res (presult ubig) :=
  check (is_radix_valid radix && negb (is_pow2 radix)) ;;
  ri <- radix_info radix ;;
  if len src <=? digits_per_word ri then
    word <-? np_parse_word src radix ;; Ok (POk (from_word word))
  else
    m <- usize_chk (PARSE_CHUNK_LEN * digits_per_word ri) ;;
    if len src <=? m then np_parse_chunk src radix else np_parse_large src radix.

(** ** src/parse/mod.rs *)

(** [str::strip_prefix] with a one-character pattern. E.g. src/parse/mod.rs:49 *)
Definition strip_char (c : Z) (src : list Z) : option (list Z) :=
  match src with
  | x :: rest => if x =? c then Some rest else None
  | [] => None
  end.

(** [str::strip_prefix] with a two-character pattern. E.g. src/parse/mod.rs:74 *)
Definition strip_two (c d : Z) (src : list Z) : option (list Z) :=
  match strip_char c src with
  | Some rest => strip_char d rest
  | None => None
  end.

(** src/parse/mod.rs:92-94 *)
Fixpoint strip_zeros (src : list Z) : list Z :=
  match src with
  | x :: rest => if x =? 48 then strip_zeros rest else src
  | [] => []
  end.

(** src/parse/mod.rs:86-101 *)
Definition from_str_radix_no_sign (src : list Z) (radix : Z) : res (presult ubig) :=
  check is_radix_valid radix ;;
  match src with
  | [] => Ok (PErr NoDigits)
  | _ =>
      let src := strip_zeros src in
      if is_pow2 radix then p2_parse src radix else np_parse src radix
  end.

(** [src.strip_prefix('+').unwrap_or(src)]. E.g. src/parse/mod.rs:49 *)
Definition strip_plus (src : list Z) : list Z :=
  match strip_char 43 src with Some s => s | None => src end.

(** src/parse/mod.rs:47-51 *)
Definition ubig_from_str_radix (src : list Z) (radix : Z) : res (presult ubig) :=
  _ <- check_radix_valid radix ;; from_str_radix_no_sign (strip_plus src) radix.

(** src/parse/mod.rs:73-83: the prefixes 0b, 0o, 0x. *)
Definition from_str_with_radix_prefix_no_sign (src : list Z) : res (presult ubig) :=
  match strip_two 48 98 src with
  | Some bin => from_str_radix_no_sign bin 2
  | None =>
      match strip_two 48 111 src with
      | Some oct => from_str_radix_no_sign oct 8
      | None =>
          match strip_two 48 120 src with
          | Some hex => from_str_radix_no_sign hex 16
          | None => from_str_radix_no_sign src 10
          end
      end
  end.

(** src/parse/mod.rs:67-70 *)
Definition ubig_from_str_with_radix_prefix (src : list Z) : res (presult ubig) :=
  from_str_with_radix_prefix_no_sign (strip_plus src).

(** src/parse/mod.rs:122-132, 151-161 *)
Definition strip_sign (src : list Z) : sign * list Z :=
  match strip_char 45 src with
  | Some s => (Negative, s)
  | None => (Positive, strip_plus src)
  end.

(** src/parse/mod.rs:120-135 *)
Definition ibig_from_str_radix (src : list Z) (radix : Z) : res (presult ibig) :=
  _ <- check_radix_valid radix ;;
  let '(s, src) := strip_sign src in
  mag <-? from_str_radix_no_sign src radix ;;
  Ok (POk (from_sign_magnitude s mag)).

(** src/parse/mod.rs:150-164 *)
Definition ibig_from_str_with_radix_prefix (src : list Z) : res (presult ibig) :=
  let '(s, src) := strip_sign src in
  mag <-? from_str_with_radix_prefix_no_sign src ;;
  Ok (POk (from_sign_magnitude s mag)).

(** src/parse/mod.rs:15-29: [FromStr] *)
Definition ubig_from_str (src : list Z) : res (presult ubig) := ubig_from_str_radix src 10.
Definition ibig_from_str (src : list Z) : res (presult ibig) := ibig_from_str_radix src 10.

End Parse.
