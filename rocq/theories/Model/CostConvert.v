(** Counting what comparisons, conversions to primitive integers and floating point
    numbers, and serialization do: src/cmp.rs, src/convert.rs and src/serde.rs again, with
    the counter of Model/Cost.v.  Definitions only. *)
From Verif Require Import Model.Base Model.Words Model.Memory Model.Buffer Model.Div Model.UBig Model.IBig Model.Convert
  Model.ShiftOps Model.Bits Model.Float Model.Serde Model.Cost Model.CostOps Model.CostGcd.

Section CostConvert.
Context {A : Arch}.

(** ** src/cmp.rs and derived equality *)

(** src/cmp.rs:11-25 *)
Definition c_ubig_cmp (a b : ubig) : counted comparison :=
  match a, b with
  | Small x, Small y => call 0 (Ok (x ?= y))
  | Small _, Large _ => call 0 (Ok Lt)
  | Large _, Small _ => call 0 (Ok Gt)
  | Large x, Large y =>
      match blen x ?= blen y with
      | Eq => call (length (words x)) (cmp_same_len (words x) (words y))
      | c => call 0 (Ok c)
      end
  end.

(** src/cmp.rs:34-44 *)
Definition c_ibig_cmp (x y : ibig) : counted comparison :=
  match isign x, isign y with
  | Positive, Positive => c_ubig_cmp (imag x) (imag y)
  | Positive, Negative => call 0 (Ok Gt)
  | Negative, Positive => call 0 (Ok Lt)
  | Negative, Negative => c_ubig_cmp (imag y) (imag x)
  end.

(** Derived [PartialEq]: src/ubig.rs:13,41 and src/buffer.rs:17.  Slices of different
    lengths are not looked at. *)
Definition c_ubig_equal (a b : ubig) : counted bool :=
  match a, b with
  | Large x, Large y =>
      if (length (words x) =? length (words y))%nat then call (length (words x)) (Ok (words_eqb (words x) (words y)))
      else call 0 (Ok (words_eqb (words x) (words y)))
  | _, _ => call 0 (Ok (ubig_eqb a b))
  end.

(** src/ibig.rs:24 *)
Definition c_ibig_equal (x y : ibig) : counted bool :=
  if sign_eqb (isign x) (isign y) then c_ubig_equal (imag x) (imag y) else call 0 (Ok false).

(** ** Primitive integers *)

(** src/convert.rs:590-593 *)
Fixpoint c_words_into_bytes (idx : nat) (ws bytes : list Z) : counted (list Z) :=
  match ws with
  | [] => free (Ok bytes)
  | w :: t =>
      bytes <+ call WORD_BYTES (copy_into (idx * WORD_BYTES) (prim_to_le_bytes WORD_BYTES w) bytes) ;;
      c_words_into_bytes (S idx) t bytes
  end.

(** src/convert.rs:576-597 *)
Definition c_unsigned_from_words (tb : Z) (ws : list Z) : counted (option Z) :=
  ensure (2 <=? length ws)%nat ;;
  let t_bytes := Z.to_nat (tb / 8) in
  let t_words := (t_bytes / WORD_BYTES)%nat in
  if ((t_words <=? 1) || (t_words <? length ws))%nat then call 0 (Ok None)
  else
    ensure (tb mod wbits =? 0) ;;
    zeros <+ call t_bytes (Ok (repeat 0 t_bytes)) ;;
    bytes <+ c_words_into_bytes 0 ws zeros ;;
    call t_bytes (Ok (Some (prim_from_le_bytes bytes))).

(** src/convert.rs:533-544 *)
Definition c_ubig_try_to_unsigned (tb : Z) (u : ubig) : counted (option Z) :=
  match u with
  | Small w => call 0 (Ok (if w <? 2 ^ tb then Some w else None))
  | Large b => c_unsigned_from_words tb (words b)
  end.

(** src/convert.rs:548-559 *)
Definition c_ubig_try_to_signed (tb : Z) (u : ubig) : counted (option Z) :=
  match u with
  | Small w => call 0 (Ok (if w <? 2 ^ (tb - 1) then Some w else None))
  | Large b =>
      o <+ c_unsigned_from_words tb (words b) ;;
      free (Ok (match o with Some u => unsigned_to_signed tb u | None => None end))
  end.

(** src/convert.rs:613-619 *)
Definition c_ibig_try_to_unsigned (tb : Z) (x : ibig) : counted (option Z) :=
  match isign x with
  | Positive => c_ubig_try_to_unsigned tb (imag x)
  | Negative => call 0 (Ok None)
  end.

(** src/convert.rs:624-627 *)
Definition c_ibig_try_to_signed (tb : Z) (x : ibig) : counted (option Z) :=
  o <+ c_ubig_try_to_unsigned tb (imag x) ;;
  free (Ok (match o with Some u => try_from_sign_magnitude tb (isign x) u | None => None end)).

(** ** Floating point numbers *)

(** src/bits.rs:929-946 *)
Definition c_are_low_bits_nonzero (u : ubig) (n : Z) : counted bool :=
  match u with
  | Small w => call 0 (Ok (negb (Z.land w (ones_w (Z.min n wbits)) =? 0)))
  | Large b =>
      let n_words := n / wbits in
      if blen b <=? n_words then call 0 (Ok true)
      else
        let n_top := n mod wbits in
        lo <+ free (slice_to (Z.to_nat n_words) (words b)) ;;
        found <+ call (length lo) (Ok (existsb (fun x => negb (x =? 0)) lo)) ;;
        if found : bool then free (Ok true)
        else w <+ free (get (Z.to_nat n_words) (words b)) ;; free (Ok (negb (Z.land w (ones_w n_top) =? 0)))
  end.

(** src/convert.rs:176-204: [to_f32_slow]; 228-255: [to_f64_slow]; the number of bits is
    found without a loop. *)
Definition c_to_float_slow (f : ffmt) (u : ubig) : counted Z :=
  n <+ call 0 (ubig_bit_len u) ;;
  ensure (fbits f <? n) ;;
  if femax f <? n then free (Ok (f_infinity f))
  else
    let exponent := n - 1 in
    ensure ((fbits f <=? exponent) && (exponent <? femax f)) ;;
    x <+ c_ubig_shr_r u (n - (fprec f + 1)) ;;
    o <+ c_ubig_try_to_unsigned (fbits f) x ;;
    match o with
    | None => free (Panic Internal)
    | Some mantissa2 =>
        let mantissa := Z.shiftr mantissa2 1 in
        value <+ free (checked (fbits f) (Z.shiftl (exponent + (femax f - 2)) (fprec f - 1) + mantissa)) ;;
        extra_bit <+ c_are_low_bits_nonzero u (n - (fprec f + 1)) ;;
        let low_bits := Z.lor (Z.shiftl (Z.land mantissa2 3) 1) (Z.b2z extra_bit) in
        free (checked (fbits f) (value + Z.b2z (round_to_even_adjustment low_bits)))
    end.

(** src/convert.rs:166-174: [to_f32]; 217-225: [to_f64] *)
Definition c_ubig_to_float (f : ffmt) (u : ubig) : counted Z :=
  match u with
  | Small w => call 0 (Ok (int_as_float f w))
  | Large _ =>
      o <+ c_ubig_try_to_unsigned (fbits f) u ;;
      match o with
      | Some v => free (Ok (int_as_float f v))
      | None => c_to_float_slow f u
      end
  end.

(** src/convert.rs:270-276: [to_f32]; 289-295: [to_f64] *)
Definition c_ibig_to_float (f : ffmt) (x : ibig) : counted Z :=
  v <+ c_ubig_to_float f (imag x) ;;
  free (Ok (match isign x with Positive => v | Negative => f_neg f v end)).

(** ** src/serde.rs *)

(** src/serde.rs:18-24; [serialize_element] is charged with the chunk. *)
Fixpoint c_chunk_words (cs : list (list Z)) : counted (list Z) :=
  match cs with
  | [] => free (Ok [])
  | c :: cs => w <+ call (length c) (chunk_word 0 c 0) ;; ws <+ c_chunk_words cs ;; free (Ok (w :: ws))
  end.

(** src/serde.rs:13-27 *)
Definition c_ubig_serialize (self : ubig) : counted (Z * list Z) :=
  let cs := chunks (length (as_words self)) WORDS_PER_U64 (as_words self) in
  es <+ c_chunk_words cs ;; free (Ok (Z.of_nat (length cs), es)).

(** src/serde.rs:79-83 *)
Definition c_push_word_64 (b : Buffer) (word_64 : Z) : counted Buffer := call WORDS_PER_U64 (push_word_64 b word_64).

(** src/serde.rs:57-60 *)
Fixpoint c_read_hinted (n : nat) (seq : list Z) (b : Buffer) : counted (Buffer * list Z) :=
  match n with
  | O => free (Ok (b, seq))
  | S n => '(w, seq) <+ call 0 (next_unwrap seq) ;; b <+ c_push_word_64 b w ;; c_read_hinted n seq b
  end.

(** src/serde.rs:70-72 *)
Fixpoint c_push_all (words_64 : list Z) (b : Buffer) : counted Buffer :=
  match words_64 with
  | [] => free (Ok b)
  | w :: t => b <+ c_push_word_64 b w ;; c_push_all t b
  end.

(** src/serde.rs:44-76.  Collecting the elements in the vector of lines 65-68 is charged
    twice for each: the vector grows by doubling. *)
Definition c_visit_seq (hint : option Z) (seq : list Z) : counted ubig :=
  match hint with
  | Some n =>
      if n =? 0 then _ <+ call 0 (assert_end seq) ;; free (Ok (from_word 0))
      else if n =? 1 then
        '(w, seq) <+ call 0 (next_unwrap seq) ;; _ <+ call 0 (assert_end seq) ;; call WORDS_PER_U64 (ubig_from_unsigned 64 w)
      else
        m <+ free (len_64_to_max_len n) ;;
        b <+ call 0 (allocate m) ;;
        '(b, seq) <+ c_read_hinted (Z.to_nat n) seq b ;;
        _ <+ call 0 (assert_end seq) ;;
        c_from_buffer b
  | None =>
      words_64 <+ call (2 * length seq) (Ok seq) ;;
      m <+ free (len_64_to_max_len (len words_64)) ;;
      b <+ call 0 (allocate m) ;;
      b <+ c_push_all words_64 b ;;
      c_from_buffer b
  end.

(** src/serde.rs:29-33 *)
Definition c_ubig_deserialize (hint : option Z) (seq : list Z) : counted ubig := c_visit_seq hint seq.

(** src/serde.rs:95-99 *)
Definition c_ibig_serialize (self : ibig) : counted (sign * (Z * list Z)) :=
  m <+ c_ubig_serialize (imag self) ;; free (Ok (isign self, m)).

(** src/serde.rs:101-106 *)
Definition c_ibig_deserialize (s : sign) (hint : option Z) (seq : list Z) : counted ibig :=
  m <+ c_ubig_deserialize hint seq ;; free (Ok (from_sign_magnitude s m)).

End CostConvert.
