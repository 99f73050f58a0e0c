(** Serialization: src/serde.rs.  Definitions only.

    What a serializer receives is modelled as the announced length and the list
    of 64-bit elements; what a deserializer offers ([SeqAccess]) as its size hint
    and the list of elements that [next_element] returns before [None].
    Serializers and deserializers that report errors are in Model/SerdeErr.v.
    [None] in place of an element that is [unwrap]ped and a failed [assert!] are
    [Internal]. *)
From Verif Require Import Model.Base Model.Words Model.Buffer Model.UBig Model.IBig Model.Convert.

Section Serde.
Context {A : Arch}.

(** src/serde.rs:11 *)
Definition WORDS_PER_U64 : nat := Z.to_nat (64 / wbits).

(** [<[T]>::chunks(k)]. E.g. src/serde.rs:16 *)
Fixpoint chunks (fuel k : nat) (ws : list Z) : list (list Z) :=
  match fuel, ws with
  | O, _ | _, [] => []
  | S fuel, _ => firstn k ws :: chunks fuel k (skipn k ws)
  end.

(** src/serde.rs:19-22; [<<] of a u64 panics if the amount is 64 or more and drops
    the bits beyond the 64th. *)
Fixpoint chunk_word (i : Z) (chunk : list Z) (word_u64 : Z) : res Z :=
  match chunk with
  | [] => Ok word_u64
  | word :: t =>
      check (i * wbits <? 64) ;;
      chunk_word (i + 1) t (Z.lor word_u64 (Z.shiftl word (i * wbits) mod 2 ^ 64))
  end.

(** src/serde.rs:18-24 *)
Fixpoint chunk_words (cs : list (list Z)) : res (list Z) :=
  match cs with
  | [] => Ok []
  | c :: cs => w <- chunk_word 0 c 0 ;; ws <- chunk_words cs ;; Ok (w :: ws)
  end.

(** src/serde.rs:13-27: the announced length and the elements. *)
Definition ubig_serialize (self : ubig) : res (Z * list Z) :=
  let cs := chunks (length (as_words self)) WORDS_PER_U64 (as_words self) in
  es <- chunk_words cs ;; Ok (Z.of_nat (length cs), es).

(** src/serde.rs:79-83, counting from [i]. *)
Fixpoint push_parts (k : nat) (i : Z) (word_64 : Z) (b : Buffer) : res Buffer :=
  match k with
  | O => Ok b
  | S k =>
      check (i * wbits <? 64) ;;
      b <- push b (Z.shiftr word_64 (i * wbits) mod B) ;; push_parts k (i + 1) word_64 b
  end.
Definition push_word_64 (b : Buffer) (word_64 : Z) : res Buffer := push_parts WORDS_PER_U64 0 word_64 b.

(** src/serde.rs:86-93 *)
Definition len_64_to_max_len (len_64 : Z) : res Z :=
  let n := len_64 * Z.of_nat WORDS_PER_U64 in
  if n <? 2 ^ ubits then Ok n else Panic NumberTooLarge.

(** [seq.next_element()?.unwrap()]. E.g. src/serde.rs:51 *)
Definition next_unwrap (seq : list Z) : res (Z * list Z) :=
  match seq with [] => Panic Internal | x :: t => Ok (x, t) end.

(** [assert!(seq.next_element()?.is_none())]. E.g. src/serde.rs:47 *)
Definition assert_end (seq : list Z) : res unit := assert (match seq with [] => true | _ => false end).

(** src/serde.rs:57-60 *)
Fixpoint read_hinted (n : nat) (seq : list Z) (b : Buffer) : res (Buffer * list Z) :=
  match n with
  | O => Ok (b, seq)
  | S n => '(w, seq) <- next_unwrap seq ;; b <- push_word_64 b w ;; read_hinted n seq b
  end.

(** src/serde.rs:70-72 *)
Fixpoint push_all (words_64 : list Z) (b : Buffer) : res Buffer :=
  match words_64 with
  | [] => Ok b
  | w :: t => b <- push_word_64 b w ;; push_all t b
  end.

(** src/serde.rs:44-76.  The vector of lines 65-68 holds all elements. *)
Definition visit_seq (hint : option Z) (seq : list Z) : res ubig :=
  match hint with
  | Some n =>
      if n =? 0 then _ <- assert_end seq ;; Ok (from_word 0)
      else if n =? 1 then
        '(w, seq) <- next_unwrap seq ;; _ <- assert_end seq ;; ubig_from_unsigned 64 w
      else
        m <- len_64_to_max_len n ;;
        b <- allocate m ;;
        '(b, seq) <- read_hinted (Z.to_nat n) seq b ;;
        _ <- assert_end seq ;;
        from_buffer b
  | None =>
      m <- len_64_to_max_len (len seq) ;;
      b <- allocate m ;;
      b <- push_all seq b ;;
      from_buffer b
  end.

(** src/serde.rs:29-33 *)
Definition ubig_deserialize (hint : option Z) (seq : list Z) : res ubig := visit_seq hint seq.

(** src/serde.rs:95-99: the pair of the sign and the magnitude. *)
Definition ibig_serialize (self : ibig) : res (sign * (Z * list Z)) :=
  m <- ubig_serialize (imag self) ;; Ok (isign self, m).

(** src/serde.rs:101-106 *)
Definition ibig_deserialize (s : sign) (hint : option Z) (seq : list Z) : res ibig :=
  m <- ubig_deserialize hint seq ;; Ok (from_sign_magnitude s m).

End Serde.
