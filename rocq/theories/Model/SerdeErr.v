(** Serialization with serializers and deserializers that report errors: src/serde.rs.
    Definitions only.

    Model/Serde.v has the same functions without errors.  A serializer is an
    arbitrary device that takes calls and may refuse one.  A deserializer offers some
    elements and then ends the sequence or reports an error. *)
From Verif Require Import Model.Base Model.Words Model.Buffer Model.UBig Model.IBig Model.Convert Model.Serde Model.Sink.

(** The calls a serializer receives; the two for the tuple and the one for the sign
    come from serde's implementation of [Serialize] for pairs and from the derived one
    for [Sign] (src/sign.rs:11).  E.g. src/serde.rs:17, 23, 25, 97 *)
Inductive scall : Set :=
  | CSeq (n : Z) | CElement (w : Z) | CSeqEnd
  | CTuple (n : Z) | CSign (s : sign) | CTupleEnd.

Section Serialize.
Context {A : Arch} {W : Type} (put : W -> scall -> W * bool).

(** src/serde.rs:18-24 *)
Fixpoint serialize_chunks (cs : list (list Z)) (s : W) : res (wres W W) :=
  match cs with
  | [] => Ok (Done s)
  | c :: cs =>
      w <- chunk_word 0 c 0 ;;
      s <~ emit put s (CElement w) ;;
      serialize_chunks cs s
  end.

(** src/serde.rs:15-26 *)
Definition ubig_serialize_to (self : ubig) (s : W) : res (wres W W) :=
  let cs := chunks (length (as_words self)) WORDS_PER_U64 (as_words self) in
  s <~ emit put s (CSeq (Z.of_nat (length cs))) ;;
  s <~ serialize_chunks cs s ;;
  emit put s CSeqEnd.

(** src/serde.rs:96-98 *)
Definition ibig_serialize_to (self : ibig) (s : W) : res (wres W W) :=
  s <~ emit put s (CTuple 2) ;;
  s <~ emit put s (CSign (isign self)) ;;
  s <~ ubig_serialize_to (imag self) s ;;
  emit put s CTupleEnd.

End Serialize.

Section Deserialize.
Context {A : Arch} {E : Type}.

(** A sequence of elements and how it ends: with an error, or just so. *)
Definition source : Type := (list Z * option E).

(** [seq.next_element()].  E.g. src/serde.rs:47 *)
Definition next_element (seq : source) : wres E (option Z * source) :=
  match seq with
  | (x :: t, e) => Done (Some x, (t, e))
  | ([], None) => Done (None, seq)
  | ([], Some e) => Failed e
  end.

(** [seq.next_element()?.unwrap()].  E.g. src/serde.rs:51 *)
Definition next_or_panic (seq : source) : res (wres E (Z * source)) :=
  r <~ Ok (next_element seq) ;;
  match fst r with
  | Some x => Ok (Done (x, snd r))
  | None => Panic Internal
  end.

(** [assert!(seq.next_element::<u64>()?.is_none())].  E.g. src/serde.rs:47 *)
Definition end_or_panic (seq : source) : res (wres E unit) :=
  r <~ Ok (next_element seq) ;;
  match fst r with
  | Some _ => Panic Internal
  | None => Ok (Done tt)
  end.

(** src/serde.rs:57-60 *)
Fixpoint read_counted (n : nat) (seq : source) (b : Buffer) : res (wres E (Buffer * source)) :=
  match n with
  | O => Ok (Done (b, seq))
  | S n =>
      r <~ next_or_panic seq ;;
      b <- push_word_64 b (fst r) ;;
      read_counted n (snd r) b
  end.

(** src/serde.rs:66-68: the loop; [fuel] exceeds the number of elements *)
Fixpoint collect (fuel : nat) (seq : source) (words_64 : list Z) : res (wres E (list Z)) :=
  match fuel with
  | O => Panic Internal
  | S fuel =>
      r <~ Ok (next_element seq) ;;
      match fst r with
      | Some w => collect fuel (snd r) (words_64 ++ [w])
      | None => Ok (Done words_64)
      end
  end.

(** src/serde.rs:44-76 *)
Definition visit_seq_from (hint : option Z) (seq : source) : res (wres E ubig) :=
  match hint with
  | Some n =>
      if n =? 0 then
        _ <~ end_or_panic seq ;;
        Ok (Done (from_word 0))
      else if n =? 1 then
        r <~ next_or_panic seq ;;
        _ <~ end_or_panic (snd r) ;;
        u <- ubig_from_unsigned 64 (fst r) ;;
        Ok (Done u)
      else
        m <- len_64_to_max_len n ;;
        b <- allocate m ;;
        r <~ read_counted (Z.to_nat n) seq b ;;
        _ <~ end_or_panic (snd r) ;;
        u <- from_buffer (fst r) ;;
        Ok (Done u)
  | None =>
      words_64 <~ collect (S (length (fst seq))) seq [] ;;
      m <- len_64_to_max_len (len words_64) ;;
      b <- allocate m ;;
      b <- push_all words_64 b ;;
      u <- from_buffer b ;;
      Ok (Done u)
  end.

(** src/serde.rs:30-32 *)
Definition ubig_deserialize_from (hint : option Z) (seq : source) : res (wres E ubig) := visit_seq_from hint seq.

(** src/serde.rs:102-105; [s] is the outcome of reading the sign. *)
Definition ibig_deserialize_from (s : wres E sign) (hint : option Z) (seq : source) : res (wres E ibig) :=
  s <~ Ok s ;;
  m <~ ubig_deserialize_from hint seq ;;
  Ok (Done (from_sign_magnitude s m)).

End Deserialize.
