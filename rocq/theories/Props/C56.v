(** C56: serializers and deserializers that report errors. *)
From Verif Require Import Model.Base Model.Words Model.Buffer Model.UBig Model.IBig Model.Convert Model.Serde Model.Sink Model.SerdeErr
  Spec.Val Spec.Num Spec.Prim Spec.Digits Spec.Sinks Spec.SerdeCalls Proofs.SerdeErrProofs Proofs.Samples.

(** A serializer is any device; [put] says how it responds to a call.  It is called
    with the digits in base 2^64 up to the first call that fails, and that failure is
    reported. *)
Theorem C56_ubig_serialize (A : Arch) (AOK : ArchOk A) (u : ubig) :
  ubig_ok u -> exists es,
    digits_ok (2 ^ 64) es /\ (es = [] \/ last es 0 <> 0) /\ num (2 ^ 64) es = uval u /\
    forall W (put : W -> scall -> W * bool) s,
      ubig_serialize_to put u s = Ok (let (s', ok) := feed put s (seq_calls es) in if ok then Done s' else Failed s').
Proof. exact (ubig_serialize_calls u). Qed.
Print Assumptions C56_ubig_serialize.

Theorem C56_ibig_serialize (A : Arch) (AOK : ArchOk A) (x : ibig) :
  ibig_ok x -> exists es,
    digits_ok (2 ^ 64) es /\ (es = [] \/ last es 0 <> 0) /\ num (2 ^ 64) es = Z.abs (ival x) /\
    forall W (put : W -> scall -> W * bool) s,
      ibig_serialize_to put x s =
      Ok (let (s', ok) := feed put s (pair_calls (if ival x <? 0 then Negative else Positive) es) in
          if ok then Done s' else Failed s').
Proof. exact (ibig_serialize_calls x). Qed.
Print Assumptions C56_ibig_serialize.

(** A deserializer that reports no error: the number of C36, for any hint. *)
Theorem C56_no_error (A : Arch) (E : Type) (h : option Z) (es : list Z) :
  @ubig_deserialize_from A E h (es, None) = (u <- ubig_deserialize h es ;; Ok (Done u)).
Proof. exact (deserialize_no_error h es). Qed.
Print Assumptions C56_no_error.

(** One that reports an error after the elements [es], without a hint or with one that
    is not too small and not too large for any number. *)
Theorem C56_error (A : Arch) (AOK : ArchOk A) (E : Type) (h : option Z) (es : list Z) (err : E) :
  digits_ok (2 ^ 64) es ->
  (forall n, h = Some n -> Z.of_nat (length es) <= n /\ 64 * n <= wbits * (MAX_LEN + 4)) ->
  ubig_deserialize_from h (es, Some err) = Ok (Failed err).
Proof. exact (deserialize_error h es err). Qed.
Print Assumptions C56_error.

(** A hint that promises fewer elements than there are, or more, panics. *)
Theorem C56_wrong_hint (A : Arch) (AOK : ArchOk A) (E : Type) (n : Z) (es : list Z) (e : option E) :
  digits_ok (2 ^ 64) es -> 0 <= n -> 64 * n <= wbits * (MAX_LEN + 4) ->
  n < Z.of_nat (length es) \/ (Z.of_nat (length es) < n /\ e = None) ->
  ubig_deserialize_from (Some n) (es, e) = Panic Internal.
Proof. exact (deserialize_wrong_hint n es e). Qed.
Print Assumptions C56_wrong_hint.

(** A hint beyond the largest buffer panics before any element is asked for. *)
Theorem C56_huge_hint (A : Arch) (AOK : ArchOk A) (E : Type) (n : Z) (es : list Z) (e : option E) :
  wbits * (MAX_LEN + 4) < 64 * n -> ubig_deserialize_from (Some n) (es, e) = Panic NumberTooLarge.
Proof. exact (deserialize_huge_hint n es e). Qed.
Print Assumptions C56_huge_hint.

(** Signed numbers. *)
Theorem C56_sign_error (A : Arch) (E : Type) (err : E) (h : option Z) (es : list Z) (e : option E) :
  ibig_deserialize_from (Failed err) h (es, e) = Ok (Failed err).
Proof. exact (ideserialize_sign_error err h es e). Qed.
Print Assumptions C56_sign_error.

Theorem C56_ibig_no_error (A : Arch) (E : Type) (s : sign) (h : option Z) (es : list Z) :
  @ibig_deserialize_from A E (Done s) h (es, None) = (x <- ibig_deserialize s h es ;; Ok (Done x)).
Proof. exact (ideserialize_no_error s h es). Qed.
Print Assumptions C56_ibig_no_error.

Theorem C56_ibig_error (A : Arch) (AOK : ArchOk A) (E : Type) (s : sign) (h : option Z) (es : list Z) (err : E) :
  digits_ok (2 ^ 64) es ->
  (forall n, h = Some n -> Z.of_nat (length es) <= n /\ 64 * n <= wbits * (MAX_LEN + 4)) ->
  ibig_deserialize_from (Done s) h (es, Some err) = Ok (Failed err).
Proof. exact (ideserialize_error s h es err). Qed.
Print Assumptions C56_ibig_error.

(** A serializer that records up to [n] calls. *)
Definition recorder (n : nat) (s : list scall) (c : scall) : list scall * bool :=
  if (length s <? n)%nat then (s ++ [c], true) else (s, false).

Example C56_values : let A := arch16 in
  let a := lg [1; 2; 3; 4; 5] in let d := 1 + 2 * 2 ^ 16 + 3 * 2 ^ 32 + 4 * 2 ^ 48 in
  ubig_serialize_to (recorder 9) a [] = Ok (Done [CSeq 2; CElement d; CElement 5; CSeqEnd]) /\
  ubig_serialize_to (recorder 2) a [] = Ok (Failed [CSeq 2; CElement d]) /\
  ibig_serialize_to (recorder 6) (neg a) [] = Ok (Failed [CTuple 2; CSign Negative; CSeq 2; CElement d; CElement 5; CSeqEnd]) /\
  ubig_deserialize_from (Some 3) ([7; 8], Some 404) = Ok (Failed 404) /\
  ubig_deserialize_from (Some 2) ([7; 8], Some 404) = Ok (Failed 404) /\
  ubig_deserialize_from None ([7; 8], Some 404) = Ok (Failed 404) /\
  ubig_deserialize_from (E := Z) (Some 3) ([7; 8], None) = Panic Internal /\
  ubig_deserialize_from (E := Z) (Some 1) ([7; 8], None) = Panic Internal /\
  (match ubig_deserialize_from (E := Z) (Some 3) ([7; 8; 0], None) with Ok (Done u) => uval u = 7 + 8 * 2 ^ 64 | _ => False end).
Proof. cbv zeta. sample. Qed.

Example C56_hypotheses : let A := arch16 in
  digits_ok (2 ^ 64) [7; 8] /\ 64 * 3 <= wbits * (MAX_LEN + 4) /\ wbits * (MAX_LEN + 4) < 64 * 2 ^ 62.
Proof. cbv zeta. split; [repeat constructor; vm_compute; discriminate|]. split; vm_compute; [discriminate|reflexivity]. Qed.
