(** C36: serialization round-trips and is platform independent. *)
From Verif Require Import Model.Base Model.Words Model.Buffer Model.UBig Model.IBig Model.Convert Model.Serde
  Spec.Val Spec.Num Spec.Prim Spec.Digits Proofs.SerdeProofs Proofs.Samples.

(** The elements are the digits in base 2^64, least significant first, without a
    trailing zero (so none for zero), and the announced length is their number. *)
Theorem C36_ubig_serialize (A : Arch) (AOK : ArchOk A) (u : ubig) :
  ubig_ok u -> exists es, ubig_serialize u = Ok (Z.of_nat (length es), es) /\
    digits_ok (2 ^ 64) es /\ (es = [] \/ last es 0 <> 0) /\ num (2 ^ 64) es = uval u.
Proof. exact (ubig_serialize_spec u). Qed.
Print Assumptions C36_ubig_serialize.

Theorem C36_ibig_serialize (A : Arch) (AOK : ArchOk A) (x : ibig) :
  ibig_ok x -> exists es,
    ibig_serialize x = Ok (if ival x <? 0 then Negative else Positive, (Z.of_nat (length es), es)) /\
    digits_ok (2 ^ 64) es /\ (es = [] \/ last es 0 <> 0) /\ num (2 ^ 64) es = Z.abs (ival x).
Proof. exact (ibig_serialize_spec x). Qed.
Print Assumptions C36_ibig_serialize.

(** Equal numbers of two platforms serialize equally. *)
Theorem C36_platform_independent (A1 A2 : Arch) (O1 : ArchOk A1) (O2 : ArchOk A2) (u1 u2 : ubig) :
  @ubig_ok A1 u1 -> @ubig_ok A2 u2 -> @uval A1 u1 = @uval A2 u2 -> @ubig_serialize A1 u1 = @ubig_serialize A2 u2.
Proof. exact (serialize_platform A1 A2 O1 O2 u1 u2). Qed.
Print Assumptions C36_platform_independent.

Theorem C36_ibig_platform_independent (A1 A2 : Arch) (O1 : ArchOk A1) (O2 : ArchOk A2) (x1 x2 : ibig) :
  @ibig_ok A1 x1 -> @ibig_ok A2 x2 -> @ival A1 x1 = @ival A2 x2 -> @ibig_serialize A1 x1 = @ibig_serialize A2 x2.
Proof. exact (serialize_platform_i A1 A2 O1 O2 x1 x2). Qed.
Print Assumptions C36_ibig_platform_independent.

(** Digits without a trailing zero, with or without a length hint, are read back;
    a number that is too large for the platform is the documented panic. *)
Theorem C36_ubig_deserialize (A : Arch) (AOK : ArchOk A) (es : list Z) (h : option Z) :
  digits_ok (2 ^ 64) es -> es = [] \/ last es 0 <> 0 -> h = None \/ h = Some (Z.of_nat (length es)) ->
  yields (ubig_deserialize h es) (num (2 ^ 64) es).
Proof. exact (deserialize_canonical es h). Qed.
Print Assumptions C36_ubig_deserialize.

(** Either sign; a negative zero becomes zero ([iyields] includes [ibig_ok]). *)
Theorem C36_ibig_deserialize (A : Arch) (AOK : ArchOk A) (s : sign) (es : list Z) (h : option Z) :
  digits_ok (2 ^ 64) es -> es = [] \/ last es 0 <> 0 -> h = None \/ h = Some (Z.of_nat (length es)) ->
  iyields (ibig_deserialize s h es) (sign_val s * num (2 ^ 64) es).
Proof. exact (ibig_deserialize_canonical s h es). Qed.
Print Assumptions C36_ibig_deserialize.

(** With trailing zeros the same holds as long as all words fit a buffer.  Beyond
    that, the code panics whatever the number is: see the next theorem. *)
Theorem C36_ubig_deserialize_padded_partial (A : Arch) (AOK : ArchOk A) (es : list Z) (h : option Z) :
  digits_ok (2 ^ 64) es -> h = None \/ h = Some (Z.of_nat (length es)) ->
  (64 * Z.of_nat (length es) <= wbits * (MAX_LEN + 4) -> yields (ubig_deserialize h es) (num (2 ^ 64) es)) /\
  (wbits * (MAX_LEN + 4) < 64 * Z.of_nat (length es) -> ubig_deserialize h es = Panic NumberTooLarge).
Proof. exact (deserialize_padded es h). Qed.
Print Assumptions C36_ubig_deserialize_padded_partial.

Theorem C36_ibig_deserialize_padded_partial (A : Arch) (AOK : ArchOk A) (es : list Z) (h : option Z) (s : sign) :
  digits_ok (2 ^ 64) es -> h = None \/ h = Some (Z.of_nat (length es)) ->
  (64 * Z.of_nat (length es) <= wbits * (MAX_LEN + 4) -> iyields (ibig_deserialize s h es) (sign_val s * num (2 ^ 64) es)) /\
  (wbits * (MAX_LEN + 4) < 64 * Z.of_nat (length es) -> ibig_deserialize s h es = Panic NumberTooLarge).
Proof. exact (ibig_deserialize_padded es h s). Qed.
Print Assumptions C36_ibig_deserialize_padded_partial.

(** Enough zeros: the number is 0, but the code panics. *)
Theorem C36_padded_refuted (A : Arch) (AOK : ArchOk A) : exists n,
  Z.of_nat (length (repeat 0 n)) < 2 ^ ubits /\ num (2 ^ 64) (repeat 0 n) = 0 /\
  ubig_deserialize None (repeat 0 n) = Panic NumberTooLarge.
Proof. exact padded_panics. Qed.
Print Assumptions C36_padded_refuted.

Theorem C36_ubig_roundtrip (A : Arch) (AOK : ArchOk A) (u : ubig) (h : option Z) :
  ubig_ok u -> exists n es, ubig_serialize u = Ok (n, es) /\
    (h = None \/ h = Some n -> returns (ubig_deserialize h es) (uval u)).
Proof. exact (ubig_roundtrip u h). Qed.
Print Assumptions C36_ubig_roundtrip.

Theorem C36_ibig_roundtrip (A : Arch) (AOK : ArchOk A) (x : ibig) (h : option Z) :
  ibig_ok x -> exists s n es, ibig_serialize x = Ok (s, (n, es)) /\
    (h = None \/ h = Some n -> ireturns (ibig_deserialize s h es) (ival x)).
Proof. exact (ibig_roundtrip x h). Qed.
Print Assumptions C36_ibig_roundtrip.

Example C36_values : let A := arch16 in
  let a := lg [1; 2; 3; 4; 5] in ubig_ok a /\
  ubig_serialize a = Ok (2, [1 + 2 * 2 ^ 16 + 3 * 2 ^ 32 + 4 * 2 ^ 48; 5]) /\
  ubig_serialize (Small 0) = Ok (0, []) /\
  ibig_serialize (neg a) = Ok (Negative, (2, [1 + 2 * 2 ^ 16 + 3 * 2 ^ 32 + 4 * 2 ^ 48; 5])) /\
  uresult (ubig_deserialize (Some 2) [1 + 2 * 2 ^ 16 + 3 * 2 ^ 32 + 4 * 2 ^ 48; 5]) = Ok (uval a) /\
  uresult (ubig_deserialize None [1 + 2 * 2 ^ 16 + 3 * 2 ^ 32 + 4 * 2 ^ 48; 5; 0]) = Ok (uval a) /\
  uresult (ubig_deserialize (Some 3) [7; 0; 0]) = Ok 7 /\
  ibig_deserialize Negative (Some 1) [0] = Ok (pos (Small 0)) /\
  ubig_deserialize (Some 2) [1] = Panic Internal.
Proof. cbv zeta. sample. Qed.

Example C36_platforms :
  let u64 := @lg [5; 7] in let u32 := @lg [5; 0; 7] in
  @ubig_ok arch64 u64 /\ @ubig_ok arch32 u32 /\ @uval arch64 u64 = @uval arch32 u32 /\
  @ubig_serialize arch64 u64 = Ok (2, [5; 7]) /\ @ubig_serialize arch32 u32 = Ok (2, [5; 7]).
Proof. cbv zeta. sample. Qed.
