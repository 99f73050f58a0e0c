(** C20: byte conversions round-trip. *)
From Verif Require Import Model.Base Model.Words Model.Memory Model.FastDivide Model.Mul Model.Div Model.Buffer Model.UBig Model.IBig Model.Convert Model.AddOps Model.MulOps Model.ShiftOps Model.Bits Model.DivOps Model.PrimOps
  Spec.Val Spec.Num Spec.Prim Spec.Digits
  Proofs.ConvertProofs Proofs.ApiProofs Proofs.DigitsProofs Proofs.Bounds Proofs.ApiProofs Proofs.Samples.

(** The number denoted by the bytes, leading zero bytes allowed.  A string too
    long for any buffer panics as too large even if its high bytes are zero. *)
Theorem C20_from_le_bytes (A : Arch) (AOK : ArchOk A) (bs : list Z) :
  digits_ok 256 bs ->
  (8 * Z.of_nat (length bs) <= wbits * (MAX_LEN + 4) -> yields (from_le_bytes bs) (num 256 bs)) /\
  (wbits * (MAX_LEN + 4) < 8 * Z.of_nat (length bs) -> from_le_bytes bs = Panic NumberTooLarge).
Proof. exact (from_le_bytes_full bs). Qed.
Print Assumptions C20_from_le_bytes.

Theorem C20_from_be_bytes (A : Arch) (AOK : ArchOk A) (bs : list Z) :
  digits_ok 256 bs ->
  (8 * Z.of_nat (length bs) <= wbits * (MAX_LEN + 4) -> yields (from_be_bytes bs) (num 256 (rev bs))) /\
  (wbits * (MAX_LEN + 4) < 8 * Z.of_nat (length bs) -> from_be_bytes bs = Panic NumberTooLarge).
Proof. exact (from_be_bytes_full bs). Qed.
Print Assumptions C20_from_be_bytes.

(** The shortest byte string. *)
Theorem C20_to_bytes (A : Arch) (AOK : ArchOk A) (u : ubig) :
  ubig_ok u ->
  exists bs, to_le_bytes u = Ok bs /\ to_be_bytes u = Ok (rev bs) /\
    digits_ok 256 bs /\ num 256 bs = uval u /\ (bs = [] \/ last bs 0 <> 0).
Proof. exact (to_bytes_full u). Qed.
Print Assumptions C20_to_bytes.

Theorem C20_shortest_unique (x y : list Z) :
  digits_ok 256 x -> digits_ok 256 y -> (x = [] \/ last x 0 <> 0) -> (y = [] \/ last y 0 <> 0) ->
  num 256 x = num 256 y -> x = y.
Proof. exact (bytes_unique x y). Qed.
Print Assumptions C20_shortest_unique.

Theorem C20_le_roundtrip (A : Arch) (AOK : ArchOk A) (u : ubig) :
  ubig_ok u -> exists bs, to_le_bytes u = Ok bs /\ returns (from_le_bytes bs) (uval u).
Proof. exact (le_bytes_roundtrip u). Qed.
Print Assumptions C20_le_roundtrip.

Theorem C20_be_roundtrip (A : Arch) (AOK : ArchOk A) (u : ubig) :
  ubig_ok u -> exists bs, to_be_bytes u = Ok bs /\ returns (from_be_bytes bs) (uval u).
Proof. exact (be_bytes_roundtrip u). Qed.
Print Assumptions C20_be_roundtrip.

Example C20_values : let A := arch64 in
  let bs := [1; 2; 3; 4; 5; 6; 7; 8; 9; 10; 0; 0] in let a := lg [578437695752307201; 2569] in
  ubig_ok a /\ uresult (from_le_bytes bs) = Ok (uval a) /\ to_le_bytes a = Ok [1; 2; 3; 4; 5; 6; 7; 8; 9; 10] /\
  to_be_bytes a = Ok [10; 9; 8; 7; 6; 5; 4; 3; 2; 1] /\ uresult (from_be_bytes (rev bs)) = Ok (uval a) /\ to_le_bytes (Small 0) = Ok [].
Proof. cbv zeta. sample. Qed.

