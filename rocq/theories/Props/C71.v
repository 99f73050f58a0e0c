(** C71: comparisons, conversions to primitive types and serialization are fast. *)
From Coq Require Import ZArith List Lia.
From Verif Require Import Model.Base Model.Words Model.Buffer Model.UBig Model.IBig Model.Convert Model.Float Model.Serde
  Model.Cost Model.CostConvert Spec.Val Spec.Num Proofs.CostConvertProofs Proofs.Samples.
Import ListNotations.
Open Scope Z_scope.

(** Model/CostConvert.v repeats src/cmp.rs and parts of src/convert.rs and src/serde.rs with
    the counter of Model/Cost.v.  The counter changes nothing. *)
Theorem C71_same (A : Arch) (a b : ubig) (x y : ibig) (tb : Z) (f : ffmt) (s : sign) (hint : option Z) (seq : list Z) :
  (snd (c_ubig_cmp a b) = ubig_cmp a b /\ snd (c_ibig_cmp x y) = ibig_cmp x y /\
   snd (c_ubig_equal a b) = Ok (ubig_eqb a b) /\ snd (c_ibig_equal x y) = Ok (ibig_eqb x y)) /\
  (snd (c_ubig_try_to_unsigned tb a) = ubig_try_to_unsigned tb a /\ snd (c_ubig_try_to_signed tb a) = ubig_try_to_signed tb a /\
   snd (c_ibig_try_to_unsigned tb x) = ibig_try_to_unsigned tb x /\ snd (c_ibig_try_to_signed tb x) = ibig_try_to_signed tb x) /\
  (snd (c_ubig_to_float f a) = ubig_to_float f a /\ snd (c_ibig_to_float f x) = ibig_to_float f x) /\
  (snd (c_ubig_serialize a) = ubig_serialize a /\ snd (c_ibig_serialize x) = ibig_serialize x /\
   snd (c_ubig_deserialize hint seq) = ubig_deserialize hint seq /\ snd (c_ibig_deserialize s hint seq) = ibig_deserialize s hint seq).
Proof. exact (convert_same a b x y tb f s hint seq). Qed.
Print Assumptions C71_same.

(** Numbers with different numbers of words are compared in one step. *)
Theorem C71_ubig_cmp (A : Arch) (AOK : ArchOk A) (a b : ubig) (k : Z) (c : comparison) :
  1 <= ulen a -> 1 <= ulen b -> c_ubig_cmp a b = (k, Ok c) ->
  ubig_cmp a b = Ok c /\ 0 <= k <= Z.min (ulen a) (ulen b) + 1 /\ (ulen a <> ulen b -> k <= 1).
Proof. exact (ubig_cmp_steps a b k c). Qed.
Print Assumptions C71_ubig_cmp.

Theorem C71_ubig_equal (A : Arch) (AOK : ArchOk A) (a b : ubig) (k : Z) (c : bool) :
  1 <= ulen a -> 1 <= ulen b -> c_ubig_equal a b = (k, Ok c) ->
  ubig_eqb a b = c /\ 0 <= k <= Z.min (ulen a) (ulen b) + 1 /\ (ulen a <> ulen b -> k <= 1).
Proof. exact (ubig_equal_steps a b k c). Qed.
Print Assumptions C71_ubig_equal.

Theorem C71_ibig_cmp (A : Arch) (AOK : ArchOk A) (x y : ibig) (k : Z) (c : comparison) :
  1 <= ulen (imag x) -> 1 <= ulen (imag y) -> c_ibig_cmp x y = (k, Ok c) ->
  ibig_cmp x y = Ok c /\ 0 <= k <= Z.min (ulen (imag x)) (ulen (imag y)) + 1 /\
  (isign x <> isign y \/ ulen (imag x) <> ulen (imag y) -> k <= 1).
Proof. exact (ibig_cmp_steps x y k c). Qed.
Print Assumptions C71_ibig_cmp.

Theorem C71_ibig_equal (A : Arch) (AOK : ArchOk A) (x y : ibig) (k : Z) (c : bool) :
  1 <= ulen (imag x) -> 1 <= ulen (imag y) -> c_ibig_equal x y = (k, Ok c) ->
  ibig_eqb x y = c /\ 0 <= k <= Z.min (ulen (imag x)) (ulen (imag y)) + 1 /\
  (isign x <> isign y \/ ulen (imag x) <> ulen (imag y) -> k <= 1).
Proof. exact (ibig_equal_steps x y k c). Qed.
Print Assumptions C71_ibig_equal.

(** Conversion to a primitive integer type of [tb] bits, however long the number. *)
Theorem C71_ubig_primitive (A : Arch) (AOK : ArchOk A) (f : Z -> ubig -> counted (option Z)) (g : Z -> ubig -> res (option Z)) (tb : Z) (u : ubig) (k : Z) (o : option Z) :
  In (f, g) [(c_ubig_try_to_unsigned, ubig_try_to_unsigned); (c_ubig_try_to_signed, ubig_try_to_signed)] ->
  0 <= tb -> f tb u = (k, Ok o) -> g tb u = Ok o /\ 0 <= k <= tb / 2 + 2.
Proof. exact (ubig_primitive_steps f g tb u k o). Qed.
Print Assumptions C71_ubig_primitive.

Theorem C71_ibig_primitive (A : Arch) (AOK : ArchOk A) (f : Z -> ibig -> counted (option Z)) (g : Z -> ibig -> res (option Z)) (tb : Z) (x : ibig) (k : Z) (o : option Z) :
  In (f, g) [(c_ibig_try_to_unsigned, ibig_try_to_unsigned); (c_ibig_try_to_signed, ibig_try_to_signed)] ->
  0 <= tb -> f tb x = (k, Ok o) -> g tb x = Ok o /\ 0 <= k <= tb / 2 + 2.
Proof. exact (ibig_primitive_steps f g tb x k o). Qed.
Print Assumptions C71_ibig_primitive.

(** Conversion to floating point takes bounded time: numbers that are too long become
    infinity at once, and the others have at most 1024 bits. *)
Theorem C71_ubig_float (A : Arch) (AOK : ArchOk A) (f : ffmt) (u : ubig) (k v : Z) :
  In f [f32; f64] -> c_ubig_to_float f u = (k, Ok v) -> ubig_to_float f u = Ok v /\ 0 <= k <= 400.
Proof. exact (ubig_float_steps f u k v). Qed.
Print Assumptions C71_ubig_float.

Theorem C71_ibig_float (A : Arch) (AOK : ArchOk A) (f : ffmt) (x : ibig) (k v : Z) :
  In f [f32; f64] -> c_ibig_to_float f x = (k, Ok v) -> ibig_to_float f x = Ok v /\ 0 <= k <= 400.
Proof. exact (ibig_float_steps f x k v). Qed.
Print Assumptions C71_ibig_float.

Theorem C71_ubig_serialize (A : Arch) (AOK : ArchOk A) (u : ubig) (k : Z) (r : Z * list Z) :
  1 <= ulen u -> c_ubig_serialize u = (k, Ok r) -> ubig_serialize u = Ok r /\ 0 <= k <= 2 * ulen u.
Proof. exact (ubig_serialize_steps u k r). Qed.
Print Assumptions C71_ubig_serialize.

Theorem C71_ibig_serialize (A : Arch) (AOK : ArchOk A) (x : ibig) (k : Z) (r : sign * (Z * list Z)) :
  1 <= ulen (imag x) -> c_ibig_serialize x = (k, Ok r) -> ibig_serialize x = Ok r /\ 0 <= k <= 2 * ulen (imag x).
Proof. exact (ibig_serialize_steps x k r). Qed.
Print Assumptions C71_ibig_serialize.

(** With or without a size hint, linear in the number of elements. *)
Theorem C71_ubig_deserialize (A : Arch) (AOK : ArchOk A) (hint : option Z) (seq : list Z) (k : Z) (u : ubig) :
  c_ubig_deserialize hint seq = (k, Ok u) -> ubig_deserialize hint seq = Ok u /\ 0 <= k <= 15 * Z.of_nat (length seq) + 3.
Proof. exact (ubig_deserialize_steps hint seq k u). Qed.
Print Assumptions C71_ubig_deserialize.

Theorem C71_ibig_deserialize (A : Arch) (AOK : ArchOk A) (s : sign) (hint : option Z) (seq : list Z) (k : Z) (x : ibig) :
  c_ibig_deserialize s hint seq = (k, Ok x) -> ibig_deserialize s hint seq = Ok x /\ 0 <= k <= 15 * Z.of_nat (length seq) + 3.
Proof. exact (ibig_deserialize_steps s hint seq k x). Qed.
Print Assumptions C71_ibig_deserialize.

Example C71_compare : let A := arch16 in
  ubig_ok (lg [1; 2; 3]) /\ ulen (lg [1; 2; 3]) = 3 /\
  c_ubig_cmp (lg [1; 2; 3]) (lg [1; 2; 4]) = (4, Ok Lt) /\ c_ubig_cmp (lg [1; 2; 3]) (lg [1; 2; 3; 4]) = (1, Ok Lt) /\
  c_ubig_equal (lg [1; 2; 3]) (lg [1; 2; 3]) = (4, Ok true) /\ c_ubig_equal (lg [1; 2; 3]) (lg [1; 2; 3; 4]) = (1, Ok false) /\
  c_ibig_cmp (neg (lg [1; 2; 3])) (neg (lg [1; 2; 4])) = (4, Ok Gt) /\ c_ibig_equal (neg (lg [1; 2; 3])) (pos (lg [1; 2; 3])) = (1, Ok false).
Proof. cbv zeta. split; [sample|]. repeat (split; [reflexivity|]). reflexivity. Qed.

Example C71_primitive : let A := arch16 in
  c_ubig_try_to_unsigned 64 (lg [1; 2; 3]) = (27, Ok (Some (val [1; 2; 3]))) /\ c_ubig_try_to_unsigned 32 (lg [1; 2; 3]) = (1, Ok None) /\
  c_ubig_try_to_signed 64 (lg [1; 2; 3]) = (27, Ok (Some (val [1; 2; 3]))) /\ c_ibig_try_to_signed 128 (neg (lg [1; 2; 3; 4; 5])) = (49, Ok (Some (- val [1; 2; 3; 4; 5]))).
Proof. vm_compute. repeat (split; [reflexivity|]). reflexivity. Qed.

(** 8 words; 20 words, which are infinity; 4 words. *)
Example C71_float : let A := arch16 in
  c_ubig_to_float f64 (lg [1; 2; 3; 4; 5; 6; 7; 8]) = (60, Ok 5125096436077953034) /\
  c_ubig_to_float f32 (lg (repeat 5 20)) = (2, Ok (f_infinity f32)) /\ c_ubig_to_float f32 (lg [1; 0; 0; 7]) = (36, Ok 1491075072).
Proof. vm_compute. repeat (split; [reflexivity|]). reflexivity. Qed.

Definition C71_run {A : Arch} (m : counted ubig) : res (Z * Z) := let '(k, r) := m in u <- r ;; Ok (k, uval u).

Example C71_serde : let A := arch16 in
  c_ubig_serialize (lg [1; 2; 3; 4; 5; 6]) = (8, Ok (2, [val [1; 2; 3; 4]; val [5; 6]])) /\
  C71_run (c_ubig_deserialize (Some 2) [5; 7]) = Ok (31, val [5; 0; 0; 0; 7]) /\ C71_run (c_ubig_deserialize None [5; 7]) = Ok (33, val [5; 0; 0; 0; 7]) /\
  C71_run (c_ubig_deserialize (Some 1) [7]) = Ok (7, 7) /\ C71_run (c_ubig_deserialize (Some 0) []) = Ok (1, 0).
Proof. vm_compute. repeat (split; [reflexivity|]). reflexivity. Qed.
