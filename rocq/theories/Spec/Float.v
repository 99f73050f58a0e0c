(** Meaning of IEEE 754 binary bit patterns and of rounding to nearest, ties to
    even.  Independent of the model's operations. *)
From Coq Require Import ZArith Bool.
Open Scope Z_scope.

(** A finite number is (-1)^s * m * 2^e. *)
Inductive fval := Finite (s : bool) (m e : Z) | Infinite (s : bool) | NotANumber.

(** Bit patterns of a format with [p] bits of precision (one of them implicit) and
    exponents below [emax]: the fraction takes [p - 1] bits, the biased exponent
    takes values below 2 * emax, and the sign is above them. *)
Definition decode (p emax bits : Z) : fval :=
  let frac := bits mod 2 ^ (p - 1) in
  let ex := (bits / 2 ^ (p - 1)) mod (2 * emax) in
  let s := 0 <? bits / 2 ^ (p - 1) / (2 * emax) in
  if ex =? 2 * emax - 1 then (if frac =? 0 then Infinite s else NotANumber)
  else if ex =? 0 then Finite s frac (3 - emax - p)
  else Finite s (2 ^ (p - 1) + frac) (ex + 2 - emax - p).

(** The finite number with bit pattern [bits] is the integer with sign [neg] and
    magnitude [v]. *)
Definition is_finite (p emax bits : Z) (neg : bool) (v : Z) : Prop :=
  match decode p emax bits with
  | Finite s m e => s = neg /\ (if 0 <=? e then v = m * 2 ^ e else v * 2 ^ (- e) = m)
  | _ => False
  end.

(** Integers [m * 2^e] with [m] of [p] bits. *)
Definition precise (p v : Z) : Prop := exists m e, 0 <= e /\ 0 <= m < 2 ^ p /\ v = m * 2 ^ e.

(** [v] is nearest to [n] among the numbers [m * 2^e] and [m / 2^k] with [m] of
    [p] bits, and in a tie the significand of [v] is even. *)
Definition nearest_even (p n v : Z) : Prop :=
  precise p v /\
  (forall w, precise p w -> Z.abs (n - v) <= Z.abs (n - w)) /\
  (forall m k, 0 <= k -> 0 <= m < 2 ^ p -> Z.abs (n - v) * 2 ^ k <= Z.abs (n * 2 ^ k - m)) /\
  (forall w, precise p w -> w <> v -> Z.abs (n - w) = Z.abs (n - v) ->
     exists m e, 0 <= e /\ 2 ^ (p - 1) <= m < 2 ^ p /\ v = m * 2 ^ e /\ Z.even m = true).

(** The bit pattern of the conversion of an integer of magnitude [n]: the nearest
    number when its exponent is in range, and infinity otherwise. *)
Definition rounds_to (p emax : Z) (neg : bool) (n bits : Z) : Prop :=
  exists v, nearest_even p n v /\
    if v <? 2 ^ emax then is_finite p emax bits neg v else decode p emax bits = Infinite neg.
