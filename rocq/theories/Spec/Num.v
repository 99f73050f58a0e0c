(** Meaning of UBig and IBig values and the invariants of their representation.
    Independent of the model's operations. *)
From Verif Require Import Model.Base Model.Buffer Model.UBig Model.IBig Spec.Val.

Section Num.
Context {A : Arch}.

(** The number a UBig stands for. *)
Definition uval (u : ubig) : Z :=
  match u with Small w => w | Large b => val (words b) end.

(** The largest capacity of a number of [n] words: a quarter plus four words to spare
    and not more than MAX_LEN + 4, unless a request for an eighth plus two words to
    spare was answered with more. *)
Definition max_cap (n : Z) : Z :=
  Z.max (Z.min (n + n / 4 + 4) (MAX_LEN + 4)) (vec_cap (Z.min (n + n / 8 + 2) (MAX_LEN + 4))).

(** The representation invariant (src/ubig.rs:13-24): a number of one word is
    [Small]; a larger one has no leading zero word, at most MAX_LEN words, and
    a capacity that is at least its length and at most [max_cap] of it. *)
Definition ubig_ok (u : ubig) : Prop :=
  match u with
  | Small w => 0 <= w < B
  | Large b =>
      wf (words b) /\ (2 <= length (words b))%nat /\ last (words b) 0 <> 0 /\
      len (words b) <= MAX_LEN /\
      len (words b) <= cap b <= max_cap (len (words b))
  end.

(** The first number that is too large: 2^MAX_BIT_LEN. *)
Definition MAXV : Z := 2 ^ (wbits * MAX_LEN).

Definition ival (x : ibig) : Z := sign_val (isign x) * uval (imag x).

(** Zero is positive. *)
Definition ibig_ok (x : ibig) : Prop :=
  ubig_ok (imag x) /\ (uval (imag x) = 0 -> isign x = Positive).

(** The result of an operation whose mathematical value is [z >= 0]: a
    canonical representation of [z] when there is one, and the documented panic
    otherwise. *)
Definition yields (r : res ubig) (z : Z) : Prop :=
  (z < MAXV -> exists u, r = Ok u /\ ubig_ok u /\ uval u = z) /\
  (MAXV <= z -> r = Panic NumberTooLarge).

Definition iyields (r : res ibig) (z : Z) : Prop :=
  (Z.abs z < MAXV -> exists x, r = Ok x /\ ibig_ok x /\ ival x = z) /\
  (MAXV <= Z.abs z -> r = Panic NumberTooLarge).

(** The result of an operation that never panics. *)
Definition returns (r : res ubig) (z : Z) : Prop := exists u, r = Ok u /\ ubig_ok u /\ uval u = z.
Definition ireturns (r : res ibig) (z : Z) : Prop := exists x, r = Ok x /\ ibig_ok x /\ ival x = z.

(** The same for operations that also panic when the exact result is negative. *)
Definition yields_nat (r : res ubig) (z : Z) : Prop :=
  (0 <= z -> yields r z) /\ (z < 0 -> r = Panic NegativeUBig).

(** The same for operations that compute over signed numbers and then convert to
    an unsigned one: an intermediate result that is too large is reported first. *)
Definition yields_unsigned (r : res ubig) (z : Z) : Prop :=
  (0 <= z -> yields r z) /\
  (z < 0 -> - z < MAXV -> r = Panic NegativeUBig) /\
  (z < 0 -> MAXV <= - z -> r = Panic NumberTooLarge).

(** Results of division by [d]. *)
Definition div_yields (d : Z) (r : res ubig) (z : Z) : Prop :=
  (d = 0 -> r = Panic DivideByZero) /\
  (d <> 0 -> exists u, r = Ok u /\ ubig_ok u /\ uval u = z).

Definition div_rem_yields (d : Z) (r : res (ubig * ubig)) (z1 z2 : Z) : Prop :=
  (d = 0 -> r = Panic DivideByZero) /\
  (d <> 0 -> exists u1 u2, r = Ok (u1, u2) /\ ubig_ok u1 /\ ubig_ok u2 /\ uval u1 = z1 /\ uval u2 = z2).

Definition idiv_yields (d : Z) (r : res ibig) (z : Z) : Prop :=
  (d = 0 -> r = Panic DivideByZero) /\
  (d <> 0 -> exists x, r = Ok x /\ ibig_ok x /\ ival x = z).

Definition idiv_rem_yields (d : Z) (r : res (ibig * ibig)) (z1 z2 : Z) : Prop :=
  (d = 0 -> r = Panic DivideByZero) /\
  (d <> 0 -> exists x1 x2, r = Ok (x1, x2) /\ ibig_ok x1 /\ ibig_ok x2 /\ ival x1 = z1 /\ ival x2 = z2).

(** Two computations return the same number or panic in the same way. *)
Definition agree (r1 r2 : res ubig) : Prop :=
  match r1, r2 with
  | Ok u, Ok v => uval u = uval v
  | Panic p, Panic q => p = q
  | _, _ => False
  end.

Definition iagree (r1 r2 : res ibig) : Prop :=
  match r1, r2 with
  | Ok x, Ok y => ival x = ival y
  | Panic p, Panic q => p = q
  | _, _ => False
  end.

End Num.

(** Euclidean division of integers: the quotient [sgn y * (x / |y|)] and the remainder [x mod |y|]. *)
Definition ediv (x y : Z) : Z := Z.sgn y * (x / Z.abs y).
Definition emod (x y : Z) : Z := x mod Z.abs y.
