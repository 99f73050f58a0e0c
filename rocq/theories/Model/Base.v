(** Modelling vocabulary: build configuration, panics, checked arithmetic,
    slices.  Definitions only. *)
From Coq Require Export ZArith List Bool.
Export ListNotations.
Open Scope Z_scope.

(** Build configuration.  [wbits] is [Word::BITS] and [ubits] is [usize::BITS].
    src/arch/mod.rs:15-68 selects the word size independently of the pointer
    width when [force_bits] is set; src/arch/generic_{16,32,64}_bit/word.rs.
    [vec_cap n] is the capacity of [Vec::with_capacity(n)], which is documented to be at
    least [n]; src/buffer.rs:28. *)
Class Arch := mkArch { wbits : Z; ubits : Z; vec_cap : Z -> Z }.

(** The number of values of a [Word]: 2^WORD_BITS. E.g. src/primitive.rs:146 *)
Definition B {A : Arch} : Z := 2 ^ wbits.

(** Ways an operation can fail to return.  Everything that is not a documented
    panic of the public API ([assert!], [debug_assert!], failed [unwrap], slice
    index out of bounds, overflow of unchecked arithmetic, scratch memory
    exhausted, loop fuel exhausted) is [Internal]. E.g. src/ubig.rs:117 *)
Inductive panic : Set :=
| NumberTooLarge      (* src/ubig.rs:116-118 *)
| NegativeUBig        (* src/add_ops.rs: "negative UBig" *)
| DivideByZero        (* src/div_ops.rs:1646-1648 *)
| GcdOfZeros          (* src/gcd.rs *)
| InvalidRadix        (* src/radix.rs:24-28 *)
| ZeroModulus         (* src/modular/modulo_ring.rs:63 *)
| DifferentRings      (* src/modular/modulo.rs:61-63 *)
| NonInvertible       (* src/modular/div.rs:66, src/modular/pow.rs:56 *)
| EmptyRange          (* src/rand.rs:109,167,183 *)
| OutOfMemory         (* src/memory.rs:187-189 *)
| Internal.

Inductive res (T : Type) : Type :=
| Ok (x : T)
| Panic (p : panic).
Arguments Ok {T} x.
Arguments Panic {T} p.

Definition bind {S T} (m : res S) (k : S -> res T) : res T :=
  match m with
  | Ok x => k x
  | Panic p => Panic p
  end.

Notation "x <- m ;; k" := (bind m (fun x => k))
  (at level 61, m at next level, right associativity).
Notation "' p <- m ;; k" := (bind m (fun p => k))
  (at level 61, p pattern, m at next level, right associativity).

(** [assert!(b)] / [debug_assert!(b)]. E.g. src/add.rs:70 *)
Definition assert (b : bool) : res unit :=
  if b then Ok tt else Panic Internal.

Notation "'check' b ;; k" := (bind (assert b) (fun _ => k))
  (at level 61, b at next level, right associativity).

(** Plain [+ - *] on an unsigned type with [2^n] values: panics in debug builds
    when out of range. E.g. src/buffer.rs:80 *)
Definition checked (n : Z) (z : Z) : res Z :=
  if (0 <=? z) && (z <? 2 ^ n) then Ok z else Panic Internal.

(** E.g. src/bits.rs:33 *)
Definition word_chk {A : Arch} (z : Z) : res Z := checked wbits z.
(** E.g. src/mul_ops.rs:305 *)
Definition dword_chk {A : Arch} (z : Z) : res Z := checked (2 * wbits) z.
(** E.g. src/buffer.rs:166 *)
Definition usize_chk {A : Arch} (z : Z) : res Z := checked ubits z.

(** Slice operations. E.g. src/add.rs:101 *)
Definition split_at {T} (n : nat) (l : list T) : res (list T * list T) :=
  if (n <=? length l)%nat then Ok (firstn n l, skipn n l) else Panic Internal.

(** E.g. src/mul/karatsuba.rs:95 *)
Definition slice_to {T} (n : nat) (l : list T) : res (list T) :=
  if (n <=? length l)%nat then Ok (firstn n l) else Panic Internal.

(** E.g. src/mul/karatsuba.rs:104 *)
Definition slice_from {T} (n : nat) (l : list T) : res (list T) :=
  if (n <=? length l)%nat then Ok (skipn n l) else Panic Internal.

(** E.g. src/bits.rs:300 *)
Definition get {T} (i : nat) (l : list T) : res T :=
  match nth_error l i with
  | Some x => Ok x
  | None => Panic Internal
  end.

(** E.g. src/bits.rs:80 *)
Fixpoint upd {T} (i : nat) (v : T) (l : list T) : list T :=
  match l, i with
  | [], _ => []
  | _ :: t, O => v :: t
  | x :: t, S j => x :: upd j v t
  end.

(** E.g. src/bits.rs:80 *)
Definition set {T} (i : nat) (v : T) (l : list T) : res (list T) :=
  if (i <? length l)%nat then Ok (upd i v l) else Panic Internal.

(** src/sign.rs:10-15 *)
Inductive sign : Set := Positive | Negative.

(** src/sign.rs:19-29 *)
Definition sign_neg (s : sign) : sign :=
  match s with Positive => Negative | Negative => Positive end.

(** src/mul_ops.rs: impl Mul<Sign> for Sign. E.g. src/mul_ops.rs:141 *)
Definition sign_mul (s t : sign) : sign :=
  match s, t with
  | Positive, Positive => Positive
  | Positive, Negative => Negative
  | Negative, Positive => Negative
  | Negative, Negative => Positive
  end.

(** E.g. src/sign.rs:10 *)
Definition sign_eqb (s t : sign) : bool :=
  match s, t with
  | Positive, Positive | Negative, Negative => true
  | _, _ => false
  end.
