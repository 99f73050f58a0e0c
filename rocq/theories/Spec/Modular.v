(** Rings and their elements. *)
From Verif Require Import Model.Base Model.UBig Model.Modular Spec.Val Spec.Num.

Section Modular.
Context {A : Arch}.

(** [r] is a ring made by [ModuloRing::new(n)]. *)
Definition is_ring (r : ring) (n : Z) : Prop :=
  exists u, ubig_ok u /\ uval u = n /\ ring_new (ring_addr r) u = Ok r.

(** [x] is the number of residue [a] in the ring [r]: it is stored as [a] shifted left
    like the modulus. *)
Definition stored (r : ring) (x : modulo) (a : Z) : Prop :=
  match x, r with
  | MSmall m, RingSmall s => ms_ring m = s /\ ms_raw m = a * 2 ^ rs_shift s
  | MLarge m, RingLarge s =>
      ml_ring m = s /\ wf (ml_value m) /\ length (ml_value m) = length (rl_modulus s) /\
      val (ml_value m) = a * 2 ^ rl_shift s
  | _, _ => False
  end.

(** [x] is the element [a] of the ring [r] of integers modulo [n]. *)
Definition element (r : ring) (n : Z) (x : modulo) (a : Z) : Prop :=
  is_ring r n /\ 0 <= a < n /\ stored r x a.

(** The computation returns the element of residue [z mod n]. *)
Definition yields_mod (r : ring) (n : Z) (m : res modulo) (z : Z) : Prop :=
  exists x, m = Ok x /\ element r n x (z mod n).

(** The ring that [x] refers to. *)
Definition ring_of (x : modulo) : ring :=
  match x with MSmall m => RingSmall (ms_ring m) | MLarge m => RingLarge (ml_ring m) end.

(** Room left by the ring above [x] when normalizing it: only multi-word rings
    shift numbers of arbitrary size. *)
Definition ring_room (r : ring) (z : Z) : Prop :=
  match r with RingSmall _ => True | RingLarge s => z * 2 ^ rl_shift s < MAXV end.

(** ** Scratch memory *)

(** The words of a number, and the scratch words for the product of two numbers of [k]
    words (src/mul/karatsuba.rs:23-36, src/mul/toom_3.rs:31-55). *)
Definition words_in (n : Z) : Z := Z.log2 n / wbits + 1.
Definition product_scratch (k : Z) : Z :=
  if k <=? 24 then 0 else if k <=? 192 then 2 * k + 2 * Z.log2_up k else 4 * k + 13 * Z.log2_up k.

(** A block of [k] words fits the address space: it has at most [isize::MAX] bytes. *)
Definition block_fits (k : Z) : bool := k * (wbits / 8) <? 2 ^ (ubits - 1).

(** The double-length product modulo [n] and the scratch memory to compute it fit. *)
Definition mul_words (n : Z) : Z := 2 * words_in n + product_scratch (words_in n).
Definition room_for_mul (n : Z) : bool := (n <? B) || block_fits (mul_words n).

(** The same together with a table of powers for the exponent [e]: it has fewer entries
    than half the bits of [e]. *)
Definition room_for_pow (n e : Z) : bool :=
  (n <? B) || (e <? 2) || block_fits ((Z.log2 e + 1) / 2 * words_in n + mul_words n).

(** The computation returns the element of residue [z mod n] if there is room for it. *)
Definition yields_mod_if (room : bool) (r : ring) (n : Z) (m : res modulo) (z : Z) : Prop :=
  if room then yields_mod r n m z else m = Panic OutOfMemory.

(** The computation stops for lack of room. *)
Definition no_memory {T} (room : bool) (m : res T) : Prop := m = Panic OutOfMemory /\ room = false.

(** The multiplicative inverse of [a], if there is one. *)
Definition inverse_result (r : ring) (n : Z) (m : res (option modulo)) (a : Z) : Prop :=
  (Z.gcd a n = 1 -> exists y b, m = Ok (Some y) /\ element r n y b /\ (a * b) mod n = 1 mod n) /\
  (Z.gcd a n <> 1 -> m = Ok None).

(** [a] divided by [b]. *)
Definition quotient_result (r : ring) (n : Z) (m : res modulo) (a b : Z) : Prop :=
  (Z.gcd b n = 1 -> exists y c, m = Ok y /\ element r n y c /\ (c * b) mod n = a mod n) /\
  (Z.gcd b n <> 1 -> m = Panic NonInvertible).

(** The computation gave up because a number became too large, in a ring with a modulus of
    more than half the largest number. *)
Definition gave_up {T} (n : Z) (m : res T) : Prop := m = Panic NumberTooLarge /\ MAXV <= 2 * n.

(** [a] divided by [b], or the computation stopped because a number became too large or,
    with the inverse of [b] in hand, because there is no room for the product. *)
Definition quotient_or_stop (r : ring) (n : Z) (m : res modulo) (a b : Z) : Prop :=
  (room_for_mul n = true /\ quotient_result r n m a b) \/
  (room_for_mul n = false /\ Z.gcd b n = 1 /\ m = Panic OutOfMemory) \/
  (room_for_mul n = false /\ Z.gcd b n <> 1 /\ m = Panic NonInvertible) \/
  gave_up n m.

(** All the ways to write an operation. *)
Definition adds : list (modulo -> modulo -> res modulo) :=
  [mod_add_vv; mod_add_vr; mod_add_rv; mod_add_rr; mod_add_assign_v; mod_add_assign_r].
Definition subs : list (modulo -> modulo -> res modulo) :=
  [mod_sub_vv; mod_sub_vr; mod_sub_rv; mod_sub_rr; mod_sub_assign_v; mod_sub_assign_r].
Definition muls : list (modulo -> modulo -> res modulo) :=
  [mod_mul_vv; mod_mul_vr; mod_mul_rv; mod_mul_rr; mod_mul_assign_v; mod_mul_assign_r].
Definition divs : list (modulo -> modulo -> res modulo) :=
  [mod_div_vv; mod_div_vr; mod_div_rv; mod_div_rr; mod_div_assign_v; mod_div_assign_r].

End Modular.
