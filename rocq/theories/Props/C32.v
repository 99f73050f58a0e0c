(** C32: modular ring operations. *)
From Verif Require Import Model.Base Model.Words Model.Buffer Model.UBig Model.IBig Model.Modular
  Spec.Val Spec.Num Spec.Prim Spec.Modular Proofs.ModularApi Proofs.ModularRoom Proofs.ModularTheorems Proofs.Samples.

Theorem C32_add (A : Arch) (AOK : ArchOk A) (r : ring) (n : Z) (x : modulo) (a : Z) (y : modulo) (b : Z) :
  element r n x a -> element r n y b -> Forall (fun op => yields_mod r n (op x y) (a + b)) adds.
Proof. exact (adds_spec r n x a y b). Qed.
Print Assumptions C32_add.

Theorem C32_sub (A : Arch) (AOK : ArchOk A) (r : ring) (n : Z) (x : modulo) (a : Z) (y : modulo) (b : Z) :
  element r n x a -> element r n y b -> Forall (fun op => yields_mod r n (op x y) (a - b)) subs.
Proof. exact (subs_spec r n x a y b). Qed.
Print Assumptions C32_sub.

(** The double-length product is kept in scratch memory: the product is right if there is
    room for it in the address space, and otherwise the operation panics. *)
Theorem C32_mul (A : Arch) (AOK : ArchOk A) (r : ring) (n : Z) (x : modulo) (a : Z) (y : modulo) (b : Z) :
  element r n x a -> element r n y b -> Forall (fun op => yields_mod_if (room_for_mul n) r n (op x y) (a * b)) muls.
Proof. exact (muls_spec r n x a y b). Qed.
Print Assumptions C32_mul.

(** On 64-bit machines there always is room, and everywhere if the square of the modulus
    is not too large a number. *)
Theorem C32_mul_room (A : Arch) (AOK : ArchOk A) (n : Z) :
  1 <= n < MAXV -> ubits = 64 \/ n * n < MAXV -> room_for_mul n = true.
Proof. exact (mul_room_often n). Qed.
Print Assumptions C32_mul_room.

(** On 32-bit machines there is not always room: in some ring, 2 cannot be multiplied by 3. *)
Theorem C32_mul_refuted : exists (A : Arch) (AOK : ArchOk A) r n x y, wbits = 32 /\ ubits = 32 /\ element r n x 2 /\ element r n y 3 /\
  Forall (fun op => op x y = Panic OutOfMemory) muls.
Proof. exact muls_refuted. Qed.
Print Assumptions C32_mul_refuted.

Theorem C32_neg (A : Arch) (AOK : ArchOk A) (r : ring) (n : Z) (x : modulo) (a : Z) :
  element r n x a -> yields_mod r n (mod_neg_v x) (- a) /\ yields_mod r n (mod_neg_r x) (- a).
Proof. exact (neg_spec r n x a). Qed.
Print Assumptions C32_neg.

Theorem C32_eq (A : Arch) (AOK : ArchOk A) (r : ring) (n : Z) (x : modulo) (a : Z) (y : modulo) (b : Z) :
  element r n x a -> element r n y b -> modulo_eq x y = Ok (a =? b).
Proof. exact (eq_spec r n x a y b). Qed.
Print Assumptions C32_eq.

Theorem C32_clone (A : Arch) (r : ring) (n : Z) (x y : modulo) (b : Z) :
  element r n y b -> element r n (mod_clone y) b /\ element r n (mod_clone_from x y) b.
Proof. exact (clone_spec r n x y b). Qed.
Print Assumptions C32_clone.

(** [x] and [y] in the ring of [n], and the value of an operation on them. *)
Definition C32_run {A : Arch} (n x y : ubig) (op : modulo -> modulo -> res modulo) : res Z :=
  r <- ring_new 1 n ;; a <- ubig_into_modulo x r ;; b <- ubig_into_modulo y r ;; m <- op a b ;; u <- residue m ;; Ok (uval u).

Example C32_hypotheses : let A := arch64 in exists r x y, ring_addr r = 3 /\ element r 100 x 70 /\ element r 100 y 53.
Proof.
  cbv zeta. destruct (@ModularProofs.ring_new_ring arch64 _ 3 (Small 100)) as (r & _ & Hr & Ea); [sample|discriminate|]. exists r.
  destruct (@unsigned_into_modulo_spec arch64 _ r 100 8 70 Hr) as (x & _ & Hx); [left; reflexivity|split; [discriminate|reflexivity]|].
  destruct (@unsigned_into_modulo_spec arch64 _ r 100 8 53 Hr) as (y & _ & Hy); [left; reflexivity|split; [discriminate|reflexivity]|].
  exists x, y. split; [exact Ea|]. split; [exact Hx|exact Hy].
Qed.
Example C32_small : let A := arch16 in
  map (C32_run (Small 100) (Small 70) (Small 53)) (adds ++ subs ++ muls) =
  repeat (Ok 23) 6 ++ repeat (Ok 17) 6 ++ repeat (Ok 10) 6.
Proof. cbv zeta. sample. Qed.
Example C32_large : let A := arch16 in
  map (C32_run (lg [1; 1]) (lg [0; 1]) (Small 65535)) [mod_add_vv; mod_sub_rv; mod_mul_rr] = [Ok 65534; Ok 1; Ok 2].
Proof. cbv zeta. sample. Qed.
Example C32_room : let A := arch16 in room_for_mul 65537 = true /\ room_for_mul (2 ^ 20000) = true /\ room_for_mul (2 ^ 60000) = false.
Proof. cbv zeta. sample. Qed.
