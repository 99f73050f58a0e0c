(** tests/bits.rs *)
From Verif Require Import Tests.Harness Model.Bits Model.PrimOps.

(** tests/bits.rs:7-20 *)
Definition test_bit (A : Arch) : bool := all
  [is_b (bit (u 0) 0) false; is_b (bit (u 0) 1000) false;
   is_b (bit (u 29) 0) true; is_b (bit (u 29) 1) false; is_b (bit (u 29) 4) true;
   is_b (bit (u 29) 5) false; is_b (bit (u 29) 1000) false;
   is_b (bit (u 0xffffffffffffffffffffffffffffffff) 127) true;
   is_b (bit (u 0xffffffffffffffffffffffffffffffff) 128) false].
Check passes test_bit.

(** Applies [op n] for each [(n, z)] of a list, and compares the result with [z]. *)
Fixpoint steps {A : Arch} (op : ubig -> Z -> res ubig) (a : ubig) (l : list (Z * Z)) : bool :=
  match l with
  | [] => true
  | (n, z) :: l => let r := op a n in is_u r z && match r with Ok a => steps op a l | Panic _ => false end
  end.

(** tests/bits.rs:22-40 *)
Definition test_set_bit (A : Arch) : bool :=
  steps set_bit (u 0)
   [(3, 8); (129, 0x200000000000000000000000000000008); (1, 0x20000000000000000000000000000000a);
    (1, 0x20000000000000000000000000000000a); (127, 0x28000000000000000000000000000000a);
    (194, 0x400000000000000028000000000000000000000000000000a)].
Check passes test_set_bit.

(** tests/bits.rs:42-60 *)
Definition test_clear_bit (A : Arch) : bool :=
  steps clear_bit (u 0x400000000000000028000000000000000000000000000000a)
   [(10000, 0x400000000000000028000000000000000000000000000000a); (194, 0x28000000000000000000000000000000a);
    (1, 0x280000000000000000000000000000008); (129, 0x80000000000000000000000000000008); (127, 8); (3, 0)].
Check passes test_clear_bit.

Definition is_oz (r : res (option Z)) (o : option Z) : bool :=
  match r, o with Ok (Some x), Some y => x =? y | Ok None, None => true | _, _ => false end.

(** tests/bits.rs:62-75 *)
Definition test_trailing_zeros (A : Arch) : bool := all
  [is_oz (ubig_trailing_zeros (u 0)) None; is_oz (ubig_trailing_zeros (u 0xf0000)) (Some 16);
   is_oz (ubig_trailing_zeros (u 0xfffffffffffffffffffff00000000000000000000000000000000000000000000000000)) (Some 200);
   is_oz (ibig_trailing_zeros (i 0)) None; is_oz (ibig_trailing_zeros (i 0xf0000)) (Some 16);
   is_oz (ibig_trailing_zeros (i (-0xf0000))) (Some 16)].
Check passes test_trailing_zeros.

(** tests/bits.rs:77-85 *)
Definition test_bit_len (A : Arch) : bool := all
  [is_z (ubig_bit_len (u 0)) 0; is_z (ubig_bit_len (u 0xf0000)) 20;
   is_z (ubig_bit_len (u 0xfffffffffffffffffffff00000000000000000000000000000000000000000000000000)) 284].
Check passes test_bit_len.

(** tests/bits.rs:87-106 *)
Definition test_is_power_of_two (A : Arch) : bool := all
  [is_b (is_power_of_two (u 0)) false; is_b (is_power_of_two (u 1)) true; is_b (is_power_of_two (u 16)) true;
   is_b (is_power_of_two (u 17)) false;
   is_b (is_power_of_two (u 0x4000000000000000000000000000000000000000000000)) true;
   is_b (is_power_of_two (u 0x5000000000000000000000000000000000000000000000)) false;
   is_b (is_power_of_two (u 0x4000000000000000000000010000000000000000000000)) false].
Check passes test_is_power_of_two.

(** tests/bits.rs:108-147 *)
Definition test_next_power_of_two (A : Arch) : bool :=
  forallb (fun '(a, b) => all_u [next_power_of_two_v (u a); next_power_of_two_r (u a)] b)
   [(0, 1); (16, 16); (17, 32); (0xffffffff, 0x100000000); (0xffffffffffffffff, 0x10000000000000000);
    (0xffffffffffffffffffffffffffffffff, 0x100000000000000000000000000000000);
    (0xf0000000000000000000000000000000, 0x100000000000000000000000000000000);
    (0xffffffffffffffff0000000000000000, 0x100000000000000000000000000000000);
    (0x100000000000000000000000000000000, 0x100000000000000000000000000000000);
    (0x100000000000000000000000000000001, 0x200000000000000000000000000000000);
    (0x100100000000000000000000000000000, 0x200000000000000000000000000000000)].
Check passes test_next_power_of_two.

(** tests/bits.rs:149-192 *)
Definition test_and_ubig (A : Arch) : bool :=
  forallb (fun '(a, b, c) =>
    all_u [ubig_and_rr (u a) (u b); ubig_and_vr (u a) (u b); ubig_and_rv (u a) (u b); ubig_and_vv (u a) (u b);
           ubig_and_assign_r (u a) (u b); ubig_and_assign_v (u a) (u b)] c)
   [(0xf0f0, 0xff00, 0xf000);
    (0xeeeeeeeeeeeeeeeeeeeeeeeeeeeeeeee, 0xff, 0xee);
    (0xff, 0xeeeeeeeeeeeeeeeeeeeeeeeeeeeeeeee, 0xee);
    (0xeeeeeeeeeeeeeeeeeeeeeeeeeeeeeeee, 0xdddddddddddddddddddddddddddddddddddddddddddddddddddddddddddddddd,
     0xcccccccccccccccccccccccccccccccc);
    (0xdddddddddddddddddddddddddddddddddddddddddddddddddddddddddddddddd, 0xeeeeeeeeeeeeeeeeeeeeeeeeeeeeeeee,
     0xcccccccccccccccccccccccccccccccc)].
Check passes test_and_ubig.

(** tests/bits.rs:194-237 *)
Definition test_or_ubig (A : Arch) : bool :=
  forallb (fun '(a, b, c) =>
    all_u [ubig_or_rr (u a) (u b); ubig_or_vr (u a) (u b); ubig_or_rv (u a) (u b); ubig_or_vv (u a) (u b);
           ubig_or_assign_r (u a) (u b); ubig_or_assign_v (u a) (u b)] c)
   [(0xf0f0, 0xff00, 0xfff0);
    (0xeeeeeeeeeeeeeeeeeeeeeeeeeeeeeeee, 0xff, 0xeeeeeeeeeeeeeeeeeeeeeeeeeeeeeeff);
    (0xff, 0xeeeeeeeeeeeeeeeeeeeeeeeeeeeeeeee, 0xeeeeeeeeeeeeeeeeeeeeeeeeeeeeeeff);
    (0xeeeeeeeeeeeeeeeeeeeeeeeeeeeeeeee, 0xdddddddddddddddddddddddddddddddddddddddddddddddddddddddddddddddd,
     0xddddddddddddddddddddddddddddddddffffffffffffffffffffffffffffffff);
    (0xdddddddddddddddddddddddddddddddddddddddddddddddddddddddddddddddd, 0xeeeeeeeeeeeeeeeeeeeeeeeeeeeeeeee,
     0xddddddddddddddddddddddddddddddddffffffffffffffffffffffffffffffff)].
Check passes test_or_ubig.

(** tests/bits.rs:239-282 *)
Definition test_xor_ubig (A : Arch) : bool :=
  forallb (fun '(a, b, c) =>
    all_u [ubig_xor_rr (u a) (u b); ubig_xor_vr (u a) (u b); ubig_xor_rv (u a) (u b); ubig_xor_vv (u a) (u b);
           ubig_xor_assign_r (u a) (u b); ubig_xor_assign_v (u a) (u b)] c)
   [(0xf0f0, 0xff00, 0xff0);
    (0xeeeeeeeeeeeeeeeeeeeeeeeeeeeeeeee, 0xff, 0xeeeeeeeeeeeeeeeeeeeeeeeeeeeeee11);
    (0xff, 0xeeeeeeeeeeeeeeeeeeeeeeeeeeeeeeee, 0xeeeeeeeeeeeeeeeeeeeeeeeeeeeeee11);
    (0xeeeeeeeeeeeeeeeeeeeeeeeeeeeeeeee, 0xdddddddddddddddddddddddddddddddddddddddddddddddddddddddddddddddd,
     0xdddddddddddddddddddddddddddddddd33333333333333333333333333333333);
    (0xdddddddddddddddddddddddddddddddddddddddddddddddddddddddddddddddd, 0xeeeeeeeeeeeeeeeeeeeeeeeeeeeeeeee,
     0xdddddddddddddddddddddddddddddddd33333333333333333333333333333333)].
Check passes test_xor_ubig.

(** tests/bits.rs:284-316 *)
Definition test_and_not_ubig (A : Arch) : bool :=
  forallb (fun '(a, b, c) =>
    all_u [ubig_and_not_rr (u a) (u b); ubig_and_not_vr (u a) (u b);
           ubig_and_not_rv (u a) (u b); ubig_and_not_vv (u a) (u b)] c)
   [(0xf0f0, 0xff00, 0xf0);
    (0xeeeeeeeeeeeeeeeeeeeeeeeeeeeeeeee, 0xff, 0xeeeeeeeeeeeeeeeeeeeeeeeeeeeeee00);
    (0xff, 0xeeeeeeeeeeeeeeeeeeeeeeeeeeeeeeee, 0x11);
    (0xeeeeeeeeeeeeeeeeeeeeeeeeeeeeeeee, 0xdddddddddddddddddddddddddddddddddddddddddddddddddddddddddddddddd,
     0x22222222222222222222222222222222);
    (0xdddddddddddddddddddddddddddddddddddddddddddddddddddddddddddddddd, 0xeeeeeeeeeeeeeeeeeeeeeeeeeeeeeeee,
     0xdddddddddddddddddddddddddddddddd11111111111111111111111111111111)].
Check passes test_and_not_ubig.

(** tests/bits.rs:318-327 *)
Definition test_not_ibig (A : Arch) : bool :=
  for_in (-20) 20 (fun a => all_i [ibig_not_r (i a); ibig_not_v (i a)] (Z.lnot a)).
Check passes test_not_ibig.

(** tests/bits.rs:329-351 *)
Definition test_and_ibig (A : Arch) : bool :=
  for_in (-20) 20 (fun a => for_in (-20) 20 (fun b => let x := i a in let y := i b in
    all_i [ibig_and_rr x y; ibig_and_rv x y; ibig_and_vr x y; ibig_and_vv x y;
           ibig_and_assign_r x y; ibig_and_assign_v x y] (Z.land a b))).
Check passes test_and_ibig.

(** tests/bits.rs:353-375 *)
Definition test_or_ibig (A : Arch) : bool :=
  for_in (-20) 20 (fun a => for_in (-20) 20 (fun b => let x := i a in let y := i b in
    all_i [ibig_or_rr x y; ibig_or_rv x y; ibig_or_vr x y; ibig_or_vv x y;
           ibig_or_assign_r x y; ibig_or_assign_v x y] (Z.lor a b))).
Check passes test_or_ibig.

(** tests/bits.rs:377-399 *)
Definition test_xor_ibig (A : Arch) : bool :=
  for_in (-20) 20 (fun a => for_in (-20) 20 (fun b => let x := i a in let y := i b in
    all_i [ibig_xor_rr x y; ibig_xor_rv x y; ibig_xor_vr x y; ibig_xor_vv x y;
           ibig_xor_assign_r x y; ibig_xor_assign_v x y] (Z.lxor a b))).
Check passes test_xor_ibig.

(** tests/bits.rs:401-415 *)
Definition test_and_not_ibig (A : Arch) : bool :=
  for_in (-20) 20 (fun a => for_in (-20) 20 (fun b => let x := i a in let y := i b in
    all_i [ibig_and_not_rr x y; ibig_and_not_rv x y; ibig_and_not_vr x y; ibig_and_not_vv x y] (Z.ldiff a b))).
Check passes test_and_not_ibig.

(** tests/bits.rs:417-478 *)
Definition test_bit_ops_ubig_unsigned (A : Arch) : bool := let x := u 0xf0f in all
  [all_z [ubig_and_unsigned 8 x 0xff; ubig_and_ref_unsigned 8 x 0xff] 0xf;
   is_u (ubig_and_assign_unsigned 8 x 0xff) 0xf;
   all_u [ubig_or_unsigned 8 x 0xff; ubig_or_ref_unsigned 8 x 0xff; ubig_or_assign_unsigned 8 x 0xff] 0xfff;
   all_u [ubig_xor_unsigned 8 x 0xff; ubig_xor_ref_unsigned 8 x 0xff; ubig_xor_assign_unsigned 8 x 0xff] 0xff0;
   all_u [ubig_and_not_unsigned 8 x 0xff; ubig_and_not_ref_unsigned 8 x 0xff] 0xf00].
Check passes test_bit_ops_ubig_unsigned.

(** tests/bits.rs:480-551 *)
Definition test_bit_ops_ubig_signed (A : Arch) : bool := let x := u 0xf0f in all
  [all_u [ubig_and_signed 32 x 0xff; ubig_and_ref_signed 32 x 0xff; ubig_and_assign_signed 32 x 0xff] 0xf;
   all_u [ubig_and_signed 32 x (-2); ubig_and_ref_signed 32 x (-2)] 0xf0e;
   all_u [ubig_or_signed 32 x 0xff; ubig_or_ref_signed 32 x 0xff; ubig_or_assign_signed 32 x 0xff] 0xfff;
   all_u [ubig_xor_signed 32 x 0xff; ubig_xor_ref_signed 32 x 0xff; ubig_xor_assign_signed 32 x 0xff] 0xff0;
   all_u [ubig_and_not_signed 32 x 0xff; ubig_and_not_ref_signed 32 x 0xff] 0xf00;
   all_u [ubig_and_not_signed 32 x (-2); ubig_and_not_ref_signed 32 x (-2)] 1].
Check passes test_bit_ops_ubig_signed.

(** tests/bits.rs:553-557 *)
Definition test_ubig_or_signed_overflow (A : Arch) : bool := should_panic (ubig_or_signed 32 (u 1) (-1)).
Check passes test_ubig_or_signed_overflow.

(** tests/bits.rs:559-563 *)
Definition test_ubig_xor_signed_overflow (A : Arch) : bool := should_panic (ubig_xor_signed 32 (u 1) (-1)).
Check passes test_ubig_xor_signed_overflow.

(** tests/bits.rs:565-638 *)
Definition test_bit_ops_ibig_primitive (A : Arch) : bool := let x := i 0xf0f in all
  [all_z [ibig_and_unsigned 8 x 0xff; ibig_and_ref_unsigned 8 x 0xff] 0xf;
   all_i [ibig_and_signed 32 x 0xff; ibig_and_ref_signed 32 x 0xff; ibig_and_assign_primitive true 32 x 0xff] 0xf;
   is_z (ibig_and_unsigned 8 (i (-1)) 0xff) 0xff;
   is_i (ibig_and_signed 32 (i (-1)) (-1)) (-1);
   all_i [ibig_or_primitive true 32 x 0xff; ibig_or_ref_primitive true 32 x 0xff; ibig_or_assign_primitive true 32 x 0xff] 0xfff;
   is_i (ibig_or_primitive true 32 (i 17) (-1)) (-1);
   all_i [ibig_xor_primitive true 32 x 0xff; ibig_xor_ref_primitive true 32 x 0xff; ibig_xor_primitive false 8 x 0xff;
          ibig_xor_ref_primitive false 8 x 0xff; ibig_xor_assign_primitive true 32 x 0xff] 0xff0;
   is_i (ibig_xor_primitive true 32 (i (-1)) (-1)) 0;
   all_i [ibig_and_not_primitive true 32 x 0xff; ibig_and_not_ref_primitive true 32 x 0xff] 0xf00;
   is_i (ibig_and_not_primitive true 32 (i (-13)) (-1)) 0].
Check passes test_bit_ops_ibig_primitive.
