(** tests/mul.rs, tests/pow.rs *)
From Verif Require Import Tests.Harness Model.MulOps Model.PrimOps Model.Pow.

(** tests/mul.rs:7-34 *)
Definition test_mul_u {A : Arch} '((a, b, c) : Z * Z * Z) : bool := let x := u a in let y := u b in
  all_u [ubig_mul_rr x y; ubig_mul_vr x y; ubig_mul_rv x y; ubig_mul_vv x y; ubig_mul_assign_r x y; ubig_mul_assign_v x y] c.
Definition test_mul_i {A : Arch} '((a, b, c) : Z * Z * Z) : bool := let x := i a in let y := i b in
  all_i [ibig_mul_rr x y; ibig_mul_vr x y; ibig_mul_rv x y; ibig_mul_vv x y; ibig_mul_assign_r x y; ibig_mul_assign_v x y] c.

(** tests/mul.rs:33-66 *)
Definition test_mul_ubig (A : Arch) : bool :=
  forallb (fun '(a, b, c) => test_mul_u (a, b, c) && test_mul_u (b, a, c))
   [(0, 4, 0); (3, 4, 12);
    (0x123456789abc, 0x444333222111fff, 0x4daae4d8531f8de7e1fb5ae544);
    (0, 2 ^ 100, 0);
    (1, 0x123456789123456789123456789123456789, 0x123456789123456789123456789123456789);
    (0x10, 0x123456789123456789123456789123456789, 0x1234567891234567891234567891234567890);
    (0x1000000000000000, 0x123456789123456789123456789123456789, 0x123456789123456789123456789123456789000000000000000);
    (0x123456789123456789123456789123456789123456789123456789, 0xabcdefabcdefabcdefabcdefabcdef,
     0xc379ab6dbd40ef67e528bfffd3039491348e20491348e20491348d5ccf67db24c3a1cca8f7891375de7)].
Check passes test_mul_ubig.

(** tests/mul.rs:68-80 *)
Definition test_mul_ibig (A : Arch) : bool :=
  forallb (fun '(a, b, c) => test_mul_i (a, b, c) && test_mul_i (b, a, c)) [(3, 4, 12); (-3, 4, -12); (-3, -4, 12)].
Check passes test_mul_ibig.

(** tests/mul.rs:82-113 *)
Definition test_mul_ubig_primitive (A : Arch) : bool := all
  [all_u [ubig_mul_unsigned 8 (u 3) 4; ubig_mul_ref_unsigned 8 (u 3) 4] 12;
   is_u (x <- ubig_mul_assign_unsigned 8 (u 3) 2 ;; ubig_mul_assign_unsigned 8 x 2) 12;
   all_u [ubig_mul_signed 32 (u 3) 4; ubig_mul_ref_signed 32 (u 3) 4] 12;
   is_u (x <- ubig_mul_assign_signed 32 (u 3) 2 ;; ubig_mul_assign_signed 32 x 2) 12;
   is_u (ubig_mul_signed 32 (u 0) (-1)) 0; is_u (ubig_mul_signed 32 (u 5) 0) 0].
Check passes test_mul_ubig_primitive.

(** tests/mul.rs:115-119 *)
Definition test_mul_ubig_primitive_overflow (A : Arch) : bool := should_panic (ubig_mul_signed 32 (u 3) (-5)).
Check passes test_mul_ubig_primitive_overflow.

(** tests/mul.rs:121-149 *)
Definition test_mul_ibig_primitive (A : Arch) : bool := all
  [all_i [ibig_mul_primitive false 8 (i (-3)) 4; ibig_mul_ref_primitive false 8 (i (-3)) 4] (-12);
   is_i (x <- ibig_mul_assign_primitive false 8 (i (-3)) 2 ;; ibig_mul_assign_primitive false 8 x 2) (-12);
   all_i [ibig_mul_primitive true 32 (i (-3)) (-4); ibig_mul_ref_primitive true 32 (i (-3)) (-4)] 12;
   is_i (x <- ibig_mul_assign_primitive true 32 (i (-3)) 2 ;; ibig_mul_assign_primitive true 32 x (-2)) 12].
Check passes test_mul_ibig_primitive.

(** tests/pow.rs:3-22 *)
Definition test_pow_ubig (A : Arch) : bool :=
  forallb (fun '(a, b, c) => is_u (ubig_pow (u a) b) c)
   [(0, 0, 1); (100, 0, 1); (0, 1, 0); (100, 1, 100); (0, 2, 0); (100, 2, 10000); (0, 100, 0); (1, 100, 1);
    (2, 10, 1024); (7, 10, 282475249); (123, 13, 1474913153392179474539944683)].
Check passes test_pow_ubig.

(** tests/pow.rs:24-39 *)
Definition test_pow_ibig (A : Arch) : bool :=
  forallb (fun '(a, b, c) => is_i (ibig_pow (i a) b) c)
   [(0, 0, 1); (0, 12, 0); (0, 13, 0); (7, 2, 49); (7, 3, 343); (-7, 2, 49); (-7, 3, -343)].
Check passes test_pow_ibig.
