(** tests/add.rs *)
From Verif Require Import Tests.Harness Model.AddOps Model.PrimOps.

Section Forms.
Context {A : Arch}.

(** tests/add.rs:8-52 *)
Definition test_add_sub_u '((a, b, c) : Z * Z * Z) : bool :=
  let a' := u a in let b' := u b in let c' := u c in
  all_u [ubig_add_rr a' b'; ubig_add_vr a' b'; ubig_add_rv a' b'; ubig_add_vv a' b';
         ubig_add_assign_r a' b'; ubig_add_assign_v a' b'] c &&
  all_u [ubig_sub_rr c' a'; ubig_sub_vr c' a'; ubig_sub_rv c' a'; ubig_sub_vv c' a';
         ubig_sub_assign_r c' a'; ubig_sub_assign_v c' a'] b.
Definition test_add_sub_i '((a, b, c) : Z * Z * Z) : bool :=
  let a' := i a in let b' := i b in let c' := i c in
  all_i [ibig_add_rr a' b'; ibig_add_vr a' b'; ibig_add_rv a' b'; ibig_add_vv a' b';
         ibig_add_assign_r a' b'; ibig_add_assign_v a' b'] c &&
  all_i [ibig_sub_rr c' a'; ibig_sub_vr c' a'; ibig_sub_rv c' a'; ibig_sub_vv c' a';
         ibig_sub_assign_r c' a'; ibig_sub_assign_v c' a'] b.

Definition swap '((a, b, c) : Z * Z * Z) : Z * Z * Z := (b, a, c).
End Forms.

(** tests/add.rs:54-104 *)
Definition test_add_sub_ubig (A : Arch) : bool :=
  forallb (fun t => test_add_sub_u t && test_add_sub_u (swap t))
   [(3, 4, 7);
    (0xffffffffffffffff, 1, 0x10000000000000000);
    (0x10000000000000003, 4, 0x10000000000000007);
    (0xeeeeeeeeeeeeeeeeffffffffffffffff, 1, 0xeeeeeeeeeeeeeeef0000000000000000);
    (0xffffffffffffffffffffffffffffffff, 2, 0x100000000000000000000000000000001);
    (0x88888888888888888888888888888888, 0x88888888888888888888888888888888, 0x111111111111111111111111111111110);
    (0x888888888888888888888888888888888888888888888888, 0x88888888888888888888888888888888,
     0x888888888888888911111111111111111111111111111110);
    (0x888888888888888888888888888888888888888888888888, 0, 0x888888888888888888888888888888888888888888888888)].
Check passes test_add_sub_ubig.

(** tests/add.rs:106-110 *)
Definition test_sub_ubig_overflow (A : Arch) : bool := should_panic (ubig_sub_vv (u 3) (u 4)).
Check passes test_sub_ubig_overflow.

(** tests/add.rs:112-146 *)
Definition test_add_sub_ibig (A : Arch) : bool :=
  forallb (fun t => test_add_sub_i t && test_add_sub_i (swap t))
   [(3, 4, 7); (3, -4, -1); (-3, 4, 1); (-3, -4, -7);
    (0x10000000000000000, -4, 0xfffffffffffffffc);
    (0x10000000000000000, 0x200000000000000000000000000000000, 0x200000000000000010000000000000000);
    (-0x200000000000000010000000000000000, 0x200000000000000000000000000000000, -0x10000000000000000);
    (0x200000000000000010000000000000000, -0x200000000000000000000000000000000, 0x10000000000000000)].
Check passes test_add_sub_ibig.

(** tests/add.rs:148-197. The literals without a type are [i32]. *)
Definition test_add_sub_ubig_primitive (A : Arch) : bool := all
  [all_u [ubig_add_unsigned 16 (u 3) 7; ubig_add_ref_unsigned 16 (u 3) 7] 10;
   is_u (x <- ubig_add_assign_unsigned 8 (u 3) 3 ;; ubig_add_assign_unsigned 8 x 3) 9;
   all_u [ubig_sub_unsigned 16 (u 7) 5; ubig_sub_ref_unsigned 16 (u 7) 5] 2;
   is_u (x <- ubig_sub_assign_unsigned 8 (u 10) 1 ;; ubig_sub_assign_unsigned 8 x 2) 7;
   all_u [ubig_add_signed 32 (u 3) (-1); ubig_add_ref_signed 32 (u 3) (-1)] 2;
   is_u (x <- ubig_add_assign_signed 32 (u 3) (-1) ;; ubig_add_assign_signed 32 x 2) 4;
   all_u [ubig_sub_signed 32 (u 3) (-1); ubig_sub_ref_signed 32 (u 3) (-1)] 4;
   is_u (x <- ubig_sub_assign_signed 32 (u 3) (-1) ;; ubig_sub_assign_signed 32 x 2) 2].
Check passes test_add_sub_ubig_primitive.

(** tests/add.rs:199-209 *)
Definition test_add_ubig_primitive_overflow (A : Arch) : bool := should_panic (ubig_add_signed 16 (u 3) (-5)).
Check passes test_add_ubig_primitive_overflow.
Definition test_sub_ubig_primitive_overflow (A : Arch) : bool := should_panic (ubig_sub_unsigned 16 (u 3) 5).
Check passes test_sub_ubig_primitive_overflow.

(** tests/add.rs:211-261 *)
Definition test_add_sub_ibig_primitive (A : Arch) : bool := all
  [all_i [ibig_add_primitive false 16 (i (-3)) 7; ibig_add_ref_primitive false 16 (i (-3)) 7] 4;
   is_i (x <- ibig_add_assign_primitive false 8 (i (-3)) 3 ;; ibig_add_assign_primitive false 8 x 3) 3;
   all_i [ibig_sub_primitive false 16 (i 7) 5; ibig_sub_ref_primitive false 16 (i 7) 5] 2;
   all_i [ibig_sub_from_primitive false 16 (i 7) 5; ibig_sub_ref_from_primitive false 16 (i 7) 5] (-2);
   is_i (x <- ibig_sub_assign_primitive false 8 (i 10) 7 ;; ibig_sub_assign_primitive false 8 x 7) (-4);
   all_i [ibig_add_primitive true 32 (i 3) (-1); ibig_add_ref_primitive true 32 (i 3) (-1)] 2;
   is_i (x <- ibig_add_assign_primitive true 32 (i 3) (-10) ;; ibig_add_assign_primitive true 32 x 20) 13;
   all_i [ibig_sub_primitive true 32 (i 3) (-1); ibig_sub_ref_primitive true 32 (i 3) (-1)] 4;
   all_i [ibig_sub_from_primitive true 32 (i 4) 3; ibig_sub_ref_from_primitive true 32 (i 4) 3] (-1);
   is_i (x <- ibig_sub_assign_primitive true 32 (i 3) (-1) ;; ibig_sub_assign_primitive true 32 x 10) (-6)].
Check passes test_add_sub_ibig_primitive.
