(** tests/div.rs *)
From Verif Require Import Tests.Harness Model.DivOps Model.PrimOps.

(** tests/div.rs:7-142 *)
Definition div_rem_u {A : Arch} '((a, b, q, r) : Z * Z * Z * Z) : bool := let x := u a in let y := u b in all
  [all_u [ubig_div_rr x y; ubig_div_vr x y; ubig_div_rv x y; ubig_div_vv x y; ubig_div_assign_r x y; ubig_div_assign_v x y;
          ubig_div_euclid_rr x y; ubig_div_euclid_vr x y; ubig_div_euclid_rv x y; ubig_div_euclid_vv x y] q;
   all_u [ubig_rem_rr x y; ubig_rem_vr x y; ubig_rem_rv x y; ubig_rem_vv x y; ubig_rem_assign_r x y; ubig_rem_assign_v x y;
          ubig_rem_euclid_rr x y; ubig_rem_euclid_vr x y; ubig_rem_euclid_rv x y; ubig_rem_euclid_vv x y] r;
   all_uu [ubig_div_rem_rr x y; ubig_div_rem_vr x y; ubig_div_rem_rv x y; ubig_div_rem_vv x y;
           ubig_div_rem_euclid_rr x y; ubig_div_rem_euclid_vr x y; ubig_div_rem_euclid_rv x y; ubig_div_rem_euclid_vv x y] q r].

Definition test_div_rem_ubig (A : Arch) : bool := forallb div_rem_u
  [(331, 10, 33, 1);
   (17, 0x987987123984798abbcc213789723948792138479837492837498cc, 0, 17);
   (0x987987123984798abbcc213789723948792138479837492837498cc, 0x1234,
    0x86054c502f0a4e43e2d0de91f1029d251ce67bbdb88dc3edbb40, 0xfcc);
   (0x987987123984798abbcc213789723948792138479837492837498cc, 0x1000,
    0x987987123984798abbcc21378972394879213847983749283749, 0x8cc);
   (0x987987123984798abbcc213789723948792138479837492837498cc, 0xf234567812345678,
    0xa128cfb49d0d746cc0295e163c343aafbffbfa8, 0x9068d997bb10520c);
   (0x987987123984798abbcc213789723948792138479837492837498ce, 0x987987123984798abbcc213789723948792138479837492837498cc, 1, 2);
   (0xffffffffffffffffffffffffffffffff00000000000000000000000000000000, 0xffffffffffffffffffffffffffffffff0000000000000001,
    0xffffffffffffffff, 0xfffffffffffffffffffffffffffffffe0000000000000001);
   (0x2b8f1bb75f1ca5bf3400549a663d503d298da7f53942cd3c5c6a1bc50598d091e8ca30896413783e9b001572e28808c4dc9598bdd17ef3ce35b40e0368b60,
    0x3e880309f5e48d145337aae47694a74f2860db8e49665f03978f1b11665dc80,
    0xb254145d6f736c22ed5fca6a41f4c883a59fc32c638710758bb50fa532b31f,
    0x195afda8e35e347c65ed01409c73d1c820ed78a87e83cf6cfdad1a25fb357e0);
   (0x3e880309f5e48d145337aae47694a74f2860db8e49665f03978f1b11665dc80,
    0x2b8f1bb75f1ca5bf3400549a663d503d298da7f53942cd3c5c6a1bc50598d091e8ca30896413783e9b001572e28808c4dc9598bdd17ef3ce35b40e0368b60,
    0, 0x3e880309f5e48d145337aae47694a74f2860db8e49665f03978f1b11665dc80);
   (0xb39cfff485a5dbf4d6aae030b91bfb0ec6bba389cd8d7f85bba3985c19c5e24e40c543a123c6e028a873e9e3874e1b4623a44be39b34e67dc5c2670,
    0x359ba2b98ca11d6864a331b45ae7114c01ffbdcf60cc16e692fb63c6e219,
    0x359ba2b98ca11d6864a331b45ae7114c01ffbdcf60cc16e692fb63c6e218,
    0x359ba2b98ca11d6864a331b45ae7114c01ffbdcf60cc16e692fb63c6e218);
   (0x16dc8782276b9f7addf9768f33c8007ce903866a4546c1a190, 0x4c8077a58a0a8cb7c24960e57,
    0x4c8077a58a0a8cb7c24960e56, 0x4c8077a58a0a8cb7c24960e56)].
Check passes test_div_rem_ubig.

(** tests/div.rs:7-142: its last three cases, in one form each and on 64-bit words only *)
Definition test_div_rem_ubig_large (A : Arch) : bool := all
  [is_uu (ubig_div_rem_rr (u (2 ^ 20480 - 1)) (u (2 ^ 5120 - 1))) (1 + 2 ^ 5120 + 2 ^ 10240 + 2 ^ 15360) 0;
   is_uu (ubig_div_rem_vv (u (2 ^ 20480 - 1)) (u (2 ^ 15360 - 1))) (2 ^ 5120) (2 ^ 5120 - 1);
   is_uu (ubig_div_rem_vr (u (2 ^ 19000 - 1)) (u (2 ^ 5000 - 1))) (2 ^ 14000 + 2 ^ 9000 + 2 ^ 4000) (2 ^ 4000 - 1)].
Check (@eq_refl bool true <: test_div_rem_ubig_large arch64 = true).

(** tests/div.rs:144-148 *)
Definition test_divide_by_0_ubig (A : Arch) : bool := should_panic (ubig_div_vv (u 5) (u 0)).
Check passes test_divide_by_0_ubig.

(** tests/div.rs:150-196 *)
Definition test_div_rem_ibig (A : Arch) : bool :=
  for_in (-20) 20 (fun a => for_in (-20) 20 (fun b => (b =? 0) ||
    let x := i a in let y := i b in let q := Z.quot a b in let r := Z.rem a b in all
    [all_i [ibig_div_vv x y; ibig_div_rv x y; ibig_div_vr x y; ibig_div_rr x y; ibig_div_assign_v x y; ibig_div_assign_r x y] q;
     all_i [ibig_rem_vv x y; ibig_rem_rv x y; ibig_rem_vr x y; ibig_rem_rr x y; ibig_rem_assign_v x y; ibig_rem_assign_r x y] r;
     all_ii [ibig_div_rem_vv x y; ibig_div_rem_rv x y; ibig_div_rem_vr x y; ibig_div_rem_rr x y] q r])).
Check passes test_div_rem_ibig.

(** [i8::rem_euclid]: the remainder that is not negative; tests/div.rs:225-226 *)
Definition rem_euclid (a b : Z) : Z := a mod Z.abs b.
Definition div_euclid (a b : Z) : Z := (a - rem_euclid a b) / b.

(** tests/div.rs:198-228 *)
Definition test_div_rem_euclid_ibig (A : Arch) : bool :=
  for_in (-20) 20 (fun a => for_in (-20) 20 (fun b => (b =? 0) ||
    let x := i a in let y := i b in let q := div_euclid a b in let r := rem_euclid a b in all
    [all_i [ibig_div_euclid_vv x y; ibig_div_euclid_rv x y; ibig_div_euclid_vr x y; ibig_div_euclid_rr x y] q;
     all_i [ibig_rem_euclid_vv x y; ibig_rem_euclid_rv x y; ibig_rem_euclid_vr x y; ibig_rem_euclid_rr x y] r;
     all_ii [ibig_div_rem_euclid_vv x y; ibig_div_rem_euclid_rv x y; ibig_div_rem_euclid_vr x y; ibig_div_rem_euclid_rr x y] q r])).
Check passes test_div_rem_euclid_ibig.

(** tests/div.rs:230-234 *)
Definition test_divide_by_0_ibig (A : Arch) : bool := should_panic (ibig_div_vv (i 5) (i 0)).
Check passes test_divide_by_0_ibig.

(** tests/div.rs:236-265 *)
Definition test_div_rem_ubig_unsigned (A : Arch) : bool := let x := u 23 in all
  [all_u [ubig_div_unsigned 8 x 10; ubig_div_ref_unsigned 8 x 10; ubig_div_assign_unsigned 8 x 10] 2;
   all_z [ubig_rem_unsigned 8 x 10; ubig_rem_ref_unsigned 8 x 10] 3;
   is_u (ubig_rem_assign_unsigned 8 x 10) 3;
   all_uz [ubig_div_rem_unsigned 8 x 10; ubig_div_rem_ref_unsigned 8 x 10] 2 3].
Check passes test_div_rem_ubig_unsigned.

(** tests/div.rs:267-283 *)
Definition test_div_rem_euclid_ubig_unsigned (A : Arch) : bool := let x := u 23 in all
  [all_u [ubig_div_euclid_unsigned 8 x 10; ubig_div_euclid_ref_unsigned 8 x 10] 2;
   all_z [ubig_rem_euclid_unsigned 8 x 10; ubig_rem_euclid_ref_unsigned 8 x 10] 3;
   all_uz [ubig_div_rem_euclid_unsigned 8 x 10; ubig_div_rem_euclid_ref_unsigned 8 x 10] 2 3].
Check passes test_div_rem_euclid_ubig_unsigned.

(** tests/div.rs:285-318 *)
Definition test_div_rem_ubig_signed (A : Arch) : bool := let x := u 23 in all
  [all_u [ubig_div_signed 32 x 10; ubig_div_ref_signed 32 x 10; ubig_div_assign_signed 32 x 10] 2;
   all_z [ubig_rem_signed 32 x 10; ubig_rem_ref_signed 32 x 10] 3;
   is_u (ubig_rem_assign_signed 32 x 10) 3;
   all_uz [ubig_div_rem_signed 32 x 10; ubig_div_rem_ref_signed 32 x 10] 2 3;
   is_u (ubig_div_signed 32 (u 3) (-100)) 0;
   is_z (ubig_rem_signed 32 (u 21) (-10)) 1;
   is_uz (ubig_div_rem_signed 32 (u 1) (-10)) 0 1].
Check passes test_div_rem_ubig_signed.

(** tests/div.rs:320-324 *)
Definition test_div_ubig_signed_overflow (A : Arch) : bool := should_panic (ubig_div_signed 32 (u 100) (-10)).
Check passes test_div_ubig_signed_overflow.

(** tests/div.rs:326-330 *)
Definition test_div_rem_ubig_signed_overflow (A : Arch) : bool := should_panic (ubig_div_rem_signed 32 (u 101) (-10)).
Check passes test_div_rem_ubig_signed_overflow.

(** tests/div.rs:332-352 *)
Definition test_div_rem_euclid_ubig_signed (A : Arch) : bool := let x := u 23 in all
  [all_u [ubig_div_euclid_signed 32 x 10; ubig_div_euclid_ref_signed 32 x 10] 2;
   all_z [ubig_rem_euclid_signed 32 x 10; ubig_rem_euclid_ref_signed 32 x 10] 3;
   all_uz [ubig_div_rem_euclid_signed 32 x 10; ubig_div_rem_euclid_ref_signed 32 x 10] 2 3;
   is_u (ubig_div_euclid_signed 32 (u 1) (-10)) 0;
   is_z (ubig_rem_euclid_signed 32 (u 21) (-10)) 1;
   is_uz (ubig_div_rem_euclid_signed 32 (u 1) (-10)) 0 1].
Check passes test_div_rem_euclid_ubig_signed.

(** tests/div.rs:354-358 *)
Definition test_div_euclid_ubig_signed_overflow (A : Arch) : bool := should_panic (ubig_div_euclid_signed 32 (u 11) (-10)).
Check passes test_div_euclid_ubig_signed_overflow.

(** tests/div.rs:360-364 *)
Definition test_div_rem_euclid_ubig_signed_overflow (A : Arch) : bool := should_panic (ubig_div_rem_euclid_signed 32 (u 11) (-10)).
Check passes test_div_rem_euclid_ubig_signed_overflow.

(** tests/div.rs:366-395 *)
Definition test_div_rem_ibig_unsigned (A : Arch) : bool := let x := i (-23) in all
  [all_i [ibig_div_primitive false 8 x 10; ibig_div_ref_primitive false 8 x 10; ibig_div_assign_primitive false 8 x 10] (-2);
   all_i [ibig_rem_unsigned 8 x 10; ibig_rem_ref_unsigned 8 x 10; ibig_rem_assign_primitive false 8 x 10] (-3);
   all_ii [ibig_div_rem_unsigned 8 x 10; ibig_div_rem_ref_unsigned 8 x 10] (-2) (-3)].
Check passes test_div_rem_ibig_unsigned.

(** tests/div.rs:397-413 *)
Definition test_div_rem_euclid_ibig_unsigned (A : Arch) : bool := let x := i (-23) in all
  [all_i [ibig_div_euclid_primitive false 8 x 10; ibig_div_euclid_ref_primitive false 8 x 10] (-3);
   all_z [ibig_rem_euclid_primitive false 8 x 10; ibig_rem_euclid_ref_primitive false 8 x 10] 7;
   all_iz [ibig_div_rem_euclid_primitive false 8 x 10; ibig_div_rem_euclid_ref_primitive false 8 x 10] (-3) 7].
Check passes test_div_rem_euclid_ibig_unsigned.

(** tests/div.rs:415-444 *)
Definition test_div_rem_ibig_signed (A : Arch) : bool := let x := i (-23) in all
  [all_i [ibig_div_primitive true 32 x (-10); ibig_div_ref_primitive true 32 x (-10); ibig_div_assign_primitive true 32 x (-10)] 2;
   all_z [ibig_rem_signed 32 x (-10); ibig_rem_ref_signed 32 x (-10)] (-3);
   is_i (ibig_rem_assign_primitive true 32 x (-10)) (-3);
   all_iz [ibig_div_rem_signed 32 x (-10); ibig_div_rem_ref_signed 32 x (-10)] 2 (-3)].
Check passes test_div_rem_ibig_signed.

(** tests/div.rs:446-462 *)
Definition test_div_rem_euclid_ibig_signed (A : Arch) : bool := let x := i (-23) in all
  [all_i [ibig_div_euclid_primitive true 32 x (-10); ibig_div_euclid_ref_primitive true 32 x (-10)] 3;
   all_z [ibig_rem_euclid_primitive true 32 x (-10); ibig_rem_euclid_ref_primitive true 32 x (-10)] 7;
   all_iz [ibig_div_rem_euclid_primitive true 32 x (-10); ibig_div_rem_euclid_ref_primitive true 32 x (-10)] 3 7].
Check passes test_div_rem_euclid_ibig_signed.
