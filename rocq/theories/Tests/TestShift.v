(** tests/shift.rs *)
From Verif Require Import Tests.Harness Model.ShiftOps.

(** tests/shift.rs:3-54 *)
Definition test_ubig_shl (A : Arch) : bool := let x := 0x0123456789abcdef0123456789abcdef in
  all [is_u (ubig_shl_v (u 0) 17) 0; is_u (ubig_shl_r (u 0) 17) 0;
       is_u (ubig_shl_v (u 0xef) 0) 0xef; is_u (ubig_shl_v (u 0xef) 4) 0xef0;
       is_u (ubig_shl_v (u 0xef) 128) 0xef00000000000000000000000000000000;
       is_u (ubig_shl_v (u 0xef) 124) 0xef0000000000000000000000000000000;
       is_u (ubig_shl_v (u 0xef) 10240) (Z.shiftl 0xef (4 * 2560));
       is_u (ubig_shl_v (u 0xef) 10244) (Z.shiftl 0xef (4 * 2561));
       is_u (ubig_shl_v (u x) 0) x; is_u (ubig_shl_v (u x) 4) 0x0123456789abcdef0123456789abcdef0;
       all_u [ubig_shl_v (u x) 128; ubig_shl_r (u x) 128] 0x0123456789abcdef0123456789abcdef00000000000000000000000000000000;
       all_u [ubig_shl_v (u x) 124; ubig_shl_r (u x) 124] 0x0123456789abcdef0123456789abcdef0000000000000000000000000000000;
       is_u (ubig_shl_v (u x) 10240) (Z.shiftl x (4 * 2560)); is_u (ubig_shl_v (u x) 10244) (Z.shiftl x (4 * 2561));
       is_u (ubig_shl_r (u 0xef) 4) 0xef0].
Check passes test_ubig_shl.

(** tests/shift.rs:56-60. On 32 bits the code fills all 2^27 words before it
    panics, which is too much to compute here; theorem [C13_ubig_shl_exact] covers it. *)
Definition test_ubig_shl_too_large (A : Arch) : bool := should_panic (ubig_shl_v (u 1) USIZE_MAX).
Check (@eq_refl bool true <: all [test_ubig_shl_too_large arch16; test_ubig_shl_too_large arch64] = true).

(** tests/shift.rs:62-72 *)
Definition test_ibig_shl (A : Arch) : bool :=
  all [is_i (ibig_shl_v (i 0) 4) 0; is_i (ibig_shl_v (i 0) USIZE_MAX) 0;
       all_i [ibig_shl_v (i 0xef) 4; ibig_shl_r (i 0xef) 4] 0xef0].
Check passes test_ibig_shl.

(** tests/shift.rs:74-81 *)
Definition test_shl_assign (A : Arch) : bool :=
  all [is_u (ubig_shl_assign (u 0xef) 4) 0xef0; is_u (a <- ubig_shl_assign (u 0xef) 4 ;; ubig_shl_assign a 4) 0xef00].
Check passes test_shl_assign.

(** tests/shift.rs:83-174. A shift by more than [usize::MAX] is not a Rust program;
    on 16 bits the shifts by 1000000 and 1000001 are left out. *)
Definition test_ubig_shr (A : Arch) : bool :=
  let x := 0x0123456789abcdef0123456789abcdef0123456789abcdef in
  let shr2 a n c := all_u [ubig_shr_v (u a) n; ubig_shr_r (u a) n] c in
  let shl k := ubig_shl_v (u 0xef) k in
  all [shr2 0xef 4 0xe; shr2 0xef 100 0; shr2 0xef USIZE_MAX 0;
       is_u (y <- shl 63 ;; ubig_shr_v y 63) 0xef; is_u (y <- shl 64 ;; ubig_shr_v y 64) 0xef;
       is_u (y <- shl 1023 ;; ubig_shr_v y 1023) 0xef; is_u (y <- shl 1024 ;; ubig_shr_v y 1024) 0xef;
       is_u (y <- shl 1024 ;; y <- ubig_shr_v y 512 ;; ubig_shr_v y 512) 0xef;
       is_u (y <- shl 1024 ;; y <- ubig_shr_v y 510 ;; ubig_shr_v y 514) 0xef;
       is_u (y <- shl 1024 ;; y <- ubig_shr_r y 512 ;; ubig_shr_r y 512) 0xef;
       is_u (y <- shl 1024 ;; y <- ubig_shr_r y 510 ;; ubig_shr_r y 514) 0xef;
       shr2 x 0 x; (ubits =? 16) || (shr2 x 1000000 0 && shr2 x 1000001 0);
       shr2 x 4 0x0123456789abcdef0123456789abcdef0123456789abcde; shr2 x 64 0x0123456789abcdef0123456789abcdef;
       shr2 x 124 0x123456789abcdef0; shr2 x 128 0x123456789abcdef].
Check passes test_ubig_shr.

(** tests/shift.rs:176-183 *)
Definition test_ubig_shr_assign (A : Arch) : bool :=
  all [is_u (ubig_shr_assign (u 0xeff) 4) 0xef; is_u (a <- ubig_shr_assign (u 0xeff) 4 ;; ubig_shr_assign a 4) 0xe].
Check passes test_ubig_shr_assign.

(** tests/shift.rs:185-219 *)
Definition test_ibig_shr (A : Arch) : bool :=
  forallb (fun '(a, b, c) => all_i [ibig_shr_r (i a) b; ibig_shr_v (i a) b; ibig_shr_assign (i a) b] c)
   [(0xe0, 4, 0xe); (0xef, 4, 0xe); (0xef, 100, 0); (-0xe0, 4, -0xe); (-0xef, 4, -0xf); (-0xef, 100, -1);
    (0xff * 2 ^ 1000, 1000, 0xff); (0xff * 2 ^ 1000 + 1, 1000, 0xff);
    (-0xff * 2 ^ 1000, 1000, -0xff); (-0xff * 2 ^ 1000 - 1, 1000, -0x100);
    (-0xff * 2 ^ 1000 - 2 ^ 999, 1000, -0x100); (-0xff * 2 ^ 1000, 2000, -1)].
Check passes test_ibig_shr.
