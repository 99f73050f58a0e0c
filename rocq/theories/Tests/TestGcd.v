(** tests/gcd.rs *)
From Verif Require Import Tests.Harness Model.Gcd Model.MulOps Model.AddOps.

Definition is_true (r : res bool) : bool := match r with Ok b => b | Panic _ => false end.
Definition ibig_le {A : Arch} (x y : ibig) : res bool :=
  c <- ibig_cmp x y ;; Ok (match c with Gt => false | _ => true end).

(** tests/gcd.rs:73-78, 92-96: [x * a + y * b = g], [|x| <= max(b, 1)], [|y| <= max(a, 1)] *)
Definition bezout_u {A : Arch} (a b : Z) (g : ubig) (x y : ibig) : bool := all
  [match (xa <- ibig_mul_rv x (i a) ;; yb <- ibig_mul_rv y (i b) ;; ibig_add_vv xa yb) with
   | Ok s => ibig_eqb s (ibig_from_ubig g)
   | Panic _ => false
   end;
   is_true (ubig_le (unsigned_abs x) (u (Z.max b 1)));
   is_true (ubig_le (unsigned_abs y) (u (Z.max a 1)))].
Definition bezout_i {A : Arch} (a b : Z) (g x y : ibig) : bool := all
  [match (xa <- ibig_mul_rr x (i a) ;; yb <- ibig_mul_rr y (i b) ;; ibig_add_vv xa yb) with
   | Ok s => ibig_eqb s g
   | Panic _ => false
   end;
   is_true (ibig_le (ibig_abs x) (i (Z.max (Z.abs b) 1)));
   is_true (ibig_le (ibig_abs y) (i (Z.max (Z.abs a) 1)))].

Definition egcd_u {A : Arch} (a b c : Z) : bool :=
  is_u (ubig_gcd (u a) (u b)) c &&
  match ubig_extended_gcd (u a) (u b) with
  | Ok (g, x, y) => is_u (Ok g) c && bezout_u a b g x y
  | Panic _ => false
  end.
Definition egcd_i {A : Arch} (a b c : Z) : bool :=
  is_i (ibig_gcd (i a) (i b)) c &&
  match ibig_extended_gcd (i a) (i b) with
  | Ok (g, x, y) => is_i (Ok g) c && bezout_i a b g x y
  | Panic _ => false
  end.

(** tests/gcd.rs:7-98 *)
Definition test_gcd_ubig (A : Arch) : bool :=
  forallb (fun '(a, b, c) => egcd_u a b c && egcd_u b a c)
   [(0, 123, 123); (123, 0, 123); (1, 123, 1); (123, 1, 1); (123, 123, 123);
    (0, 0x123456789123456789123456789123456789, 0x123456789123456789123456789123456789);
    (1, 0x123456789123456789123456789123456789, 1);
    (0x123456789123456789123456789123456789, 0x123456789123456789123456789123456789, 0x123456789123456789123456789123456789);
    (3, 7, 1); (8, 9, 1); (9, 8, 1); (42, 56, 14); (7966496, 314080416, 32);
    (0xffffffffffffffffffffffff1, 0x7ffffffffffffffffffffff8d, 1);
    (0xffffffffffffffffffffffffffffff61, 0xffffffffffffffffffffffffffffff53, 1);
    (0x3ffffffffffffffffffffffffffffffffffffd, 0x1fffffffffffffffffffffffffffffffffffe1, 1);
    (0x123456789123456789123456789123456789, 0x987654321, 0x2d);
    (0x123456789123456789123456789123456789, 0x987654321987654321987654321987654321, 0x2d00000002d00000002d00000002d);
    (0x5a4653ca673768565b41f775d6947d55cf3813d1, 0x1000000000000000000000000000000000000000, 1)] &&
  for_in 0 20 (fun a => for_in 0 20 (fun b => ((a =? 0) && (b =? 0)) || egcd_u a b (Z.gcd a b))).
Check passes test_gcd_ubig.

(** tests/gcd.rs:100-104 *)
Definition test_gcd_ubig_0_0 (A : Arch) : bool := should_panic (ubig_gcd (u 0) (u 0)).
Check passes test_gcd_ubig_0_0.

(** tests/gcd.rs:106-110 *)
Definition test_extended_gcd_ubig_0_0 (A : Arch) : bool := should_panic (ubig_extended_gcd (u 0) (u 0)).
Check passes test_extended_gcd_ubig_0_0.

(** tests/gcd.rs:112-133 *)
Definition test_gcd_ibig (A : Arch) : bool :=
  forallb (fun '(a, b) => is_i (ibig_gcd (i a) (i b)) 6) [(12, 18); (12, -18); (-12, 18); (-12, -18)] &&
  for_in (-20) 20 (fun a => for_in (-20) 20 (fun b => ((a =? 0) && (b =? 0)) || egcd_i a b (Z.gcd a b))).
Check passes test_gcd_ibig.

(** tests/gcd.rs:135-139 *)
Definition test_gcd_ibig_0_0 (A : Arch) : bool := should_panic (ibig_gcd (i 0) (i 0)).
Check passes test_gcd_ibig_0_0.

(** tests/gcd.rs:141-145 *)
Definition test_extended_gcd_ibig_0_0 (A : Arch) : bool := should_panic (ibig_extended_gcd (i 0) (i 0)).
Check passes test_extended_gcd_ibig_0_0.
