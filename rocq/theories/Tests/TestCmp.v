(** tests/cmp.rs, tests/hash.rs, tests/sign.rs *)
From Verif Require Import Tests.Harness Model.ShiftOps Model.Convert.

Definition is_cmp (r : res comparison) (c : comparison) : bool :=
  match r, c with Ok Eq, Eq | Ok Lt, Lt | Ok Gt, Gt => true | _, _ => false end.

(** tests/cmp.rs:4-33 *)
Definition test_cmp (A : Arch) : bool :=
  forallb (fun '(a, c, b) => is_cmp (ubig_cmp (u a) (u b)) c)
   [(500, Eq, 500); (100, Lt, 500); (500, Gt, 100); (0x10000000000000000, Gt, 100);
    (100, Lt, 0x100000000000000000000000000000000);
    (0x100000000000000020000000000000003, Lt, 0x100000000000000030000000000000002);
    (0x100000000000000030000000000000002, Gt, 0x100000000000000020000000000000003);
    (0x100000000000000030000000000000002, Eq, 0x100000000000000030000000000000002)] &&
  forallb (fun '(a, c, b) => is_cmp (ibig_cmp (i a) (i b)) c)
   [(500, Eq, 500); (-500, Eq, -500); (5, Lt, 10); (10, Gt, 5); (-5, Lt, 10); (-15, Lt, 10); (10, Gt, -5);
    (10, Gt, -15); (-10, Lt, -5); (-5, Gt, -10)].
Check passes test_cmp.

Definition hash_is (r : res ubig) (h : list Z) : bool :=
  match r with Ok x => if list_eq_dec Z.eq_dec (ubig_hash x) h then true else false | Panic _ => false end.

(** tests/hash.rs:16-26. The model's hash is what the hasher is fed with; a different
    hash value therefore needs different words. *)
Definition test_hash (A : Arch) : bool :=
  let h := ubig_hash (u (2 ^ 1000)) in
  for_in 0 1000 (fun k => hash_is (x <- ubig_shl_v (u 1) k ;; ubig_shl_v x (1000 - k)) h) &&
  negb (hash_is (ubig_shl_v (u 2) 1000) h).
Check passes test_hash.

(** tests/sign.rs:7-15 *)
Definition test_neg (A : Arch) : bool := all
  [is_i (Ok (ibig_neg (i 123))) (-123); is_i (Ok (ibig_neg (i (-123)))) 123; is_i (Ok (ibig_neg (i 0))) 0;
   is_i (ibig_neg_ref (i 123)) (-123)].
Check passes test_neg.

(** tests/sign.rs:17-23 *)
Definition test_abs (A : Arch) : bool := all
  [is_i (Ok (ibig_abs (i 123))) 123; is_i (Ok (ibig_abs (i (-123)))) 123; is_i (ibig_abs_ref (i (-123))) 123].
Check passes test_abs.

(** tests/sign.rs:25-31 *)
Definition test_unsigned_abs (A : Arch) : bool := all
  [is_u (Ok (unsigned_abs (i 123))) 123; is_u (Ok (unsigned_abs (i (-123)))) 123; is_u (unsigned_abs_ref (i (-123))) 123].
Check passes test_unsigned_abs.

(** tests/sign.rs:33-38 *)
Definition test_signum (A : Arch) : bool := all
  [is_i (signum (i (-500))) (-1); is_i (signum (i 0)) 0; is_i (signum (i 500)) 1].
Check passes test_signum.
