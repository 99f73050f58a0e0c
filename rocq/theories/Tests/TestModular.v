(** tests/modular.rs *)
From Verif Require Import Tests.Harness Model.Pow Model.AddOps Model.MulOps Model.ShiftOps Model.Modular Model.Fmt Model.ModularFmt Proofs.TextSamples.

(** [ModuloRing::new(&ubig!(n))]; rings are told apart by their address. *)
Definition ring_at {A : Arch} (addr n : Z) : res ring := ring_new addr (u n).
(** [ring.from(x)] for an untyped literal, which is an [i32] *)
Definition of_lit {A : Arch} (r : ring) (x : Z) : res modulo := signed_into_modulo 32 x r.
(** [ring.from(ubig!(x))] *)
Definition of_u {A : Arch} (r : ring) (x : Z) : res modulo := ubig_into_modulo (u x) r.

(** [assert_eq!], [assert_ne!] *)
Definition eq_m {A : Arch} (x y : res modulo) : bool := is_b (x <- x ;; y <- y ;; modulo_eq x y) true.
Definition ne_m {A : Arch} (x y : res modulo) : bool := is_b (x <- x ;; y <- y ;; modulo_eq x y) false.
Definition is_ok (r : res bool) : bool := is_b r true.

Definition e30 : Z := 10 ^ 30.

(** tests/modular.rs:3-10 *)
Definition test_modulus (A : Arch) : bool :=
  all [is_u (r <- ring_at 1 100 ;; ring_modulus r) 100;
       is_u (n <- ubig_pow (u 10) 100 ;; r <- ring_new 1 n ;; ring_modulus r) (10 ^ 100)].
Check passes test_modulus.

(** tests/modular.rs:12-42 *)
Definition test_clone (A : Arch) : bool := is_ok (
  ring1 <- ring_at 1 100 ;; ring2 <- ring_at 2 e30 ;; n <- ubig_pow (u 10) 100 ;; ring3 <- ring_new 3 n ;;
  x1 <- of_lit ring1 512 ;; z1 <- of_lit ring1 513 ;; x2 <- of_lit ring2 512 ;; z2 <- of_lit ring2 513 ;;
  y2 <- of_lit ring2 1 ;; y3 <- of_lit ring3 2 ;;
  Ok (all [eq_m (Ok x1) (Ok (mod_clone x1)); ne_m (Ok x1) (Ok z1); eq_m (Ok x1) (Ok (mod_clone_from z1 x1));
           eq_m (Ok x2) (Ok (mod_clone x2)); ne_m (Ok x2) (Ok z2); eq_m (Ok x2) (Ok (mod_clone_from z2 x2));
           eq_m (Ok (mod_clone_from x1 y2)) (Ok y2); eq_m (Ok y2) (Ok (mod_clone_from y3 y2))])).
Check passes test_clone.

(** tests/modular.rs:44-102 *)
Definition test_convert (A : Arch) : bool :=
  let big := 18297381723918723981723981723906 in let e60 := 10 ^ 60 in
  is_ok (ring <- ring_at 1 100 ;; let x := of_lit ring 6 in
    Ok (all [eq_m x (ubig_ref_into_modulo (u 306) ring); ne_m x (ubig_ref_into_modulo (u 313) ring);
             eq_m x (ubig_ref_into_modulo (u big) ring); ne_m x (ubig_ref_into_modulo (u 18297381723918723981723981723913) ring);
             eq_m x (ubig_into_modulo (u big) ring); eq_m x (ibig_into_modulo (i big) ring);
             eq_m x (ibig_into_modulo (i (-18297381723918723981723981723994)) ring);
             eq_m x (ibig_ref_into_modulo (i (-18297381723918723981723981723994)) ring);
             forallb (fun '(tb, v) => eq_m x (unsigned_into_modulo tb v ring))
               [(8, 106); (16, 106); (32, 1006); (64, 10000000006); (128, 1000000000000000000006); (ubits, 106)];
             eq_m x (signed_into_modulo 8 6 ring);
             forallb (fun tb => eq_m x (signed_into_modulo tb (-94) ring)) [8; 16; 32; 64; 128; ubits];
             eq_m (of_lit ring 0) (bool_into_modulo false ring); eq_m (of_lit ring 1) (bool_into_modulo true ring)])) &&
  is_ok (ring <- ring_at 1 e60 ;; let x := of_lit ring 6 in let y := of_u ring 333333333333333333333333333333 in
    Ok (all [eq_m x (of_u ring (e60 + 6)); eq_m x (ubig_ref_into_modulo (u (e60 + 6)) ring); ne_m x (of_u ring (e60 + 7));
             eq_m y (of_u ring 7000000000000000000000000000000333333333333333333333333333333)])).
Check passes test_convert.

(** tests/modular.rs:104-120 *)
Definition test_negate (A : Arch) : bool :=
  is_ok (ring <- ring_at 1 100 ;; x <- of_lit ring (-1234) ;;
    Ok (all [is_u (y <- mod_neg_r x ;; residue y) 34; is_u (y <- mod_neg_v x ;; residue y) 34])) &&
  is_ok (ring <- ring_at 1 e30 ;; x <- ibig_into_modulo (i (-33333123456789012345678901234567890)) ring ;;
    Ok (all [eq_m (mod_neg_r x) (of_u ring 44444123456789012345678901234567890);
             is_u (y <- mod_neg_r x ;; residue y) 123456789012345678901234567890;
             eq_m (mod_neg_v x) (of_u ring 44444123456789012345678901234567890)])).
Check passes test_negate.

(** tests/modular.rs:122-129 *)
Definition test_different_rings (A : Arch) : bool :=
  is_ok (ring1 <- ring_at 1 100 ;; ring2 <- ring_at 2 100 ;; Ok (all [ring_eqb ring1 ring1; negb (ring_eqb ring1 ring2)])).
Check passes test_different_rings.

(** The operands of the tests with different rings *)
Definition mixed {A : Arch} {T} (v : Z) (op : modulo -> modulo -> res T) : bool :=
  is_ok (ring1 <- ring_at 1 100 ;; ring2 <- ring_at 2 200 ;; x <- of_lit ring1 v ;; y <- of_lit ring2 v ;; Ok (should_panic (op x y))).

(** tests/modular.rs:131-139 *)
Definition test_cmp_different_rings (A : Arch) : bool := mixed 5 modulo_eq.
Check passes test_cmp_different_rings.

(** tests/modular.rs:141-194 *)
Definition test_add_sub (A : Arch) : bool := is_ok (
  ring1 <- ring_at 1 100 ;; ring2 <- ring_at 2 e30 ;;
  Ok (forallb (fun '(a, b, c) => is_ok (a <- a ;; b <- b ;; c <- c ;;
        let t a b c := all
          [forallb (fun op => eq_m (op a b) (Ok c))
             [mod_add_rr; mod_add_vr; mod_add_rv; mod_add_vv; mod_add_assign_r; mod_add_assign_v];
           forallb (fun op => eq_m (op c a) (Ok b))
             [mod_sub_rr; mod_sub_vr; mod_sub_rv; mod_sub_vv; mod_sub_assign_r; mod_sub_assign_v]] in
        Ok (t a b c && t b a c)))
      [(of_lit ring1 1, of_lit ring1 2, of_lit ring1 3); (of_lit ring1 99, of_lit ring1 5, of_lit ring1 4);
       (of_lit ring1 99, of_lit ring1 99, of_lit ring1 98);
       (of_u ring2 111111111111111111111111111111, of_u ring2 222222222222222223333333333333, of_u ring2 333333333333333334444444444444);
       (of_u ring2 111111111111111111111111111111, of_u ring2 888888888888888888888888888889, of_u ring2 0);
       (of_u ring2 999999999999999999999999999999, of_u ring2 999999999999999999999999999997, of_u ring2 999999999999999999999999999996)])).
Check passes test_add_sub.

(** tests/modular.rs:196-233, with 10^100 in place of 10^10000 *)
Definition test_mul (A : Arch) : bool := is_ok (
  ring1 <- ring_at 1 100 ;; ring2 <- ring_at 2 e30 ;; big <- ubig_pow (u 10) 100 ;; ring3 <- ring_new 3 big ;;
  let big_1 := x <- ubig_sub_rv big (u 1) ;; ubig_into_modulo x ring3 in
  Ok (forallb (fun '(a, b, c) => is_ok (a <- a ;; b <- b ;; c <- c ;;
        let t a b c := forallb (fun op => eq_m (op a b) (Ok c))
             [mod_mul_rr; mod_mul_vr; mod_mul_rv; mod_mul_vv; mod_mul_assign_r; mod_mul_assign_v] in
        Ok (t a b c && t b a c)))
      [(of_lit ring1 23, of_lit ring1 96, of_lit ring1 8);
       (of_u ring2 46301564276035228370597101114, of_u ring2 170100953649249045221461413048, of_u ring2 399394418012748758198974935472);
       (big_1, big_1, of_lit ring3 1)])).
Check passes test_mul.

Definition inv_is {A : Arch} (x y : res modulo) : bool :=
  match (x <- x ;; inverse x) with Ok (Some z) => eq_m (Ok z) y | _ => false end.
Definition inv_mul {A : Arch} (x one : res modulo) : bool :=
  match (x <- x ;; inverse x) with Ok (Some y) => eq_m (x <- x ;; mod_mul_vv x y) one | _ => false end.
Definition no_inv {A : Arch} (x : res modulo) : bool := match (x <- x ;; inverse x) with Ok None => true | _ => false end.

(** tests/modular.rs:235-262 *)
Definition test_inverse (A : Arch) : bool := is_ok (
  r1 <- ring_at 1 1 ;; r2 <- ring_at 2 100 ;; r3 <- ring_at 3 103 ;; r4 <- ring_at 4 e30 ;; r5 <- ring_at 5 1000000000000000000000000000057 ;;
  Ok (all [inv_is (of_lit r1 0) (of_lit r1 0); inv_mul (of_lit r2 9) (of_lit r2 1); no_inv (of_lit r2 10);
           inv_is (of_lit r3 20) (of_lit r3 67);
           inv_mul (ibig_into_modulo (i 3333312345678901234567890123456789) r4) (of_lit r4 1); no_inv (of_lit r4 10);
           inv_is (of_lit r5 123456789) (of_u r5 951144331155413413514262063034)])).
Check passes test_inverse.

(** tests/modular.rs:264-286 *)
Definition test_div (A : Arch) : bool := is_ok (
  r1 <- ring_at 1 1 ;; z <- of_lit r1 0 ;; r2 <- ring_at 2 10 ;; a <- of_lit r2 2 ;; b <- of_lit r2 3 ;;
  Ok (all [eq_m (mod_div_vv z z) (Ok z);
           forallb (fun op => eq_m (op a b) (of_lit r2 4))
             [mod_div_vv; mod_div_vr; mod_div_rv; mod_div_rr; mod_div_assign_v; mod_div_assign_r]])).
Check passes test_div.

(** tests/modular.rs:288-296 *)
Definition test_add_different_rings (A : Arch) : bool := mixed 5 mod_add_vv.
Check passes test_add_different_rings.

(** tests/modular.rs:298-306 *)
Definition test_sub_different_rings (A : Arch) : bool := mixed 5 mod_sub_vv.
Check passes test_sub_different_rings.

(** tests/modular.rs:308-316 *)
Definition test_mul_different_rings (A : Arch) : bool := mixed 5 mod_mul_vv.
Check passes test_mul_different_rings.

(** tests/modular.rs:318-326 *)
Definition test_div_different_rings (A : Arch) : bool := mixed 1 mod_div_vv.
Check passes test_div_different_rings.

(** tests/modular.rs:328-335 *)
Definition test_div_by_noninvertible (A : Arch) : bool :=
  is_ok (ring <- ring_at 1 100 ;; x <- of_lit ring 10 ;; y <- of_lit ring 2 ;; Ok (should_panic (mod_div_vv x y))).
Check passes test_div_by_noninvertible.

(** tests/modular.rs:337-365, with the exponent 2^1000 * 40 + 3 in place of
    2^10000 * 40 + 3, and the Mersenne prime 2^127 - 1 in place of 2^4423 - 1 *)
Definition test_pow (A : Arch) : bool :=
  let pw r x e := x <- of_lit r x ;; mod_pow x (u e) in
  is_ok (r <- ring_at 1 100 ;;
    Ok (all [eq_m (pw r 0 0) (of_lit r 1); eq_m (pw r 13 0) (of_lit r 1); eq_m (pw r 13 1) (of_lit r 13);
             eq_m (pw r 13 2) (of_lit r 69); eq_m (pw r 13 12837918273) (of_lit r 53);
             eq_m (pw r 13 (2 ^ 1000 * 40 + 3)) (of_lit r 97)])) &&
  is_ok (r <- ring_at 1 e30 ;; x <- of_u r 658571505947767552546868380533 ;;
    Ok (all [eq_m (mod_pow x (u 0)) (of_lit r 1); eq_m (mod_pow x (u 1)) (Ok x);
             eq_m (mod_pow x (u 794990856522773482558337459018)) (of_u r 660533815789733011052086421209)])) &&
  is_ok (n <- ubig_pow (u 2) 127 ;; prime <- ubig_sub_vv n (u 1) ;; r <- ring_new 1 prime ;; x <- of_lit r 13 ;;
    e <- ubig_sub_vv prime (u 1) ;; Ok (eq_m (mod_pow x e) (of_lit r 1))).
Check passes test_pow.

(** tests/modular.rs:367-372 *)
Definition test_pow_signed (A : Arch) : bool :=
  let pw r x e := x <- of_lit r x ;; mod_pow_signed x (i e) in
  is_ok (r <- ring_at 1 100 ;; Ok (all [eq_m (pw r 2 10) (of_lit r 24); eq_m (pw r 3 (-3)) (of_lit r 63)])).
Check passes test_pow_signed.

(** tests/modular.rs:374-379 *)
Definition test_pow_signed_noninvertible (A : Arch) : bool :=
  is_ok (r <- ring_at 1 100 ;; x <- of_lit r 2 ;; Ok (should_panic (mod_pow_signed x (i (-2))))).
Check passes test_pow_signed_noninvertible.

Definition plain_fmt : Formatter := mkFormatter 32 None None false false false.
Definition alt_fmt : Formatter := mkFormatter 32 None None false true false.
(** [assert_eq!(format!(..), s)], on little and big endian platforms *)
Definition is_text (f : bool -> res (list Z)) (s : string) : bool :=
  forallb (fun e => match f e with Ok t => if list_eq_dec Z.eq_dec t (txt s) then true else false | Panic _ => false end) [false; true].
Arguments is_text f s%string.

(** tests/modular.rs:381-419 *)
Definition test_format (A : Arch) : bool :=
  is_ok (ring <- ring_at 1 100 ;; x <- of_lit ring 105 ;;
    let shows t f := is_text (fun e => modulo_fmt e None t x f) in
    Ok (all [is_text (fun e => ring_fmt e None TDisplay ring plain_fmt) "mod 100";
             shows TDisplay plain_fmt "5 (mod 100)"; shows TDebug plain_fmt "5 (mod 100)";
             shows TDisplay (mkFormatter 61 (Some AlignCenter) (Some 5) false false false) "==5== (mod =100=)";
             shows TBinary plain_fmt "101 (mod 1100100)"; shows TOctal plain_fmt "5 (mod 144)";
             shows TLowerHex alt_fmt "0x5 (mod 0x64)"; shows TUpperHex plain_fmt "5 (mod 64)"]%string)) &&
  is_ok (ring <- ring_at 1 e30 ;; x <- of_lit ring 1 ;; x <- mod_neg_v x ;;
    let shows t f := is_text (fun e => modulo_fmt e None t x f) in
    Ok (all [is_text (fun e => ring_fmt e None TDisplay ring plain_fmt) "mod 1000000000000000000000000000000";
             shows TDebug plain_fmt "999999999999999999999999999999 (mod 1000000000000000000000000000000)";
             shows TDisplay (mkFormatter 32 None (Some 35) false false false)
               "     999999999999999999999999999999 (mod     1000000000000000000000000000000)";
             shows TBinary plain_fmt "1100100111110010110010011100110100000100011001110100111011011110101000111111111111111111111111111111 (mod 1100100111110010110010011100110100000100011001110100111011011110101001000000000000000000000000000000)";
             shows TOctal alt_fmt "0o1447626234640431647336507777777777 (mod 0o1447626234640431647336510000000000)";
             shows TLowerHex plain_fmt "c9f2c9cd04674edea3fffffff (mod c9f2c9cd04674edea40000000)";
             shows TUpperHex plain_fmt "C9F2C9CD04674EDEA3FFFFFFF (mod C9F2C9CD04674EDEA40000000)"]%string)).
Check passes test_format.
