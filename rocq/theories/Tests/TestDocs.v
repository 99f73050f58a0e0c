(** The examples in the documentation of the crate (documentation tests of src, which
    include the one of README.md), and examples/factorial.rs. Examples that repeat
    another one, or draw random numbers, are left out. *)
From Verif Require Import Tests.Harness Tests.TestRadix Model.Bits Model.Convert Model.AddOps Model.MulOps Model.DivOps
  Model.PrimOps Model.Float Model.Gcd Model.Pow Model.Parse Model.Fmt Model.Macros Model.Modular Model.ModularFmt
  Proofs.TextSamples.

Definition is_true (r : res bool) : bool := match r with Ok b => b | Panic _ => false end.
Definition is_opt (r : res (option Z)) (o : option Z) : bool :=
  match r, o with Ok (Some x), Some y => x =? y | Ok None, None => true | _, _ => false end.

(** src/bits.rs:24-29, 45-52, 93-98, 127-133, 169-176, 191-196, 221-227 *)
Definition doc_bits (A : Arch) : bool := all
  [is_b (bit (u 18) 1) true; is_b (bit (u 18) 3) false; is_b (bit (u 18) 100) false;
   is_u (set_bit (u 4) 0) 5; is_u (set_bit (u 5) 10) 1029;
   is_u (clear_bit (u 5) 0) 4;
   is_opt (ubig_trailing_zeros (u 17)) (Some 0); is_opt (ubig_trailing_zeros (u 48)) (Some 4);
   is_opt (ubig_trailing_zeros (u 320)) (Some 6); is_opt (ubig_trailing_zeros (u 0)) None;
   is_z (ubig_bit_len (u 17)) 5; is_z (ubig_bit_len (u 320)) 9; is_z (ubig_bit_len (u 0)) 0;
   is_true (x <- TestRadix.unwrap (ubig_macro (TokIdent (txt "_0x90ffff3450897234")) None) ;;
     n <- ubig_bit_len x ;; t <- ubig_in_radix_text false x 2 plain_fmt ;; Ok (n =? Z.of_nat (List.length t)));
   is_b (is_power_of_two (u 0)) false; is_b (is_power_of_two (u 8)) true; is_b (is_power_of_two (u 9)) false;
   is_opt (ibig_trailing_zeros (i 17)) (Some 0); is_opt (ibig_trailing_zeros (i (-48))) (Some 4);
   is_opt (ibig_trailing_zeros (i (-320))) (Some 6); is_opt (ibig_trailing_zeros (i 0)) None].
Check passes doc_bits.

Definition is_bytes (r : res (list Z)) (l : list Z) : bool := match r with Ok t => same_text t l | Panic _ => false end.

(** src/convert.rs:35-38, 66-69, 97-101, 128-132, 161-164, 212-215, 265-268, 284-287 *)
Definition doc_convert (A : Arch) : bool := all
  [is_u (from_le_bytes [3; 2; 1]) 0x010203; is_u (from_be_bytes [1; 2; 3]) 0x010203;
   is_bytes (to_le_bytes (u 0)) []; is_bytes (to_le_bytes (u 0x010203)) [3; 2; 1];
   is_bytes (to_be_bytes (u 0)) []; is_bytes (to_be_bytes (u 0x010203)) [1; 2; 3];
   is_z (ubig_to_float f32 (u 134)) 0x43060000; is_z (ubig_to_float f64 (u 134)) 0x4060c00000000000;
   is_z (ibig_to_float f32 (i (-134))) 0xc3060000; is_z (ibig_to_float f64 (i (-134))) 0xc060c00000000000].
Check passes doc_convert.

(** src/fmt/mod.rs:169-173, 194-198, 219-226 *)
Definition doc_fmt (A : Arch) : bool :=
  let w10 sign := mkFormatter 32 None (Some 10) sign false true in
  all [is_text (fun e => ubig_in_radix_text e (u 83) 3 plain_fmt) "10002";
       is_text (fun e => ubig_in_radix_text e (u 35) 36 (w10 true)) "+00000000z";
       is_text (fun e => ibig_in_radix_text e (i (-83)) 3 plain_fmt) "-10002";
       is_text (fun e => ibig_in_radix_text e (i (-35)) 36 (w10 false)) "-00000000z";
       is_text (fun e => ubig_lower_hex e (u 3000) plain_fmt) "bb8";
       is_text (fun e => ibig_lower_hex e (i (-3000)) plain_fmt) "-bb8"].
Check passes doc_fmt.

(** src/gcd.rs:11-14, 65-75, 182-185, 202-212 *)
Definition doc_gcd (A : Arch) : bool :=
  all [is_u (ubig_gcd (u 12) (u 18)) 6; is_i (ibig_gcd (i (-12)) (i 18)) 6;
       is_true (let a := u 12 in let b := u 18 in
         '(g, x, y) <- ubig_extended_gcd a b ;;
         xa <- ibig_mul_rv x (ibig_from_ubig a) ;; yb <- ibig_mul_rv y (ibig_from_ubig b) ;;
         l1 <- ubig_le (unsigned_abs x) b ;; l2 <- ubig_le (unsigned_abs y) a ;;
         s <- ibig_add_vv xa yb ;;
         Ok (all [is_u (ubig_rem_rr a g) 0; is_u (ubig_rem_rr b g) 0; ibig_eqb s (ibig_from_ubig g); l1; l2]));
       is_true (let a := i (-12) in let b := i 18 in
         '(g, x, y) <- ibig_extended_gcd a b ;;
         xa <- ibig_mul_rr x a ;; yb <- ibig_mul_rr y b ;;
         c1 <- ibig_cmp (ibig_abs x) (ibig_abs b) ;; c2 <- ibig_cmp (ibig_abs y) (ibig_abs a) ;;
         s <- ibig_add_vv xa yb ;;
         Ok (all [is_i (ibig_rem_rr a g) 0; is_i (ibig_rem_rr b g) 0; ibig_eqb s g;
                  match c1 with Gt => false | _ => true end; match c2 with Gt => false | _ => true end]))].
Check passes doc_gcd.

Definition lit (s : string) (v : Z) := TokLiteral (txt s) v.
Definition id (s : string) := TokIdent (txt s).

(** src/ibig.rs:14-23, src/ubig.rs:32-41, src/macros.rs:7-33, 64-90 *)
Definition doc_macros (A : Arch) : bool :=
  let same_u x y := is_true (x <- TestRadix.unwrap x ;; y <- TestRadix.unwrap y ;; Ok (ubig_eqb x y)) in
  let same_i x y := is_true (x <- TestRadix.unwrap x ;; y <- TestRadix.unwrap y ;; Ok (ibig_eqb x y)) in
  let pi31 := 314159265358979323846264338327950288419716939937 in
  all [same_u (ubig_macro (id "a2a123bbb127779cccc123123ccc") (Some 32)) (ubig_from_str_radix (txt "a2a123bbb127779cccc123123ccc") 32);
       same_u (ubig_macro (lit "0x1231abcd4134" 0x1231abcd4134) None) (ubig_from_str_radix (txt "1231abcd4134") 16);
       same_i (ibig_macro false (id "a2a123bbb127779cccc123123ccc") (Some 32)) (ibig_from_str_radix (txt "a2a123bbb127779cccc123123ccc") 32);
       same_i (ibig_macro true (lit "0x1231abcd4134" 0x1231abcd4134) None) (ibig_from_str_radix (txt "-1231abcd4134") 16);
       pu (ubig_macro (lit "100" 100) None) 100; pu (ubig_macro (lit "0b101" 5) None) 5;
       pu (ubig_macro (lit "0o202" 130) None) 130; pu (ubig_macro (lit "0x2ff" 767) None) 767;
       pu (ubig_macro (id "a3gp1") (Some 32)) 10601249;
       pu (ubig_macro (id "_314159265358979323846264338327950288419716939937") None) pi31;
       same_u (ubig_macro (id "_0b102") (Some 32)) (ubig_macro (id "b102") (Some 32));
       pu (ubig_macro (id "_100ef") (Some 32)) 1049039;
       pi (ibig_macro false (lit "100" 100) None) 100; pi (ibig_macro true (lit "0b101" 5) None) (-5);
       pi (ibig_macro false (lit "0o202" 130) None) 130; pi (ibig_macro true (lit "0x2ff" 767) None) (-767);
       pi (ibig_macro true (id "a3gp1") (Some 32)) (-10601249);
       pi (ibig_macro true (id "_314159265358979323846264338327950288419716939937") None) (- pi31);
       same_i (ibig_macro false (id "_0b102") (Some 32)) (ibig_macro false (id "b102") (Some 32));
       pi (ibig_macro true (id "_100ef") (Some 32)) (-1049039)].
Check passes doc_macros.

(** src/lib.rs:26-53, README.md:18-43. Untyped literals are [i32]. *)
Definition doc_lib (A : Arch) : bool :=
  let b := u 0x10ff in
  all [is_u (x <- ubig_mul_ref_signed 32 b 2 ;; ubig_add_signed 32 x 1) 0x21ff;
       is_text (fun e => c <- TestRadix.unwrap (ibig_macro true (TokIdent (txt "azz")) (Some 36)) ;; ibig_display e c plain_fmt) "-14255";
       is_text (fun e => p <- ubig_pow b 10 ;; f <- ubig_mul_vv (u 12345678) p ;; ubig_in_radix_text e f 16 plain_fmt)
         "1589bda8effbfc495d8d73c83d8b27f94954e";
       is_text (fun e => d <- TestRadix.unwrap (ubig_from_str (txt "15033211231241234523452345345787")) ;;
           r <- ubig_rem_vv d (u 0xabcd1234134132451345) ;; ubig_lower_hex e r (mkFormatter 32 None None false true false))
         "0x1a7e7c487267d2658a93";
       is_text (fun e => r <- ring_new 1 (u 10000) ;; x <- signed_into_modulo 32 12345 r ;; y <- signed_into_modulo 32 55443 r ;;
           z <- mod_sub_vv x y ;; modulo_fmt e None TDisplay z plain_fmt) "6902 (mod 10000)"].
Check passes doc_lib.

(** src/modular/convert.rs:26-30, 43-49, 79-84, src/modular/div.rs:17-22, src/modular/modulo.rs:14-20 *)
Definition doc_modular (A : Arch) : bool :=
  let ring_of n := ring_new 1 (u n) in
  all [is_u (r <- ring_of 100 ;; ring_modulus r) 100;
       is_true (r <- ring_of 100 ;; x <- signed_into_modulo 32 (-1234) r ;; y <- ubig_into_modulo (u 3366) r ;; modulo_eq x y);
       is_u (r <- ring_of 100 ;; x <- signed_into_modulo 32 (-1234) r ;; residue x) 66;
       is_true (r <- ring_of 10 ;; x <- signed_into_modulo 32 7 r ;; y <- signed_into_modulo 32 3 r ;;
         o <- inverse x ;; match o with Some z => modulo_eq z y | None => Ok false end);
       is_true (r <- ring_of 10 ;; x <- signed_into_modulo 32 2 r ;; o <- inverse x ;;
         match o with Some z => Ok false | None => Ok true end);
       is_u (r <- ring_of 10000 ;; x <- signed_into_modulo 32 12345 r ;; y <- signed_into_modulo 32 55443 r ;;
         z <- mod_sub_vv x y ;; residue z) 6902].
Check passes doc_modular.

(** src/modular/pow.rs:20-28, 45-50: Fermat's little theorem modulo a Mersenne prime,
    here 2^127 - 1 instead of 2^607 - 1, which takes minutes to evaluate *)
Definition doc_modular_pow (A : Arch) : bool :=
  all [is_true (q <- ubig_pow (u 2) 127 ;; p <- ubig_sub_vv q (u 1) ;; r <- ring_new 1 p ;;
         a <- signed_into_modulo 32 123 r ;; e <- ubig_sub_vv p (u 1) ;; x <- mod_pow a e ;;
         one <- signed_into_modulo 32 1 r ;; modulo_eq x one);
       is_true (r <- ring_new 1 (u 10) ;; a <- signed_into_modulo 32 2 r ;; b <- signed_into_modulo 32 6 r ;;
         x <- mod_pow_signed a (i 4) ;; modulo_eq x b);
       is_true (r <- ring_new 1 (u 10) ;; a <- signed_into_modulo 32 3 r ;;
         x <- mod_pow_signed a (i (-3)) ;; modulo_eq x a)].
Check passes doc_modular_pow.

(** src/ops.rs:10-13, 23-26, 36-39, 49-52, 62-65, 76-79, 89-92, 102-105, src/pow.rs:14-17, 57-60, src/sign.rs:39-42 *)
Definition doc_ops (A : Arch) : bool := all
  [is_u (ubig_and_not_vv (u 0xff) (u 0x1111)) 0xee; is_u (next_power_of_two_v (u 5)) 8;
   is_i (Ok (ibig_abs (i (-5)))) 5; is_u (Ok (unsigned_abs (i (-5)))) 5;
   is_uu (ubig_div_rem_vv (u 23) (u 10)) 2 3; is_i (ibig_div_euclid_vv (i (-23)) (i 10)) (-3);
   is_i (ibig_rem_euclid_vv (i (-23)) (i 10)) 7; is_ii (ibig_div_rem_euclid_vv (i (-23)) (i 10)) (-3) 7;
   is_u (ubig_pow (u 3) 3) 27; is_i (ibig_pow (i (-3)) 3) (-27); is_i (signum (i (-500))) (-1)].
Check passes doc_ops.

(** src/parse/mod.rs:42-46, 61-66, 115-119, 144-149 *)
Definition doc_parse (A : Arch) : bool := all
  [pu (ubig_from_str_radix (txt "+7ab") 32) 7499;
   pu (ubig_from_str_with_radix_prefix (txt "+0o17")) 15; pu (ubig_from_str_with_radix_prefix (txt "0x1f")) 31;
   pi (ibig_from_str_radix (txt "-7ab") 32) (-7499);
   pi (ibig_from_str_with_radix_prefix (txt "+0o17")) 15; pi (ibig_from_str_with_radix_prefix (txt "-0x1f")) (-31)].
Check passes doc_parse.

(** examples/factorial.rs:4-11: [product], for a range of [n] numbers *)
Fixpoint product {A : Arch} (fuel : nat) (a b : Z) : res ubig :=
  match fuel with
  | O => Panic Internal
  | S fuel =>
      if b =? a + 1 then ubig_from_unsigned 32 a
      else let mid := a + (b - a) / 2 in
        x <- product fuel a mid ;; y <- product fuel mid b ;; ubig_mul_vv x y
  end.
(** examples/factorial.rs:13-17, for 300 instead of 1000000 *)
Definition factorial (A : Arch) : bool :=
  is_u (product 32 1 301) (fold_left Z.mul (map Z.of_nat (seq 1 300)) 1).
Check passes factorial.
