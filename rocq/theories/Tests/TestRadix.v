(** tests/radix.rs *)
From Verif Require Import Tests.Harness Model.Convert Model.AddOps Model.ShiftOps Model.Pow Model.Fmt Model.Parse
  Model.Macros Proofs.TextSamples.

(** [{}] *)
Definition plain_fmt : Formatter := mkFormatter 32 None None false false false.

Definition same_text (l1 l2 : list Z) : bool := if list_eq_dec Z.eq_dec l1 l2 then true else false.

(** [assert_eq!(format!(..), s)], on little and big endian platforms *)
Definition is_text (f : bool -> res (list Z)) (s : string) : bool :=
  forallb (fun e => match f e with Ok t => same_text t (txt s) | Panic _ => false end) [false; true].
Arguments is_text f s%string.

(** [assert_eq!(r, Ok(ubig!(z)))], [assert_eq!(r.unwrap_err(), e)] *)
Definition pu {A : Arch} (r : res (presult ubig)) (z : Z) : bool := match r with Ok (POk x) => is_u (Ok x) z | _ => false end.
Definition pi {A : Arch} (r : res (presult ibig)) (z : Z) : bool := match r with Ok (POk x) => is_i (Ok x) z | _ => false end.
Definition no_digits {T} (r : res (presult T)) : bool := match r with Ok (PErr NoDigits) => true | _ => false end.
Definition invalid_digit {T} (r : res (presult T)) : bool := match r with Ok (PErr InvalidDigit) => true | _ => false end.
Definition unwrap {T} (r : res (presult T)) : res T :=
  x <- r ;; match x with POk x => Ok x | PErr _ => Panic Internal end.

(** tests/radix.rs:3-63 *)
Definition test_ubig_format (A : Arch) : bool :=
  let of_a (f : bool -> ubig -> res (list Z)) (s : string) := is_text (fun e => a <- from_be_bytes
    [0x05; 0xee; 0x01; 0x23; 0x45; 0x67; 0x89; 0xab; 0xcd; 0xef; 0x01; 0x23; 0x45; 0x67; 0x89; 0xab; 0xcd; 0xef; 0x01; 0x23; 0x45; 0x67; 0x89; 0xab; 0xcd; 0xef; 0x01; 0x23; 0x45; 0x67; 0x89; 0xab; 0xcd; 0xef; 0x01; 0x23; 0x45; 0x67; 0x89; 0xab; 0xcd; 0xef] ;; f e a) s in
  all [is_text (fun e => ubig_binary e (u 0) plain_fmt) "0";
       is_text (fun e => ubig_binary e (u 100) plain_fmt) "1100100";
       is_text (fun e => ubig_binary e (u 100) (mkFormatter 32 None None false true false)) "0b1100100";
       is_text (fun e => ubig_binary e (u 100) (mkFormatter 32 None None true false false)) "+1100100";
       is_text (fun e => ubig_binary e (u 100) (mkFormatter 32 None None true true false)) "+0b1100100";
       is_text (fun e => ubig_binary e (u 100) (mkFormatter 32 None (Some 10) false false false)) "   1100100";
       is_text (fun e => ubig_binary e (u 100) (mkFormatter 61 (Some AlignLeft) (Some 10) false false false)) "1100100===";
       is_text (fun e => ubig_binary e (u 100) (mkFormatter 61 (Some AlignRight) (Some 10) false false false)) "===1100100";
       is_text (fun e => ubig_binary e (u 100) (mkFormatter 61 (Some AlignCenter) (Some 10) false false false)) "=1100100==";
       is_text (fun e => ubig_binary e (u 100) (mkFormatter 61 (Some AlignCenter) (Some 10) true false false)) "=+1100100=";
       is_text (fun e => ubig_binary e (u 100) (mkFormatter 32 None (Some 10) true false true)) "+001100100";
       is_text (fun e => ubig_binary e (u 100) (mkFormatter 32 None (Some 10) true true true)) "+0b1100100";
       is_text (fun e => ubig_binary e (u 100) (mkFormatter 32 None (Some 1) true true true)) "+0b1100100";
       is_text (fun e => ubig_octal e (u 100) plain_fmt) "144";
       is_text (fun e => ubig_octal e (u 100) (mkFormatter 32 None None false true false)) "0o144";
       is_text (fun e => ubig_lower_hex e (u 3000) plain_fmt) "bb8";
       is_text (fun e => ubig_lower_hex e (u 3000) (mkFormatter 32 None None false true false)) "0xbb8";
       is_text (fun e => ubig_upper_hex e (u 3000) plain_fmt) "BB8";
       is_text (fun e => ubig_upper_hex e (u 3000) (mkFormatter 32 None None false true false)) "0xBB8";
       is_text (fun e => ubig_upper_hex e (u 3000) (mkFormatter 32 None (Some 10) false true false)) "     0xBB8";
       is_text (fun e => ubig_display e (u 123) plain_fmt) "123";
       is_text (fun e => ubig_debug e (u 123) plain_fmt) "123";
       is_text (fun e => ubig_display e (u 123) (mkFormatter 61 (Some AlignRight) (Some 5) false false false)) "==123";
       of_a (fun e a => ubig_lower_hex e a plain_fmt) "5ee0123456789abcdef0123456789abcdef0123456789abcdef0123456789abcdef0123456789abcdef"%string;
       of_a (fun e a => ubig_upper_hex e a plain_fmt) "5EE0123456789ABCDEF0123456789ABCDEF0123456789ABCDEF0123456789ABCDEF0123456789ABCDEF"%string;
       of_a (fun e a => ubig_upper_hex e a (mkFormatter 32 (Some AlignCenter) (Some 100) false false false)) "        5EE0123456789ABCDEF0123456789ABCDEF0123456789ABCDEF0123456789ABCDEF0123456789ABCDEF         "%string;
       of_a (fun e a => ubig_octal e a plain_fmt) "136700110642547423257157360044321263611527467570022150531704653633674011064254742325715736004432126361152746757"%string;
       of_a (fun e a => ubig_octal e a (mkFormatter 32 (Some AlignRight) (Some 120) false false false)) "         136700110642547423257157360044321263611527467570022150531704653633674011064254742325715736004432126361152746757"%string;
       of_a (fun e a => ubig_display e a (mkFormatter 32 (Some AlignRight) (Some 120) false false false)) "                    3242437813803656709120330082944443281812289638998304588119616982843278155375835513236887964094287343"%string].
Check passes test_ubig_format.

(** tests/radix.rs:65-101 *)
Definition test_ubig_in_radix (A : Arch) : bool :=
  let of_a (f : bool -> ubig -> res (list Z)) (s : string) := is_text (fun e => a <- from_le_bytes (repeat 0xff 50) ;; f e a) s in
  all [is_text (fun e => ubig_in_radix_text e (u 0) 2 plain_fmt) "0";
       is_text (fun e => ubig_in_radix_text e (u 100) 4 plain_fmt) "1210";
       is_text (fun e => ubig_in_radix_text e (u 3000) 16 plain_fmt) "bb8";
       is_text (fun e => ubig_in_radix_text e (u 3000) 16 (mkFormatter 32 None (Some 10) true false true)) "+000000bb8";
       is_text (fun e => ubig_in_radix_text e (u 3000) 16 (mkFormatter 32 None (Some 10) true true true)) "+000000BB8";
       is_text (fun e => ubig_in_radix_text e (u 1294) 36 plain_fmt) "zy";
       is_text (fun e => ubig_in_radix_text e (u 1294) 36 (mkFormatter 32 None (Some 10) false true true)) "00000000ZY";
       is_text (fun e => ubig_in_radix_text e (u 0xffffffff) 3 plain_fmt) "102002022201221111210";
       is_text (fun e => ubig_in_radix_text e (u 0xffffffffffffffff) 3 plain_fmt) "11112220022122120101211020120210210211220";
       of_a (fun e a => ubig_in_radix_text e a 32 plain_fmt) "vvvvvvvvvvvvvvvvvvvvvvvvvvvvvvvvvvvvvvvvvvvvvvvvvvvvvvvvvvvvvvvvvvvvvvvvvvvvvvvv"%string;
       is_text (fun e => ubig_display e (u 123456789) plain_fmt) "123456789";
       is_text (fun e => ubig_display e (u 123456789000000000000000000000000000000000123789749847509837450987340589273405) plain_fmt) "123456789000000000000000000000000000000000123789749847509837450987340589273405";
       is_text (fun e => ubig_display e (u 0x83c0d7401f0188462502c2e5f7035386b1c341d307e5fbe8200756201607769a706134cfab1) plain_fmt) "1048383517376714931597372965085953822045235087388094946568022880798260489887669110556129969";
       is_text (fun e => ubig_in_radix_text e (u 1048383517376714931597372965085953822045235087388094946568022880798260489887669110556129969) 16 plain_fmt) "83c0d7401f0188462502c2e5f7035386b1c341d307e5fbe8200756201607769a706134cfab1"].
Check passes test_ubig_in_radix.

(** tests/radix.rs:103-148 *)
Definition test_ibig_format (A : Arch) : bool :=
  all [is_text (fun e => ibig_binary e (i 0) plain_fmt) "0";
       is_text (fun e => ibig_binary e (i 100) plain_fmt) "1100100";
       is_text (fun e => ibig_binary e (i (-100)) plain_fmt) "-1100100";
       is_text (fun e => ibig_binary e (i 100) (mkFormatter 32 None None false true false)) "0b1100100";
       is_text (fun e => ibig_binary e (i (-100)) (mkFormatter 32 None None false true false)) "-0b1100100";
       is_text (fun e => ibig_binary e (i 100) (mkFormatter 32 None None true false false)) "+1100100";
       is_text (fun e => ibig_binary e (i (-100)) (mkFormatter 32 None None true false false)) "-1100100";
       is_text (fun e => ibig_binary e (i 100) (mkFormatter 32 None None true true false)) "+0b1100100";
       is_text (fun e => ibig_binary e (i (-100)) (mkFormatter 32 None None true true false)) "-0b1100100";
       is_text (fun e => ibig_binary e (i 100) (mkFormatter 32 None (Some 10) false false false)) "   1100100";
       is_text (fun e => ibig_binary e (i (-100)) (mkFormatter 32 None (Some 10) false false false)) "  -1100100";
       is_text (fun e => ibig_binary e (i 100) (mkFormatter 61 (Some AlignLeft) (Some 10) false false false)) "1100100===";
       is_text (fun e => ibig_binary e (i (-100)) (mkFormatter 61 (Some AlignLeft) (Some 10) false false false)) "-1100100==";
       is_text (fun e => ibig_binary e (i 100) (mkFormatter 61 (Some AlignRight) (Some 10) false false false)) "===1100100";
       is_text (fun e => ibig_binary e (i (-100)) (mkFormatter 61 (Some AlignRight) (Some 10) false false false)) "==-1100100";
       is_text (fun e => ibig_binary e (i 100) (mkFormatter 61 (Some AlignCenter) (Some 10) false false false)) "=1100100==";
       is_text (fun e => ibig_binary e (i (-100)) (mkFormatter 61 (Some AlignCenter) (Some 10) false false false)) "=-1100100=";
       is_text (fun e => ibig_binary e (i 100) (mkFormatter 61 (Some AlignCenter) (Some 10) true false false)) "=+1100100=";
       is_text (fun e => ibig_binary e (i (-100)) (mkFormatter 61 (Some AlignCenter) (Some 10) true false false)) "=-1100100=";
       is_text (fun e => ibig_binary e (i 100) (mkFormatter 32 None (Some 10) true false true)) "+001100100";
       is_text (fun e => ibig_binary e (i (-100)) (mkFormatter 32 None (Some 10) true false true)) "-001100100";
       is_text (fun e => ibig_binary e (i 100) (mkFormatter 32 None (Some 10) true true true)) "+0b1100100";
       is_text (fun e => ibig_binary e (i (-100)) (mkFormatter 32 None (Some 10) true true true)) "-0b1100100";
       is_text (fun e => ibig_binary e (i 100) (mkFormatter 32 None (Some 1) true true true)) "+0b1100100";
       is_text (fun e => ibig_binary e (i (-100)) (mkFormatter 32 None (Some 1) true true true)) "-0b1100100";
       is_text (fun e => ibig_octal e (i 100) plain_fmt) "144";
       is_text (fun e => ibig_octal e (i (-100)) plain_fmt) "-144";
       is_text (fun e => ibig_octal e (i 100) (mkFormatter 32 None None false true false)) "0o144";
       is_text (fun e => ibig_octal e (i (-100)) (mkFormatter 32 None None false true false)) "-0o144";
       is_text (fun e => ibig_lower_hex e (i 3000) plain_fmt) "bb8";
       is_text (fun e => ibig_lower_hex e (i (-3000)) plain_fmt) "-bb8";
       is_text (fun e => ibig_lower_hex e (i 3000) (mkFormatter 32 None None false true false)) "0xbb8";
       is_text (fun e => ibig_lower_hex e (i (-3000)) (mkFormatter 32 None None false true false)) "-0xbb8";
       is_text (fun e => ibig_upper_hex e (i 3000) plain_fmt) "BB8";
       is_text (fun e => ibig_upper_hex e (i (-3000)) plain_fmt) "-BB8";
       is_text (fun e => ibig_upper_hex e (i 3000) (mkFormatter 32 None None false true false)) "0xBB8";
       is_text (fun e => ibig_upper_hex e (i (-3000)) (mkFormatter 32 None None false true false)) "-0xBB8";
       is_text (fun e => ibig_upper_hex e (i 3000) (mkFormatter 32 None (Some 10) false true false)) "     0xBB8";
       is_text (fun e => ibig_upper_hex e (i (-3000)) (mkFormatter 32 None (Some 10) false true false)) "    -0xBB8";
       is_text (fun e => ibig_display e (i (-123)) plain_fmt) "-123";
       is_text (fun e => ibig_debug e (i (-123)) plain_fmt) "-123";
       is_text (fun e => ibig_display e (i (-123)) (mkFormatter 61 (Some AlignRight) (Some 10) false false false)) "======-123"].
Check passes test_ibig_format.

(** tests/radix.rs:150-171 *)
Definition test_ibig_in_radix (A : Arch) : bool :=
  all [is_text (fun e => ibig_in_radix_text e (i 0) 2 plain_fmt) "0";
       is_text (fun e => ibig_in_radix_text e (i 100) 4 plain_fmt) "1210";
       is_text (fun e => ibig_in_radix_text e (i (-100)) 4 plain_fmt) "-1210";
       is_text (fun e => ibig_in_radix_text e (i 3000) 16 plain_fmt) "bb8";
       is_text (fun e => ibig_in_radix_text e (i (-3000)) 16 plain_fmt) "-bb8";
       is_text (fun e => ibig_in_radix_text e (i 3000) 16 (mkFormatter 32 None (Some 10) true false true)) "+000000bb8";
       is_text (fun e => ibig_in_radix_text e (i (-3000)) 16 (mkFormatter 32 None (Some 10) true false true)) "-000000bb8";
       is_text (fun e => ibig_in_radix_text e (i 3000) 16 (mkFormatter 32 None (Some 10) false true true)) "0000000BB8";
       is_text (fun e => ibig_in_radix_text e (i (-3000)) 16 (mkFormatter 32 None (Some 10) false true true)) "-000000BB8";
       is_text (fun e => ibig_in_radix_text e (i (-3000)) 10 (mkFormatter 32 None (Some 10) false true true)) "-000003000";
       is_text (fun e => ibig_in_radix_text e (i 0) 16 plain_fmt) "0";
       is_text (fun e => ibig_in_radix_text e (i 100) 4 plain_fmt) "1210";
       is_text (fun e => ibig_in_radix_text e (i (-100)) 4 plain_fmt) "-1210";
       is_text (fun e => ibig_in_radix_text e (i 3000) 16 plain_fmt) "bb8";
       is_text (fun e => ibig_in_radix_text e (i (-3000)) 16 plain_fmt) "-bb8";
       is_text (fun e => ibig_in_radix_text e (i 3000) 32 plain_fmt) "2to";
       is_text (fun e => ibig_in_radix_text e (i (-3000)) 32 plain_fmt) "-2to";
       is_text (fun e => ibig_display e (i (-1234)) plain_fmt) "-1234"].
Check passes test_ibig_in_radix.

(** tests/radix.rs:173-224 *)
Definition test_ubig_from_str_radix (A : Arch) : bool :=
  let parse s r := ubig_from_str_radix (txt s) r in
  all [no_digits (parse "" 2); no_digits (parse "+" 2); invalid_digit (parse "012" 2);
       invalid_digit (parse "ffffffffffffffffffffffffffffffffffffffffffffffg" 16); invalid_digit (parse "-0" 2);
       pu (parse "+0" 2) 0; pu (parse "0" 2) 0; pu (parse "0000000000000" 2) 0; pu (parse "1010110" 2) 86;
       pu (parse "f1Ee" 16) 0xf1ee; pu (parse "Pp" 32) 825; pu (parse "12345" 10) 12345; pu (parse "abzz" 36) 482111;
       match unwrap (parse "1538958592398779500320098585338768070858734861441260196946465951498852935601537907018559511" 10),
             unwrap (parse "c167bcc5802bf76f345a9f2a738d9d3b75ea4560a9be33c330216cbd15efc15d872a781f017" 16) with
       | Ok x, Ok y => ubig_eqb x y
       | _, _ => false
       end;
       pu (ubig_from_str (txt "1234")) 1234; pu (ubig_from_str (txt "0000000000000000001234")) 1234]%string.
Check passes test_ubig_from_str_radix.

(** tests/radix.rs:226-263 *)
Definition test_ibig_from_str_radix (A : Arch) : bool :=
  let parse s r := ibig_from_str_radix (txt s) r in
  all [no_digits (parse "" 2); no_digits (parse "+" 2); no_digits (parse "-" 2); invalid_digit (parse "-+5" 2);
       invalid_digit (parse "-012" 2); pi (parse "0" 2) 0; pi (parse "+0" 2) 0; pi (parse "-0" 2) 0;
       pi (parse "1010110" 2) 86; pi (parse "-1010110" 2) (-86); pi (ibig_from_str (txt "-1234")) (-1234)]%string.
Check passes test_ibig_from_str_radix.

(** [x.to_string().parse()] *)
Definition round_trip {A : Arch} (x : res ubig) (z : Z) : bool :=
  is_u x z && pu (x <- x ;; t <- ubig_display false x plain_fmt ;; ubig_from_str t) z.

(** tests/radix.rs:265-313. The loops run over the first exponents of the
    test, and over a few larger ones on 64 bits below. *)
Definition test_radix_round_trip (A : Arch) : bool :=
  all [is_text (fun e => x <- unwrap (ubig_from_str_radix (txt "abCCcaacacbbcbabcbacbacbabcabcbabcabbc1000") 16) ;;
                         ubig_in_radix_text e x 16 plain_fmt) "abcccaacacbbcbabcbacbacbabcabcbabcabbc1000";
       is_text (fun e => x <- unwrap (ubig_from_str_radix (txt "12341235234512341345356745634563563563457356356354645634563456") 8) ;;
                         ubig_in_radix_text e x 16 plain_fmt) "a70a75394a70b95dde5ce5cee77397bb9dcecd2e72e72e";
       is_text (fun e => x <- unwrap (ubig_from_str (txt "1287912837409187345908734509873240897234")) ;;
                         ubig_display e x plain_fmt) "1287912837409187345908734509873240897234";
       for_in 0 40 (fun k => let x := ubig_pow (u 10) k in
         round_trip x (10 ^ k) && round_trip (x <- x ;; ubig_sub_rv x (u 1)) (10 ^ k - 1));
       for_in 0 4 (fun k => let x := ubig_shl_v (u 1) (64 * k) in
         round_trip x (2 ^ (64 * k)) && round_trip (x <- x ;; ubig_sub_rv x (u 1)) (2 ^ (64 * k) - 1));
       is_text (fun e => x <- unwrap (ibig_from_str_radix (txt "-abCCcaacacbbcbabcbacbacbabcabcbabcabbc1000") 16) ;;
                         ibig_in_radix_text e x 16 plain_fmt) "-abcccaacacbbcbabcbacbacbabcabcbabcabbc1000"].
Check passes test_radix_round_trip.

Definition test_radix_round_trip_large (A : Arch) : bool :=
  forallb (fun k => let x := ubig_pow (u 10) k in
    round_trip x (10 ^ k) && round_trip (x <- x ;; ubig_sub_rv x (u 1)) (10 ^ k - 1)) [310; 650] &&
  forallb (fun k => let x := ubig_shl_v (u 1) (64 * k) in
    round_trip x (2 ^ (64 * k)) && round_trip (x <- x ;; ubig_sub_rv x (u 1)) (2 ^ (64 * k) - 1)) [16; 17; 35].
Check (@eq_refl bool true <: test_radix_round_trip_large arch64 = true).

(** tests/radix.rs:315-413 *)
Definition test_from_str_radix_with_radix_prefix (A : Arch) : bool :=
  let up s := ubig_from_str_with_radix_prefix (txt s) in let ip s := ibig_from_str_with_radix_prefix (txt s) in
  all [pu (up "17") 17; pu (up "+17") 17; pu (up "0b101") 5; pu (up "+0b101") 5; pu (up "0o177") 127;
       pu (up "+0o177") 127; pu (up "0x1eE") 0x1ee; pu (up "+0x1eE") 0x1ee;
       pi (ip "17") 17; pi (ip "+17") 17; pi (ip "-17") (-17); pi (ip "0b101") 5; pi (ip "+0b101") 5; pi (ip "-0b101") (-5);
       pi (ip "0o177") 127; pi (ip "+0o177") 127; pi (ip "-0o177") (-127);
       pi (ip "0x1eE") 0x1ee; pi (ip "+0x1eE") 0x1ee; pi (ip "-0x1eE") (-0x1ee);
       no_digits (up ""); no_digits (up "+"); invalid_digit (up "0b102");
       no_digits (ip ""); no_digits (ip "+"); no_digits (ip "-"); invalid_digit (ip "0x1fg")]%string.
Check passes test_from_str_radix_with_radix_prefix.

(** tests/radix.rs:421-464 *)
Definition test_macros (A : Arch) : bool :=
  let lit s v := TokLiteral (txt s) v in let id s := TokIdent (txt s) in
  all [pu (ubig_macro (lit "17" 17) None) 17; pu (ubig_macro (lit "0b101" 5) None) 5; pu (ubig_macro (lit "0o177" 127) None) 127;
       is_text (fun e => x <- unwrap (ubig_macro (id "_0x1aaaaaaaaaaaaaaaaaaaaaaaaaaaaaaaaaaaaaaaaaaaaaaaaaa") None) ;;
                         ubig_lower_hex e x plain_fmt) "1aaaaaaaaaaaaaaaaaaaaaaaaaaaaaaaaaaaaaaaaaaaaaaaaaa";
       pu (ubig_macro (lit "100" 100) (Some 32)) 1024;
       is_text (fun e => x <- unwrap (ubig_macro (id "ppppppppppppppppppp") (Some 32)) ;;
                         ubig_in_radix_text e x 32 plain_fmt) "ppppppppppppppppppp";
       pi (ibig_macro false (lit "17" 17) None) 17; pi (ibig_macro true (lit "17" 17) None) (-17);
       pi (ibig_macro false (lit "0b101" 5) None) 5; pi (ibig_macro true (lit "0b101" 5) None) (-5);
       pi (ibig_macro false (lit "0o177" 127) None) 127; pi (ibig_macro true (lit "0o177" 127) None) (-127);
       pi (ibig_macro false (lit "0x1ff" 0x1ff) None) 0x1ff; pi (ibig_macro true (lit "0x1ff" 0x1ff) None) (-0x1ff);
       is_text (fun e => x <- unwrap (ibig_macro true (id "_0x1aaaaaaaaaaaaaaaaaaaaaaaaaaaaaaaaaaaaaaaaaaaaaaaaaa") None) ;;
                         ibig_lower_hex e x plain_fmt) "-1aaaaaaaaaaaaaaaaaaaaaaaaaaaaaaaaaaaaaaaaaaaaaaaaaa";
       pi (ibig_macro false (lit "100" 100) (Some 32)) 1024; pi (ibig_macro true (lit "100" 100) (Some 32)) (-1024);
       is_text (fun e => x <- unwrap (ibig_macro false (id "ppppppppppppppppppp") (Some 32)) ;;
                         ibig_in_radix_text e x 32 plain_fmt) "ppppppppppppppppppp";
       is_text (fun e => x <- unwrap (ibig_macro true (id "ppppppppppppppppppp") (Some 32)) ;;
                         ibig_in_radix_text e x 32 plain_fmt) "-ppppppppppppppppppp"]%string.
Check passes test_macros.
