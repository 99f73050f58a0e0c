(** tests/convert.rs, tests/serde.rs *)
From Verif Require Import Tests.Harness Model.Convert Model.Float Model.ShiftOps Model.AddOps Model.Fmt Model.Serde
  Model.Unwind Proofs.TextSamples.

Definition lb (l1 l2 : list Z) : bool := if list_eq_dec Z.eq_dec l1 l2 then true else false.
Definition is_l (r : res (list Z)) (l : list Z) : bool := match r with Ok x => lb x l | Panic _ => false end.
Definition is_some {T} (ok : res T -> Z -> bool) (r : res (option T)) (z : Z) : bool :=
  match r with Ok (Some x) => ok (Ok x) z | _ => false end.
Definition is_err {T} (r : res (option T)) : bool := match r with Ok None => true | _ => false end.

(** tests/convert.rs:4-12 *)
Definition test_from_to_le_bytes (A : Arch) : bool :=
  let rt bs := x <- from_le_bytes bs ;; to_le_bytes x in
  let bytes := [0; 1; 2; 3; 4; 5; 6; 7; 8; 9; 10; 11; 12; 13; 14; 15; 16; 17] in
  all [is_l (rt []) []; is_l (rt (repeat 0 100)) []; is_l (rt [1; 2; 3; 0]) [1; 2; 3]; is_l (rt bytes) bytes].
Check passes test_from_to_le_bytes.

(** tests/convert.rs:14-24 *)
Definition test_from_to_be_bytes (A : Arch) : bool :=
  let rt bs := x <- from_be_bytes bs ;; to_be_bytes x in
  let bytes := [100; 1; 2; 3; 4; 5; 6; 7; 8; 9; 10; 11; 12; 13; 14; 15; 16; 17] in
  all [is_l (rt []) []; is_l (rt (repeat 0 100)) []; is_l (rt [0; 1; 2; 3]) [1; 2; 3]; is_l (rt bytes) bytes].
Check passes test_from_to_be_bytes.

Definition same_u {A : Arch} (r1 r2 : res ubig) : bool :=
  match r1, r2 with Ok x, Ok y => ubig_eqb x y && ubig_okb x && ubig_okb y | _, _ => false end.
Definition same_i {A : Arch} (r1 r2 : res ibig) : bool :=
  match r1, r2 with Ok x, Ok y => ibig_eqb x y && ibig_okb x && ibig_okb y | _, _ => false end.

(** tests/convert.rs:26-48 *)
Definition test_ubig_from_unsigned (A : Arch) : bool :=
  all [same_u (ubig_from_unsigned 8 0xf1) (from_be_bytes [0xf1]);
       same_u (ubig_from_unsigned 16 0xf123) (from_be_bytes [0xf1; 0x23]);
       same_u (ubig_from_unsigned 32 0xf1234567) (from_be_bytes [0xf1; 0x23; 0x45; 0x67]);
       same_u (ubig_from_unsigned 64 0xf123456701234567) (from_be_bytes [0xf1; 0x23; 0x45; 0x67; 0x01; 0x23; 0x45; 0x67]);
       same_u (ubig_from_unsigned 128 0xf1234567012345670123456701234567)
         (from_be_bytes [0xf1; 0x23; 0x45; 0x67; 0x01; 0x23; 0x45; 0x67; 0x01; 0x23; 0x45; 0x67; 0x01; 0x23; 0x45; 0x67]);
       same_u (ubig_from_unsigned 128 5) (from_be_bytes [5]); same_u (ubig_from_unsigned ubits 5) (from_be_bytes [5])].
Check passes test_ubig_from_unsigned.

(** tests/convert.rs:50-54 *)
Definition test_ubig_from_bool (A : Arch) : bool :=
  all [same_u (ubig_from_bool false) (ubig_from_unsigned 8 0); same_u (ubig_from_bool true) (ubig_from_unsigned 8 1)].
Check passes test_ubig_from_bool.

(** tests/convert.rs:56-61 *)
Definition test_ubig_from_signed (A : Arch) : bool :=
  all [is_err (ubig_try_from_signed 32 (-5)); is_some is_u (ubig_try_from_signed 32 5) 5;
       is_some is_u (ubig_try_from_signed 128 (5 * 2 ^ 120)) (5 * 2 ^ 120)].
Check passes test_ubig_from_signed.

(** tests/convert.rs:63-90 *)
Definition test_ubig_to_unsigned (A : Arch) : bool :=
  let conv tb from x := y <- ubig_from_unsigned from x ;; ubig_try_to_unsigned tb y in
  let big tb := x <- from_be_bytes [1; 0; 1; 2; 3; 4; 5; 6; 7; 8; 9; 10; 11; 12; 13; 14; 15] ;; ubig_try_to_unsigned tb x in
  all [is_some is_z (conv 8 8 0xee) 0xee; is_err (conv 8 16 0x123);
       is_some is_z (conv 16 16 0x1234) 0x1234; is_err (conv 16 32 0x12345);
       is_some is_z (conv 32 32 0xf1234567) 0xf1234567; is_err (conv 32 64 0x101234567);
       is_some is_z (conv 64 64 0xf123456789abcdef) 0xf123456789abcdef; is_err (conv 64 128 0x10123456789abcdef);
       is_some is_z (conv 128 128 0xf123456789abcdef0123456789abcdef) 0xf123456789abcdef0123456789abcdef;
       is_err (big 8); is_err (big 128); is_some is_z (conv ubits 8 5) 5].
Check passes test_ubig_to_unsigned.

(** tests/convert.rs:92-121 *)
Definition test_ubig_to_signed (A : Arch) : bool :=
  let conv tb from x := y <- ubig_from_unsigned from x ;; ubig_try_to_signed tb y in
  let big tb := x <- from_be_bytes [1; 0; 1; 2; 3; 4; 5; 6; 7; 8; 9; 10; 11; 12; 13; 14; 15] ;; ubig_try_to_signed tb x in
  all [is_some is_z (conv 8 8 0x7e) 0x7e; is_err (conv 8 8 0xee); is_err (conv 8 16 0x100);
       is_some is_z (conv 16 16 0x1234) 0x1234; is_err (conv 16 32 0x8234);
       is_some is_z (conv 32 32 0x61234567) 0x61234567; is_err (conv 32 32 0x91234567);
       is_some is_z (conv 64 64 0x3123456789abcdef) 0x3123456789abcdef; is_err (conv 64 64 0xf123456789abcdef);
       is_some is_z (conv 128 128 0x6123456789abcdef0123456789abcdef) 0x6123456789abcdef0123456789abcdef;
       is_err (conv 128 128 0xf123456789abcdef0123456789abcdef);
       is_err (big 8); is_err (big 128); is_some is_z (conv ubits 8 5) 5].
Check passes test_ubig_to_signed.

(** tests/convert.rs:123-127 *)
Definition test_ibig_from_unsigned (A : Arch) : bool :=
  forallb (fun x => same_i (ibig_from_unsigned 32 x) (y <- ubig_from_unsigned 32 x ;; Ok (ibig_from_ubig y))) [0; 100].
Check passes test_ibig_from_unsigned.

(** tests/convert.rs:129-133 *)
Definition test_ibig_from_bool (A : Arch) : bool :=
  all [same_i (ibig_from_bool false) (ibig_from_unsigned 8 0); same_i (ibig_from_bool true) (ibig_from_unsigned 8 1)].
Check passes test_ibig_from_bool.

(** tests/convert.rs:135-140 *)
Definition test_ibig_from_signed (A : Arch) : bool :=
  forallb (fun x => same_i (ibig_from_signed 32 x) (y <- ubig_from_unsigned 32 x ;; Ok (ibig_from_ubig y))) [0; 100] &&
  forallb (fun e => is_l (x <- ibig_from_signed 32 (-0xee) ;;
                          ibig_in_radix_text e x 16 (mkFormatter 32 None None false false false)) (txt "-ee")) [false; true].
Check passes test_ibig_from_signed.

(** tests/convert.rs:142-151 *)
Definition test_ibig_to_unsigned (A : Arch) : bool :=
  let conv x := y <- ibig_from_signed 32 x ;; ibig_try_to_unsigned 8 y in
  forallb (fun x => is_some is_z (conv x) x) [0; 0x7f; 0xff] && forallb (fun x => is_err (conv x)) [0x100; -1; -0x7f; -0x80].
Check passes test_ibig_to_unsigned.

(** tests/convert.rs:153-165 *)
Definition test_ibig_to_signed (A : Arch) : bool :=
  let conv x := y <- ibig_from_signed 32 x ;; ibig_try_to_signed 8 y in
  forallb (fun x => is_some is_z (conv x) x) [0; 0x7f; -1; -0x7f; -0x80] &&
  forallb (fun x => is_err (conv x)) [0x80; 0xff; 0x100; -0x81; -0x100].
Check passes test_ibig_to_signed.

(** tests/convert.rs:167-172 *)
Definition test_ubig_to_ibig (A : Arch) : bool :=
  forallb (fun x => same_i (y <- ubig_from_unsigned 32 x ;; Ok (ibig_from_ubig y)) (ibig_from_signed 32 x)) [0; 100] &&
  same_i (y <- ubig_from_unsigned 32 100 ;; ibig_from_ubig_ref y) (ibig_from_signed 32 100).
Check passes test_ubig_to_ibig.

(** tests/convert.rs:174-184 *)
Definition test_ibig_to_ubig (A : Arch) : bool :=
  let conv x := y <- ibig_from_signed 32 x ;; Ok (ubig_try_from_ibig y) in
  let conv_ref x := y <- ibig_from_signed 32 x ;; ubig_try_from_ibig_ref y in
  all [is_some is_u (conv 0) 0; is_some is_u (conv 1000) 1000; is_some is_u (conv_ref 1000) 1000;
       is_err (conv (-1000)); is_err (conv_ref (-1000))].
Check passes test_ibig_to_ubig.

(** tests/convert.rs:186-190 *)
Definition test_default (A : Arch) : bool := all [is_u (Ok ubig_default) 0; is_i (Ok ibig_default) 0].
Check passes test_default.

(** A floating point number not over 2^24 or 2^53 times a power of two, as bits. *)
Definition times_exp2 (f : ffmt) (bits k : Z) : Z := bits + k * 2 ^ (fprec f - 1).

(** The body of the loops at tests/convert.rs:212-253, 281-322, with [x] for
    [0xfff3330] or [0x1ffffffffff3330]. Bit patterns compare like the numbers. *)
Definition rounding {A : Arch} (f : ffmt) (x k : Z) : bool :=
  let shl d := ubig_shl_v (u (x + d)) k in
  let conv d := y <- shl d ;; ubig_to_float f y in
  let conv1 d := y <- shl d ;; y <- ubig_add_vv y (u 1) ;; ubig_to_float f y in
  let result d := times_exp2 f (int_as_float f (x + d)) k in
  all [is_z (conv 0) (result 0); is_z (conv 1) (result 0); is_z (conv 7) (result 0); is_z (conv 8) (result 0x10);
       is_z (conv1 8) (result 0x10); is_z (conv 9) (result 0x10); is_z (conv 0x17) (result 0x10);
       is_z (conv 0x18) (result 0x10); is_z (conv1 0x18) (result 0x20); is_z (conv 0x19) (result 0x20)].

(** tests/convert.rs:197-264 *)
Definition test_to_f32 (A : Arch) : bool :=
  let shl x k := y <- ubig_shl_v (u x) k ;; ubig_to_float f32 y in
  let ishl x k := y <- ibig_shl_v (i x) k ;; ibig_to_float f32 y in
  forallb (fun '(x, y) => is_z (ubig_to_float f32 (u x)) (int_as_float f32 y))
   [(0, 0); (7, 7); (0xffffff, 16777215); (0x1000000, 16777216); (0x1000001, 16777216); (0x1000002, 16777218);
    (0x1000003, 16777220); (0x1000004, 16777220); (0x1000005, 16777220)] &&
  for_in 10 79 (rounding f32 0xfff3330) &&
  all [match shl 0xffffff7 100 with Ok v => v <? 0x7f800000 | Panic _ => false end;
       is_z (shl 0xffffff8 100) 0x7f800000; is_z (shl 1 1000) 0x7f800000;
       is_z (ibig_to_float f32 (i 0)) 0; is_z (ibig_to_float f32 (i 7)) 0x40e00000;
       is_z (ibig_to_float f32 (i (-7))) 0xc0e00000;
       match ishl (-0xffffff7) 100 with Ok v => v <? 0xff800000 | Panic _ => false end;
       is_z (ishl (-0xffffff8) 100) 0xff800000].
Check passes test_to_f32.

(** tests/convert.rs:266-333 *)
Definition test_to_f64 (A : Arch) : bool :=
  let shl x k := y <- ubig_shl_v (u x) k ;; ubig_to_float f64 y in
  let ishl x k := y <- ibig_shl_v (i x) k ;; ibig_to_float f64 y in
  forallb (fun '(x, y) => is_z (ubig_to_float f64 (u x)) (int_as_float f64 y))
   [(0, 0); (7, 7); (0x1fffffffffffff, 9007199254740991); (0x20000000000000, 9007199254740992);
    (0x20000000000001, 9007199254740992); (0x20000000000002, 9007199254740994); (0x20000000000003, 9007199254740996);
    (0x20000000000004, 9007199254740996); (0x20000000000005, 9007199254740996)] &&
  for_in 10 499 (rounding f64 0x1ffffffffff3330) &&
  all [match shl 0x1fffffffffffff7 967 with Ok v => v <? 0x7ff0000000000000 | Panic _ => false end;
       is_z (shl 0x1fffffffffffff8 967) 0x7ff0000000000000; is_z (shl 1 10000) 0x7ff0000000000000;
       is_z (ibig_to_float f64 (i 0)) 0; is_z (ibig_to_float f64 (i 7)) 0x401c000000000000;
       is_z (ibig_to_float f64 (i (-7))) 0xc01c000000000000;
       match ishl (-0x1fffffffffffff7) 967 with Ok v => v <? 0xfff0000000000000 | Panic _ => false end;
       is_z (ishl (-0x1fffffffffffff8) 967) 0xfff0000000000000].
Check passes test_to_f64.

(** tests/serde.rs:4-34. Tokens are the length and the words. *)
Definition test_ubig_serde (A : Arch) : bool :=
  forallb (fun '(x, ws) =>
    all [match ubig_serialize (u x) with Ok (n, l) => (n =? Z.of_nat (List.length ws)) && lb l ws | Panic _ => false end;
         is_u (ubig_deserialize (Some (Z.of_nat (List.length ws))) ws) x; is_u (ubig_deserialize None ws) x])
   [(0, []); (17, [17]); (0x123451234567890abcdef, [0x1234567890abcdef; 0x12345])].
Check passes test_ubig_serde.

(** tests/serde.rs:36-92 *)
Definition test_ibig_serde (A : Arch) : bool :=
  let is_neg s := match s with Negative => true | Positive => false end in
  is_i (ibig_deserialize Negative None []) 0 &&
  forallb (fun '(x, s, ws) =>
    all [match ibig_serialize (i x) with
         | Ok (s', (n, l)) => Bool.eqb (is_neg s) (is_neg s') && (n =? Z.of_nat (List.length ws)) && lb l ws
         | Panic _ => false
         end;
         is_i (ibig_deserialize s (Some (Z.of_nat (List.length ws))) ws) x])
   [(0, Positive, []); (17, Positive, [17]); (-17, Negative, [17])].
Check passes test_ibig_serde.
