(** Operators between big numbers and primitive integers: src/add_ops.rs,
    src/mul_ops.rs, src/bits.rs, src/div_ops.rs.  Definitions only.

    [tb] is the number of bits of the primitive type.  The [impl] blocks the
    macros of these files generate forward to the functions below: the operand
    may be a primitive or a reference to one (copied: src/helper_macros.rs), and the
    operands of commutative operators may be swapped (src/helper_macros.rs:76-116). *)
From Verif Require Import Model.Base Model.Words Model.Buffer Model.UBig Model.IBig Model.Convert Model.AddOps Model.MulOps
  Model.Bits Model.DivOps.

Section PrimOps.
Context {A : Arch}.

(** [Result::unwrap]. E.g. src/div_ops.rs:1395 *)
Definition unwrap {T} (o : option T) : res T := match o with Some x => Ok x | None => Panic Internal end.

(** * UBig with an unsigned primitive *)

(** src/add_ops.rs:603-605 *)
Definition ubig_add_unsigned (tb : Z) (u : ubig) (x : Z) : res ubig :=
  p <- ubig_from_unsigned tb x ;; ubig_add_vv u p.

(** src/add_ops.rs:608-610 *)
Definition ubig_add_ref_unsigned (tb : Z) (u : ubig) (x : Z) : res ubig :=
  p <- ubig_from_unsigned tb x ;; ubig_add_rv u p.

(** src/add_ops.rs:613-615 *)
Definition ubig_add_assign_unsigned (tb : Z) (u : ubig) (x : Z) : res ubig :=
  p <- ubig_from_unsigned tb x ;; ubig_add_assign_v u p.

(** src/add_ops.rs:618-620 *)
Definition ubig_sub_unsigned (tb : Z) (u : ubig) (x : Z) : res ubig :=
  p <- ubig_from_unsigned tb x ;; ubig_sub_vv u p.

(** src/add_ops.rs:623-625 *)
Definition ubig_sub_ref_unsigned (tb : Z) (u : ubig) (x : Z) : res ubig :=
  p <- ubig_from_unsigned tb x ;; ubig_sub_rv u p.

(** src/add_ops.rs:628-630 *)
Definition ubig_sub_assign_unsigned (tb : Z) (u : ubig) (x : Z) : res ubig :=
  p <- ubig_from_unsigned tb x ;; ubig_sub_assign_v u p.

(** src/mul_ops.rs:344-346 *)
Definition ubig_mul_unsigned (tb : Z) (u : ubig) (x : Z) : res ubig :=
  p <- ubig_from_unsigned tb x ;; ubig_mul_vv u p.

(** src/mul_ops.rs:349-351 *)
Definition ubig_mul_ref_unsigned (tb : Z) (u : ubig) (x : Z) : res ubig :=
  p <- ubig_from_unsigned tb x ;; ubig_mul_rv u p.

(** src/mul_ops.rs:354-356 *)
Definition ubig_mul_assign_unsigned (tb : Z) (u : ubig) (x : Z) : res ubig :=
  p <- ubig_from_unsigned tb x ;; ubig_mul_assign_v u p.

(** src/bits.rs:1360-1364 *)
Definition ubig_and_unsigned (tb : Z) (u : ubig) (x : Z) : res Z :=
  p <- ubig_from_unsigned tb x ;; r <- ubig_and_vv u p ;; o <- ubig_try_to_unsigned tb r ;; unwrap o.

(** src/bits.rs:1367-1371 *)
Definition ubig_and_ref_unsigned (tb : Z) (u : ubig) (x : Z) : res Z :=
  p <- ubig_from_unsigned tb x ;; r <- ubig_and_rv u p ;; o <- ubig_try_to_unsigned tb r ;; unwrap o.

(** src/bits.rs:1374-1376 *)
Definition ubig_and_assign_unsigned (tb : Z) (u : ubig) (x : Z) : res ubig :=
  p <- ubig_from_unsigned tb x ;; ubig_and_assign_v u p.

(** src/bits.rs:1379-1381 *)
Definition ubig_or_unsigned (tb : Z) (u : ubig) (x : Z) : res ubig :=
  p <- ubig_from_unsigned tb x ;; ubig_or_vv u p.

(** src/bits.rs:1384-1386 *)
Definition ubig_or_ref_unsigned (tb : Z) (u : ubig) (x : Z) : res ubig :=
  p <- ubig_from_unsigned tb x ;; ubig_or_rv u p.

(** src/bits.rs:1389-1391 *)
Definition ubig_or_assign_unsigned (tb : Z) (u : ubig) (x : Z) : res ubig :=
  p <- ubig_from_unsigned tb x ;; ubig_or_assign_v u p.

(** src/bits.rs:1394-1396 *)
Definition ubig_xor_unsigned (tb : Z) (u : ubig) (x : Z) : res ubig :=
  p <- ubig_from_unsigned tb x ;; ubig_xor_vv u p.

(** src/bits.rs:1399-1401 *)
Definition ubig_xor_ref_unsigned (tb : Z) (u : ubig) (x : Z) : res ubig :=
  p <- ubig_from_unsigned tb x ;; ubig_xor_rv u p.

(** src/bits.rs:1404-1406 *)
Definition ubig_xor_assign_unsigned (tb : Z) (u : ubig) (x : Z) : res ubig :=
  p <- ubig_from_unsigned tb x ;; ubig_xor_assign_v u p.

(** src/bits.rs:1409-1411 *)
Definition ubig_and_not_unsigned (tb : Z) (u : ubig) (x : Z) : res ubig :=
  p <- ubig_from_unsigned tb x ;; ubig_and_not_vv u p.

(** src/bits.rs:1414-1416 *)
Definition ubig_and_not_ref_unsigned (tb : Z) (u : ubig) (x : Z) : res ubig :=
  p <- ubig_from_unsigned tb x ;; ubig_and_not_rv u p.

(** src/div_ops.rs:1379-1381 *)
Definition ubig_div_unsigned (tb : Z) (u : ubig) (x : Z) : res ubig :=
  p <- ubig_from_unsigned tb x ;; ubig_div_vv u p.

(** src/div_ops.rs:1384-1386 *)
Definition ubig_div_ref_unsigned (tb : Z) (u : ubig) (x : Z) : res ubig :=
  p <- ubig_from_unsigned tb x ;; ubig_div_rv u p.

(** src/div_ops.rs:1389-1391 *)
Definition ubig_div_assign_unsigned (tb : Z) (u : ubig) (x : Z) : res ubig :=
  p <- ubig_from_unsigned tb x ;; ubig_div_assign_v u p.

(** src/div_ops.rs:1394-1396 *)
Definition ubig_rem_unsigned (tb : Z) (u : ubig) (x : Z) : res Z :=
  p <- ubig_from_unsigned tb x ;; r <- ubig_rem_vv u p ;; o <- ubig_try_to_unsigned tb r ;; unwrap o.

(** src/div_ops.rs:1399-1401 *)
Definition ubig_rem_ref_unsigned (tb : Z) (u : ubig) (x : Z) : res Z :=
  p <- ubig_from_unsigned tb x ;; r <- ubig_rem_rv u p ;; o <- ubig_try_to_unsigned tb r ;; unwrap o.

(** src/div_ops.rs:1404-1406 *)
Definition ubig_rem_assign_unsigned (tb : Z) (u : ubig) (x : Z) : res ubig :=
  p <- ubig_from_unsigned tb x ;; ubig_rem_assign_v u p.

(** src/div_ops.rs:1409-1412 *)
Definition ubig_div_rem_unsigned (tb : Z) (u : ubig) (x : Z) : res (ubig * Z) :=
  p <- ubig_from_unsigned tb x ;; '(q, r) <- ubig_div_rem_vv u p ;;
  o <- ubig_try_to_unsigned tb r ;; r <- unwrap o ;; Ok (q, r).

(** src/div_ops.rs:1415-1418 *)
Definition ubig_div_rem_ref_unsigned (tb : Z) (u : ubig) (x : Z) : res (ubig * Z) :=
  p <- ubig_from_unsigned tb x ;; '(q, r) <- ubig_div_rem_rv u p ;;
  o <- ubig_try_to_unsigned tb r ;; r <- unwrap o ;; Ok (q, r).

(** src/div_ops.rs:845-905: the Euclidean forms on unsigned operands forward to the others. *)
Definition ubig_div_euclid_unsigned (tb : Z) (u : ubig) (x : Z) : res ubig := ubig_div_unsigned tb u x.

(** src/div_ops.rs:845-905: the Euclidean forms on unsigned operands forward to the others. *)
Definition ubig_div_euclid_ref_unsigned (tb : Z) (u : ubig) (x : Z) : res ubig := ubig_div_ref_unsigned tb u x.

(** src/div_ops.rs:845-905: the Euclidean forms on unsigned operands forward to the others. *)
Definition ubig_rem_euclid_unsigned (tb : Z) (u : ubig) (x : Z) : res Z := ubig_rem_unsigned tb u x.

(** src/div_ops.rs:845-905: the Euclidean forms on unsigned operands forward to the others. *)
Definition ubig_rem_euclid_ref_unsigned (tb : Z) (u : ubig) (x : Z) : res Z := ubig_rem_ref_unsigned tb u x.

(** src/div_ops.rs:845-905: the Euclidean forms on unsigned operands forward to the others. *)
Definition ubig_div_rem_euclid_unsigned (tb : Z) (u : ubig) (x : Z) : res (ubig * Z) := ubig_div_rem_unsigned tb u x.

(** src/div_ops.rs:845-905: the Euclidean forms on unsigned operands forward to the others. *)
Definition ubig_div_rem_euclid_ref_unsigned (tb : Z) (u : ubig) (x : Z) : res (ubig * Z) := ubig_div_rem_ref_unsigned tb u x.

(** * UBig with a signed primitive *)

(** src/add_ops.rs:633-635 *)
Definition ubig_add_signed (tb : Z) (u : ubig) (x : Z) : res ubig :=
  p <- ibig_from_signed tb x ;; r <- ibig_add_vv (ibig_from_ubig u) p ;; from_ibig_panic_on_overflow r.

(** src/add_ops.rs:638-640 *)
Definition ubig_add_ref_signed (tb : Z) (u : ubig) (x : Z) : res ubig :=
  i <- ibig_from_ubig_ref u ;; p <- ibig_from_signed tb x ;; r <- ibig_add_vv i p ;; from_ibig_panic_on_overflow r.

(** src/add_ops.rs:643-645 *)
Definition ubig_add_assign_signed (tb : Z) (u : ubig) (x : Z) : res ubig := ubig_add_signed tb u x.

(** src/add_ops.rs:648-650 *)
Definition ubig_sub_signed (tb : Z) (u : ubig) (x : Z) : res ubig :=
  p <- ibig_from_signed tb x ;; r <- ibig_sub_vv (ibig_from_ubig u) p ;; from_ibig_panic_on_overflow r.

(** src/add_ops.rs:653-655 *)
Definition ubig_sub_ref_signed (tb : Z) (u : ubig) (x : Z) : res ubig :=
  i <- ibig_from_ubig_ref u ;; p <- ibig_from_signed tb x ;; r <- ibig_sub_vv i p ;; from_ibig_panic_on_overflow r.

(** src/add_ops.rs:658-660 *)
Definition ubig_sub_assign_signed (tb : Z) (u : ubig) (x : Z) : res ubig := ubig_sub_signed tb u x.

(** src/mul_ops.rs:359-361 *)
Definition ubig_mul_signed (tb : Z) (u : ubig) (x : Z) : res ubig :=
  p <- ibig_from_signed tb x ;; r <- ibig_mul_vv (ibig_from_ubig u) p ;; from_ibig_panic_on_overflow r.

(** src/mul_ops.rs:364-366 *)
Definition ubig_mul_ref_signed (tb : Z) (u : ubig) (x : Z) : res ubig :=
  i <- ibig_from_ubig_ref u ;; p <- ibig_from_signed tb x ;; r <- ibig_mul_vv i p ;; from_ibig_panic_on_overflow r.

(** src/mul_ops.rs:369-371 *)
Definition ubig_mul_assign_signed (tb : Z) (u : ubig) (x : Z) : res ubig := ubig_mul_signed tb u x.

(** src/bits.rs:1419-1421 *)
Definition ubig_and_signed (tb : Z) (u : ubig) (x : Z) : res ubig :=
  p <- ibig_from_signed tb x ;; r <- ibig_and_vv (ibig_from_ubig u) p ;; from_ibig_panic_on_overflow r.

(** src/bits.rs:1424-1431 *)
Definition ubig_and_ref_signed (tb : Z) (u : ubig) (x : Z) : res ubig :=
  p <- ibig_from_signed tb x ;;
  match isign p with
  | Positive => ubig_and_rv u (unsigned_abs p)
  | Negative => i <- ibig_from_ubig_ref u ;; r <- ibig_and_vv i p ;; from_ibig_panic_on_overflow r
  end.

(** src/bits.rs:1434-1436 *)
Definition ubig_and_assign_signed (tb : Z) (u : ubig) (x : Z) : res ubig := ubig_and_signed tb u x.

(** src/bits.rs:1439-1441 *)
Definition ubig_or_signed (tb : Z) (u : ubig) (x : Z) : res ubig :=
  p <- ibig_from_signed tb x ;; r <- ibig_or_vv (ibig_from_ubig u) p ;; from_ibig_panic_on_overflow r.

(** src/bits.rs:1444-1446 *)
Definition ubig_or_ref_signed (tb : Z) (u : ubig) (x : Z) : res ubig :=
  i <- ibig_from_ubig_ref u ;; p <- ibig_from_signed tb x ;; r <- ibig_or_vv i p ;; from_ibig_panic_on_overflow r.

(** src/bits.rs:1449-1451 *)
Definition ubig_or_assign_signed (tb : Z) (u : ubig) (x : Z) : res ubig := ubig_or_signed tb u x.

(** src/bits.rs:1454-1456 *)
Definition ubig_xor_signed (tb : Z) (u : ubig) (x : Z) : res ubig :=
  p <- ibig_from_signed tb x ;; r <- ibig_xor_vv (ibig_from_ubig u) p ;; from_ibig_panic_on_overflow r.

(** src/bits.rs:1459-1461 *)
Definition ubig_xor_ref_signed (tb : Z) (u : ubig) (x : Z) : res ubig :=
  i <- ibig_from_ubig_ref u ;; p <- ibig_from_signed tb x ;; r <- ibig_xor_vv i p ;; from_ibig_panic_on_overflow r.

(** src/bits.rs:1464-1466 *)
Definition ubig_xor_assign_signed (tb : Z) (u : ubig) (x : Z) : res ubig := ubig_xor_signed tb u x.

(** src/bits.rs:1469-1471 *)
Definition ubig_and_not_signed (tb : Z) (u : ubig) (x : Z) : res ubig :=
  p <- ibig_from_signed tb x ;; r <- ibig_and_not_vv (ibig_from_ubig u) p ;; from_ibig_panic_on_overflow r.

(** src/bits.rs:1474-1476 *)
Definition ubig_and_not_ref_signed (tb : Z) (u : ubig) (x : Z) : res ubig :=
  i <- ibig_from_ubig_ref u ;; p <- ibig_from_signed tb x ;; r <- ibig_and_not_vv i p ;; from_ibig_panic_on_overflow r.

(** src/div_ops.rs:1421-1423 *)
Definition ubig_div_signed (tb : Z) (u : ubig) (x : Z) : res ubig :=
  p <- ibig_from_signed tb x ;; r <- ibig_div_vv (ibig_from_ubig u) p ;; from_ibig_panic_on_overflow r.

(** src/div_ops.rs:1426-1428 *)
Definition ubig_div_ref_signed (tb : Z) (u : ubig) (x : Z) : res ubig :=
  i <- ibig_from_ubig_ref u ;; p <- ibig_from_signed tb x ;; r <- ibig_div_vv i p ;; from_ibig_panic_on_overflow r.

(** src/div_ops.rs:1431-1433 *)
Definition ubig_div_assign_signed (tb : Z) (u : ubig) (x : Z) : res ubig := ubig_div_signed tb u x.

(** src/div_ops.rs:1474-1476 *)
Definition ubig_div_euclid_signed (tb : Z) (u : ubig) (x : Z) : res ubig :=
  p <- ibig_from_signed tb x ;; r <- ibig_div_euclid_vv (ibig_from_ubig u) p ;; from_ibig_panic_on_overflow r.

(** src/div_ops.rs:1479-1481 *)
Definition ubig_div_euclid_ref_signed (tb : Z) (u : ubig) (x : Z) : res ubig :=
  i <- ibig_from_ubig_ref u ;; p <- ibig_from_signed tb x ;; r <- ibig_div_euclid_vv i p ;; from_ibig_panic_on_overflow r.

(** src/div_ops.rs:1436-1440 *)
Definition ubig_rem_signed (tb : Z) (u : ubig) (x : Z) : res Z :=
  let '(_, rhs) := to_sign_magnitude tb x in
  r <- ubig_rem_unsigned tb u rhs ;; unwrap (try_from_sign_magnitude tb Positive r).

(** src/div_ops.rs:1484-1486 *)
Definition ubig_rem_euclid_signed (tb : Z) (u : ubig) (x : Z) : res Z := ubig_rem_signed tb u x.

(** src/div_ops.rs:1443-1447 *)
Definition ubig_rem_ref_signed (tb : Z) (u : ubig) (x : Z) : res Z :=
  let '(_, rhs) := to_sign_magnitude tb x in
  r <- ubig_rem_ref_unsigned tb u rhs ;; unwrap (try_from_sign_magnitude tb Positive r).

(** src/div_ops.rs:1489-1491 *)
Definition ubig_rem_euclid_ref_signed (tb : Z) (u : ubig) (x : Z) : res Z := ubig_rem_ref_signed tb u x.

(** src/div_ops.rs:1450-1453 *)
Definition ubig_rem_assign_signed (tb : Z) (u : ubig) (x : Z) : res ubig :=
  p <- ibig_from_signed tb x ;; r <- ibig_rem_vv (ibig_from_ubig u) p ;; from_ibig_panic_on_overflow r.

(** src/div_ops.rs:1456-1462 *)
Definition ubig_div_rem_signed (tb : Z) (u : ubig) (x : Z) : res (ubig * Z) :=
  p <- ibig_from_signed tb x ;; '(q, r) <- ibig_div_rem_vv (ibig_from_ubig u) p ;;
  q <- from_ibig_panic_on_overflow q ;; o <- ibig_try_to_signed tb r ;; r <- unwrap o ;; Ok (q, r).

(** src/div_ops.rs:1465-1471 *)
Definition ubig_div_rem_ref_signed (tb : Z) (u : ubig) (x : Z) : res (ubig * Z) :=
  i <- ibig_from_ubig_ref u ;; p <- ibig_from_signed tb x ;; '(q, r) <- ibig_div_rem_vv i p ;;
  q <- from_ibig_panic_on_overflow q ;; o <- ibig_try_to_signed tb r ;; r <- unwrap o ;; Ok (q, r).

(** src/div_ops.rs:1494-1500 *)
Definition ubig_div_rem_euclid_signed (tb : Z) (u : ubig) (x : Z) : res (ubig * Z) :=
  p <- ibig_from_signed tb x ;; '(q, r) <- ibig_div_rem_euclid_vv (ibig_from_ubig u) p ;;
  q <- from_ibig_panic_on_overflow q ;; o <- ibig_try_to_signed tb r ;; r <- unwrap o ;; Ok (q, r).

(** src/div_ops.rs:1503-1509 *)
Definition ubig_div_rem_euclid_ref_signed (tb : Z) (u : ubig) (x : Z) : res (ubig * Z) :=
  i <- ibig_from_ubig_ref u ;; p <- ibig_from_signed tb x ;; '(q, r) <- ibig_div_rem_euclid_vv i p ;;
  q <- from_ibig_panic_on_overflow q ;; o <- ibig_try_to_signed tb r ;; r <- unwrap o ;; Ok (q, r).

(** * IBig with a primitive *)

(** The operators on IBig are generic in the primitive type: it is given by
    [true] and its number of bits when signed, [false] when unsigned. E.g. src/add_ops.rs:173 *)
Definition ibig_from_prim (sg : bool) (tb x : Z) : res ibig :=
  if sg then ibig_from_signed tb x else ibig_from_unsigned tb x.

(** [T::try_from(IBig)]: src/convert.rs:395-411, 438-454 *)
Definition prim_try_from_ibig (sg : bool) (tb : Z) (x : ibig) : res (option Z) :=
  if sg then ibig_try_to_signed tb x else ibig_try_to_unsigned tb x.

(** src/add_ops.rs:731-736 *)
Definition ibig_add_primitive (sg : bool) (tb : Z) (y : ibig) (x : Z) : res ibig :=
  p <- ibig_from_prim sg tb x ;; ibig_add_vv y p.

(** src/add_ops.rs:739-744 *)
Definition ibig_add_ref_primitive (sg : bool) (tb : Z) (y : ibig) (x : Z) : res ibig :=
  p <- ibig_from_prim sg tb x ;; ibig_add_rv y p.

(** src/add_ops.rs:747-752 *)
Definition ibig_add_assign_primitive (sg : bool) (tb : Z) (y : ibig) (x : Z) : res ibig :=
  p <- ibig_from_prim sg tb x ;; ibig_add_assign_v y p.

(** src/add_ops.rs:755-760 *)
Definition ibig_sub_primitive (sg : bool) (tb : Z) (y : ibig) (x : Z) : res ibig :=
  p <- ibig_from_prim sg tb x ;; ibig_sub_vv y p.

(** src/add_ops.rs:763-768 *)
Definition ibig_sub_ref_primitive (sg : bool) (tb : Z) (y : ibig) (x : Z) : res ibig :=
  p <- ibig_from_prim sg tb x ;; ibig_sub_rv y p.

(** src/add_ops.rs:771-776 *)
Definition ibig_sub_assign_primitive (sg : bool) (tb : Z) (y : ibig) (x : Z) : res ibig :=
  p <- ibig_from_prim sg tb x ;; ibig_sub_assign_v y p.

(** src/mul_ops.rs:376-381 *)
Definition ibig_mul_primitive (sg : bool) (tb : Z) (y : ibig) (x : Z) : res ibig :=
  p <- ibig_from_prim sg tb x ;; ibig_mul_vv y p.

(** src/mul_ops.rs:384-389 *)
Definition ibig_mul_ref_primitive (sg : bool) (tb : Z) (y : ibig) (x : Z) : res ibig :=
  p <- ibig_from_prim sg tb x ;; ibig_mul_rv y p.

(** src/mul_ops.rs:392-397 *)
Definition ibig_mul_assign_primitive (sg : bool) (tb : Z) (y : ibig) (x : Z) : res ibig :=
  p <- ibig_from_prim sg tb x ;; ibig_mul_assign_v y p.

(** src/bits.rs:1513-1518 *)
Definition ibig_or_primitive (sg : bool) (tb : Z) (y : ibig) (x : Z) : res ibig :=
  p <- ibig_from_prim sg tb x ;; ibig_or_vv y p.

(** src/bits.rs:1521-1526 *)
Definition ibig_or_ref_primitive (sg : bool) (tb : Z) (y : ibig) (x : Z) : res ibig :=
  p <- ibig_from_prim sg tb x ;; ibig_or_rv y p.

(** src/bits.rs:1529-1534 *)
Definition ibig_or_assign_primitive (sg : bool) (tb : Z) (y : ibig) (x : Z) : res ibig :=
  p <- ibig_from_prim sg tb x ;; ibig_or_assign_v y p.

(** src/bits.rs:1537-1542 *)
Definition ibig_xor_primitive (sg : bool) (tb : Z) (y : ibig) (x : Z) : res ibig :=
  p <- ibig_from_prim sg tb x ;; ibig_xor_vv y p.

(** src/bits.rs:1545-1550 *)
Definition ibig_xor_ref_primitive (sg : bool) (tb : Z) (y : ibig) (x : Z) : res ibig :=
  p <- ibig_from_prim sg tb x ;; ibig_xor_rv y p.

(** src/bits.rs:1553-1558 *)
Definition ibig_xor_assign_primitive (sg : bool) (tb : Z) (y : ibig) (x : Z) : res ibig :=
  p <- ibig_from_prim sg tb x ;; ibig_xor_assign_v y p.

(** src/bits.rs:1561-1566 *)
Definition ibig_and_not_primitive (sg : bool) (tb : Z) (y : ibig) (x : Z) : res ibig :=
  p <- ibig_from_prim sg tb x ;; ibig_and_not_vv y p.

(** src/bits.rs:1569-1574 *)
Definition ibig_and_not_ref_primitive (sg : bool) (tb : Z) (y : ibig) (x : Z) : res ibig :=
  p <- ibig_from_prim sg tb x ;; ibig_and_not_rv y p.

(** src/bits.rs:1505-1510 *)
Definition ibig_and_assign_primitive (sg : bool) (tb : Z) (y : ibig) (x : Z) : res ibig :=
  p <- ibig_from_prim sg tb x ;; ibig_and_assign_v y p.

(** src/add_ops.rs:779-784 *)
Definition ibig_sub_from_primitive (sg : bool) (tb : Z) (y : ibig) (x : Z) : res ibig :=
  p <- ibig_from_prim sg tb x ;; ibig_sub_vv p y.

(** src/add_ops.rs:787-792 *)
Definition ibig_sub_ref_from_primitive (sg : bool) (tb : Z) (y : ibig) (x : Z) : res ibig :=
  p <- ibig_from_prim sg tb x ;; ibig_sub_vr p y.

(** src/div_ops.rs:1514-1519 *)
Definition ibig_div_primitive (sg : bool) (tb : Z) (y : ibig) (x : Z) : res ibig :=
  p <- ibig_from_prim sg tb x ;; ibig_div_vv y p.

(** src/div_ops.rs:1522-1527 *)
Definition ibig_div_ref_primitive (sg : bool) (tb : Z) (y : ibig) (x : Z) : res ibig :=
  p <- ibig_from_prim sg tb x ;; ibig_div_rv y p.

(** src/div_ops.rs:1530-1535 *)
Definition ibig_div_assign_primitive (sg : bool) (tb : Z) (y : ibig) (x : Z) : res ibig :=
  p <- ibig_from_prim sg tb x ;; ibig_div_assign_v y p.

(** src/div_ops.rs:1588-1593 *)
Definition ibig_div_euclid_primitive (sg : bool) (tb : Z) (y : ibig) (x : Z) : res ibig :=
  p <- ibig_from_prim sg tb x ;; ibig_div_euclid_vv y p.

(** src/div_ops.rs:1596-1601 *)
Definition ibig_div_euclid_ref_primitive (sg : bool) (tb : Z) (y : ibig) (x : Z) : res ibig :=
  p <- ibig_from_prim sg tb x ;; ibig_div_euclid_rv y p.

(** src/div_ops.rs:1558-1563 *)
Definition ibig_rem_assign_primitive (sg : bool) (tb : Z) (y : ibig) (x : Z) : res ibig :=
  p <- ibig_from_prim sg tb x ;; ibig_rem_assign_v y p.

(** src/div_ops.rs:1604-1611 *)
Definition ibig_rem_euclid_primitive (sg : bool) (tb : Z) (y : ibig) (x : Z) : res Z :=
  p <- ibig_from_prim sg tb x ;; r <- ibig_rem_euclid_vv y p ;; o <- prim_try_from_ibig sg tb r ;; unwrap o.

(** src/div_ops.rs:1624-1632 *)
Definition ibig_div_rem_euclid_primitive (sg : bool) (tb : Z) (y : ibig) (x : Z) : res (ibig * Z) :=
  p <- ibig_from_prim sg tb x ;; '(q, r) <- ibig_div_rem_euclid_vv y p ;;
  o <- prim_try_from_ibig sg tb r ;; r <- unwrap o ;; Ok (q, r).

(** src/div_ops.rs:1614-1621 *)
Definition ibig_rem_euclid_ref_primitive (sg : bool) (tb : Z) (y : ibig) (x : Z) : res Z :=
  p <- ibig_from_prim sg tb x ;; r <- ibig_rem_euclid_rv y p ;; o <- prim_try_from_ibig sg tb r ;; unwrap o.

(** src/div_ops.rs:1635-1643 *)
Definition ibig_div_rem_euclid_ref_primitive (sg : bool) (tb : Z) (y : ibig) (x : Z) : res (ibig * Z) :=
  p <- ibig_from_prim sg tb x ;; '(q, r) <- ibig_div_rem_euclid_rv y p ;;
  o <- prim_try_from_ibig sg tb r ;; r <- unwrap o ;; Ok (q, r).

(** src/bits.rs:1481-1485 *)
Definition ibig_and_unsigned (tb : Z) (y : ibig) (x : Z) : res Z :=
  p <- ibig_from_unsigned tb x ;; r <- ibig_and_vv y p ;; o <- ibig_try_to_unsigned tb r ;; unwrap o.

(** src/div_ops.rs:1538-1540 *)
Definition ibig_rem_unsigned (tb : Z) (y : ibig) (x : Z) : res ibig :=
  p <- ibig_from_unsigned tb x ;; ibig_rem_vv y p.

(** src/div_ops.rs:1566-1568 *)
Definition ibig_div_rem_unsigned (tb : Z) (y : ibig) (x : Z) : res (ibig * ibig) :=
  p <- ibig_from_unsigned tb x ;; ibig_div_rem_vv y p.

(** src/bits.rs:1488-1492 *)
Definition ibig_and_ref_unsigned (tb : Z) (y : ibig) (x : Z) : res Z :=
  p <- ibig_from_unsigned tb x ;; r <- ibig_and_rv y p ;; o <- ibig_try_to_unsigned tb r ;; unwrap o.

(** src/div_ops.rs:1543-1545 *)
Definition ibig_rem_ref_unsigned (tb : Z) (y : ibig) (x : Z) : res ibig :=
  p <- ibig_from_unsigned tb x ;; ibig_rem_rv y p.

(** src/div_ops.rs:1571-1573 *)
Definition ibig_div_rem_ref_unsigned (tb : Z) (y : ibig) (x : Z) : res (ibig * ibig) :=
  p <- ibig_from_unsigned tb x ;; ibig_div_rem_rv y p.

(** src/bits.rs:1495-1497 *)
Definition ibig_and_signed (tb : Z) (y : ibig) (x : Z) : res ibig :=
  p <- ibig_from_signed tb x ;; ibig_and_vv y p.

(** src/div_ops.rs:1548-1550 *)
Definition ibig_rem_signed (tb : Z) (y : ibig) (x : Z) : res Z :=
  p <- ibig_from_signed tb x ;; r <- ibig_rem_vv y p ;; o <- ibig_try_to_signed tb r ;; unwrap o.

(** src/div_ops.rs:1576-1579 *)
Definition ibig_div_rem_signed (tb : Z) (y : ibig) (x : Z) : res (ibig * Z) :=
  p <- ibig_from_signed tb x ;; '(q, r) <- ibig_div_rem_vv y p ;;
  o <- ibig_try_to_signed tb r ;; r <- unwrap o ;; Ok (q, r).

(** src/bits.rs:1500-1502 *)
Definition ibig_and_ref_signed (tb : Z) (y : ibig) (x : Z) : res ibig :=
  p <- ibig_from_signed tb x ;; ibig_and_rv y p.

(** src/div_ops.rs:1553-1555 *)
Definition ibig_rem_ref_signed (tb : Z) (y : ibig) (x : Z) : res Z :=
  p <- ibig_from_signed tb x ;; r <- ibig_rem_rv y p ;; o <- ibig_try_to_signed tb r ;; unwrap o.

(** src/div_ops.rs:1582-1585 *)
Definition ibig_div_rem_ref_signed (tb : Z) (y : ibig) (x : Z) : res (ibig * Z) :=
  p <- ibig_from_signed tb x ;; '(q, r) <- ibig_div_rem_rv y p ;;
  o <- ibig_try_to_signed tb r ;; r <- unwrap o ;; Ok (q, r).

End PrimOps.
