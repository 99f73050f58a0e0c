(** Signed numbers: src/ibig.rs, src/sign.rs, src/cmp.rs, and the conversions
    between UBig and IBig of src/convert.rs.  Definitions only. *)
From Verif Require Import Model.Base Model.Words Model.Buffer Model.UBig.

Section IBig.
Context {A : Arch}.

(** src/ibig.rs:25-28 *)
Record ibig := mkIBig { isign : sign; imag : ubig }.

(** src/ibig.rs:32-37 *)
Definition from_sign_magnitude (s : sign) (m : ubig) : ibig :=
  mkIBig (if ubig_eqb m (from_word 0) then Positive else s) m.

(** src/convert.rs:465-470 *)
Definition ibig_from_ubig (u : ubig) : ibig := from_sign_magnitude Positive u.

(** src/convert.rs:472-477 *)
Definition ibig_from_ubig_ref (u : ubig) : res ibig :=
  u <- ubig_clone u ;; Ok (ibig_from_ubig u).

(** src/convert.rs:479-489; [None] is [OutOfBoundsError]. *)
Definition ubig_try_from_ibig (x : ibig) : option ubig :=
  match isign x with Positive => Some (imag x) | Negative => None end.

(** src/convert.rs:491-501 *)
Definition ubig_try_from_ibig_ref (x : ibig) : res (option ubig) :=
  match isign x with
  | Positive => m <- ubig_clone (imag x) ;; Ok (Some m)
  | Negative => Ok None
  end.

(** src/convert.rs:562-567 *)
Definition from_ibig_panic_on_overflow (x : ibig) : res ubig :=
  match ubig_try_from_ibig x with
  | Some u => Ok u
  | None => Panic NegativeUBig
  end.

(** Derived [Clone] of IBig: src/ibig.rs:24 *)
Definition ibig_clone (x : ibig) : res ibig :=
  m <- ubig_clone (imag x) ;; Ok (mkIBig (isign x) m).

(** Derived [Clone::clone_from] is [*self = source.clone()]. E.g. src/ibig.rs:24 *)
Definition ibig_clone_from (x source : ibig) : res ibig := ibig_clone source.

(** Derived [PartialEq] and [Hash]: src/ibig.rs:24 *)
Definition ibig_eqb (x y : ibig) : bool :=
  sign_eqb (isign x) (isign y) && ubig_eqb (imag x) (imag y).
Definition ibig_hash (x : ibig) : list Z :=
  (match isign x with Positive => 0 | Negative => 1 end) :: ubig_hash (imag x).

(** src/cmp.rs:34-44 *)
Definition ibig_cmp (x y : ibig) : res comparison :=
  match isign x, isign y with
  | Positive, Positive => ubig_cmp (imag x) (imag y)
  | Positive, Negative => Ok Gt
  | Negative, Positive => Ok Lt
  | Negative, Negative => ubig_cmp (imag y) (imag x)
  end.

(** src/sign.rs:58-66 *)
Definition ibig_neg (x : ibig) : ibig := from_sign_magnitude (sign_neg (isign x)) (imag x).

(** src/sign.rs:68-75 *)
Definition ibig_neg_ref (x : ibig) : res ibig := x <- ibig_clone x ;; Ok (ibig_neg x).

(** src/sign.rs:95-112 *)
Definition unsigned_abs (x : ibig) : ubig := imag x.
Definition unsigned_abs_ref (x : ibig) : res ubig := ubig_clone (imag x).

(** src/sign.rs:77-93 *)
Definition ibig_abs (x : ibig) : ibig := ibig_from_ubig (unsigned_abs x).
Definition ibig_abs_ref (x : ibig) : res ibig :=
  u <- unsigned_abs_ref x ;; Ok (ibig_from_ubig u).

(** src/mul_ops.rs: impl Mul<IBig> for Sign (162-170). E.g. src/mul_ops.rs:162 *)
Definition sign_mul_ibig (s : sign) (x : ibig) : ibig :=
  from_sign_magnitude (sign_mul s (isign x)) (imag x).

End IBig.
