(** Implementations of the num-traits traits: src/num_traits.rs.  Definitions only.

    [Pow] (43-79) and [Num] (110-124) only forward to the inherent [pow] and
    [from_str_radix]; the default methods of the traits belong to num-traits
    and are not part of this crate. *)
From Verif Require Import Model.Base Model.Words Model.Buffer Model.UBig Model.IBig Model.Convert Model.AddOps Model.Pow Model.Parse.

Section NumTraits.
Context {A : Arch}.

(** src/num_traits.rs:5-15 *)
Definition nt_ubig_zero : res ubig := ubig_from_unsigned 8 0.
Definition nt_ubig_is_zero (self : ubig) : res bool :=
  z <- ubig_from_unsigned 8 0 ;; Ok (ubig_eqb self z).

(** src/num_traits.rs:17-27 *)
Definition nt_ibig_zero : res ibig := ibig_from_unsigned 8 0.
Definition nt_ibig_is_zero (self : ibig) : res bool :=
  z <- ibig_from_unsigned 8 0 ;; Ok (ibig_eqb self z).

(** src/num_traits.rs:29-34 *)
Definition nt_ubig_one : res ubig := ubig_from_unsigned 8 1.

(** src/num_traits.rs:36-41 *)
Definition nt_ibig_one : res ibig := ibig_from_unsigned 8 1.

(** src/num_traits.rs:43-60 *)
Definition nt_ubig_pow_v (self : ubig) (rhs : Z) : res ubig := ubig_pow self rhs.
Definition nt_ubig_pow_r (self : ubig) (rhs : Z) : res ubig := ubig_pow self rhs.

(** src/num_traits.rs:62-79 *)
Definition nt_ibig_pow_v (self : ibig) (rhs : Z) : res ibig := ibig_pow self rhs.
Definition nt_ibig_pow_r (self : ibig) (rhs : Z) : res ibig := ibig_pow self rhs.

(** src/num_traits.rs:84-87 *)
Definition nt_abs (self : ibig) : res ibig := ibig_abs_ref self.

(** src/num_traits.rs:89-92 *)
Definition nt_abs_sub (self other : ibig) : res ibig :=
  d <- ibig_sub_rr self other ;; Ok (ibig_abs d).

(** src/num_traits.rs:94-97 *)
Definition nt_signum (self : ibig) : res ibig := signum self.

(** src/num_traits.rs:99-102 *)
Definition nt_is_positive (self : ibig) : res bool :=
  z <- ibig_from_unsigned 8 0 ;; c <- ibig_cmp self z ;;
  Ok (match c with Gt => true | _ => false end).

(** src/num_traits.rs:104-107 *)
Definition nt_is_negative (self : ibig) : res bool :=
  z <- ibig_from_unsigned 8 0 ;; c <- ibig_cmp self z ;;
  Ok (match c with Lt => true | _ => false end).

(** src/num_traits.rs:110-116 *)
Definition nt_ubig_from_str_radix (s : list Z) (radix : Z) := ubig_from_str_radix s radix.

(** src/num_traits.rs:118-124 *)
Definition nt_ibig_from_str_radix (s : list Z) (radix : Z) := ibig_from_str_radix s radix.

End NumTraits.
