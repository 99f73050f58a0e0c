(** The crate's own tests, replayed on the model. The code is not run here, so
    its tests are the only record of what it does on concrete inputs. Each
    definition in this directory carries the name of a Rust test function,
    cites it, and shows that all its assertions hold of the model, on 16-, 32-
    and 64-bit words. Tests that draw random numbers, and the tests of the texts
    of the error types, are left out. Some tests are run on smaller numbers or on
    fewer word sizes than the Rust tests, as their comments say.

    A test [t] is a function of the word size, and [Check passes t] makes the
    type checker run it when this file is built, by reduction in the virtual
    machine. Nothing is stored: the tests are evidence that the model follows
    the code, and no theorem depends on them.

    This file has what the tests share: [ubig!(z)] and [ibig!(z)], and
    [assert_eq!] on results of the model's functions. *)
From Verif Require Export Model.Base Model.Words Model.Buffer Model.UBig Model.IBig Proofs.Samples.
From Coq Require Export ZArith List Bool.
Export ListNotations.
Open Scope Z_scope.

Section Harness.
Context {A : Arch}.

Fixpoint words_of (fuel : nat) (z : Z) : list Z :=
  match fuel with
  | O => []
  | S fuel => if z =? 0 then [] else Z.land z (B - 1) :: words_of fuel (Z.shiftr z wbits)
  end.

(** [ubig!(z)] *)
Definition u (z : Z) : ubig :=
  if z <? B then Small z else lg (words_of (Z.to_nat (bitlen z)) z).

(** [ibig!(z)] *)
Definition i (z : Z) : ibig := mkIBig (if z <? 0 then Negative else Positive) (u (Z.abs z)).

(** [assert_eq!(r, ubig!(z))]. The result also is in canonical form. *)
Definition is_u (r : res ubig) (z : Z) : bool :=
  match r with Ok x => ubig_eqb x (u z) && ubig_okb x | Panic _ => false end.
Definition is_i (r : res ibig) (z : Z) : bool :=
  match r with Ok x => ibig_eqb x (i z) && ibig_okb x | Panic _ => false end.
Definition is_uu (r : res (ubig * ubig)) (q r' : Z) : bool :=
  match r with Ok (x, y) => is_u (Ok x) q && is_u (Ok y) r' | Panic _ => false end.
Definition is_ii (r : res (ibig * ibig)) (q r' : Z) : bool :=
  match r with Ok (x, y) => is_i (Ok x) q && is_i (Ok y) r' | Panic _ => false end.
Definition is_uz (r : res (ubig * Z)) (q r' : Z) : bool :=
  match r with Ok (x, y) => is_u (Ok x) q && (y =? r') | Panic _ => false end.
Definition is_iz (r : res (ibig * Z)) (q r' : Z) : bool :=
  match r with Ok (x, y) => is_i (Ok x) q && (y =? r') | Panic _ => false end.
Definition is_z (r : res Z) (z : Z) : bool :=
  match r with Ok x => x =? z | Panic _ => false end.
Definition is_b (r : res bool) (b : bool) : bool :=
  match r with Ok x => Bool.eqb x b | Panic _ => false end.

(** The same assertion about several forms of an operation. *)
Definition all_u (rs : list (res ubig)) (z : Z) : bool := forallb (fun r => is_u r z) rs.
Definition all_i (rs : list (res ibig)) (z : Z) : bool := forallb (fun r => is_i r z) rs.
Definition all_uu (rs : list (res (ubig * ubig))) (q r' : Z) : bool := forallb (fun r => is_uu r q r') rs.
Definition all_ii (rs : list (res (ibig * ibig))) (q r' : Z) : bool := forallb (fun r => is_ii r q r') rs.
Definition all_uz (rs : list (res (ubig * Z))) (q r' : Z) : bool := forallb (fun r => is_uz r q r') rs.
Definition all_iz (rs : list (res (ibig * Z))) (q r' : Z) : bool := forallb (fun r => is_iz r q r') rs.
Definition all_z (rs : list (res Z)) (z : Z) : bool := forallb (fun r => is_z r z) rs.

(** [#[should_panic]] with the documented panic, not a failed internal check. *)
Definition should_panic {T} (r : res T) : bool :=
  match r with Ok _ | Panic Internal => false | Panic _ => true end.

End Harness.

(** [for a in lo..=hi] *)
Definition for_in (lo hi : Z) (body : Z -> bool) : bool :=
  forallb (fun k => body (lo + Z.of_nat k)) (seq 0 (Z.to_nat (hi - lo + 1))).

(** The conjunction of the assertions of a test, on all word sizes. *)
Definition all (bs : list bool) : bool := forallb (fun b => b) bs.
Definition on_archs (t : Arch -> bool) : bool := all [t arch16; t arch32; t arch64].

Notation passes t := (@eq_refl bool true <: on_archs t = true).
