(** What formatted rings and their elements look like. *)
From Coq Require Import ZArith List.
From Verif Require Import Model.Base Model.Fmt Model.ModularFmt Spec.FmtText.
Import ListNotations.
Open Scope Z_scope.

(** The radix, the letter case and the prefix that each formatting trait stands for. *)
Definition trait_radix (t : fmt_trait) : Z :=
  match t with TDisplay | TDebug => 10 | TBinary => 2 | TOctal => 8 | TLowerHex | TUpperHex => 16 end.
Definition trait_upper (t : fmt_trait) : bool := match t with TUpperHex => true | _ => false end.
Definition trait_prefix (t : fmt_trait) (f : Formatter) : list Z :=
  match t with
  | TDisplay | TDebug => []
  | TBinary => alt_prefix f 98
  | TOctal => alt_prefix f 111
  | TLowerHex | TUpperHex => alt_prefix f 120
  end.

(** [s] is the number [v] formatted by the trait [t] with the options [f]. *)
Definition trait_text (t : fmt_trait) (f : Formatter) (v : Z) (s : list Z) : Prop :=
  shows (Base.Ok s) f (trait_radix t) (trait_upper t) (trait_prefix t f) v.

(** "mod " and the modulus; 109 111 100 32 = "mod ". *)
Definition ring_text (t : fmt_trait) (f : Formatter) (n : Z) (m : Base.res (list Z)) : Prop :=
  exists sn, trait_text t f n sn /\ m = Base.Ok ([109; 111; 100; 32] ++ sn).

(** The residue, " (mod ", the modulus, ")"; each number is filled up by itself. *)
Definition element_text (t : fmt_trait) (f : Formatter) (n a : Z) (m : Base.res (list Z)) : Prop :=
  exists sa sn, trait_text t f a sa /\ trait_text t f n sn /\
    m = Base.Ok (sa ++ [32; 40; 109; 111; 100; 32] ++ sn ++ [41]).

(** The trait that [Debug] amounts to under [{:x?}] and [{:X?}]. *)
Definition debug_trait (debug_hex : option bool) : fmt_trait :=
  match debug_hex with None => TDisplay | Some false => TLowerHex | Some true => TUpperHex end.
