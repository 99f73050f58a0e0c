(** The literal macros: src/macros.rs.  Definitions only.

    A macro argument is an identifier or a literal; which rule applies is decided by
    the compiler.  For an identifier the rules use its text ([stringify!]); for a
    literal either its text, or its value, which the compiler has checked to be a
    [u128].  [Result::expect] panics with "invalid number" when parsing reports an
    error; here that panic is the [PErr] that parsing reported. *)
From Verif Require Import Model.Base Model.Words Model.Buffer Model.UBig Model.IBig Model.Convert Model.Parse.

(** E.g. src/macros.rs:35 *)
Inductive token : Type :=
| TokIdent (text : list Z)
| TokLiteral (text : list Z) (value : Z).

Section Macros.
Context {A : Arch}.

(** src/macros.rs:37-38, 45-46, 54-55; 95 = '_' *)
Definition strip_underscore (s : list Z) : list Z :=
  match strip_char 95 s with Some t => t | None => s end.

(** src/macros.rs:35-58: the four rules of [ubig!]; [base] is the radix after "base". *)
Definition ubig_macro (tok : token) (base : option Z) : res (presult ubig) :=
  match tok, base with
  | TokIdent s, None => ubig_from_str_with_radix_prefix (strip_underscore s)
  | TokIdent s, Some radix => ubig_from_str_radix (strip_underscore s) radix
  | TokLiteral _ v, None => pok (ubig_from_unsigned 128 v)
  | TokLiteral s _, Some radix => ubig_from_str_radix (strip_underscore s) radix
  end.

(** src/macros.rs:92-125: the eight rules of [ibig!]; [negative] when there is a minus sign. *)
Definition ibig_macro (negative : bool) (tok : token) (base : option Z) : res (presult ibig) :=
  u <-? ubig_macro tok base ;;
  Ok (POk (if negative then ibig_neg (ibig_from_ubig u) else ibig_from_ubig u)).

End Macros.
