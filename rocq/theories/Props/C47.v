(** C47: the literal macros return the number that was written. *)
From Verif Require Import Model.Base Model.Buffer Model.UBig Model.IBig Model.Parse Model.Macros
  Spec.Val Spec.Num Spec.Digits Spec.Text Spec.ParseResult Spec.Literal Proofs.MacrosProofs Proofs.Samples Proofs.TextSamples.

(** [written s body]: the argument [s] is [body], possibly with an underscore in front. *)
Theorem C47_identifier (A : Arch) (AOK : ArchOk A) (s body : list Z) (r : Z) (t : list Z) (v : Z) (neg : bool) :
  written s body -> slice_size (43 :: body) -> prefixed body r t -> numeral r t v ->
  accepts (ubig_macro (TokIdent s) None) v /\ iaccepts (ibig_macro neg (TokIdent s) None) (if neg then - v else v).
Proof. exact (macro_ident s body r t v neg). Qed.
Print Assumptions C47_identifier.

Theorem C47_base (A : Arch) (AOK : ArchOk A) (s body : list Z) (r v value : Z) (neg : bool) :
  written s body -> slice_size (43 :: body) -> 2 <= r <= 36 -> numeral r body v ->
  forall tok, In tok [TokIdent s; TokLiteral s value] ->
  accepts (ubig_macro tok (Some r)) v /\ iaccepts (ibig_macro neg tok (Some r)) (if neg then - v else v).
Proof. exact (macro_base s body r v value neg). Qed.
Print Assumptions C47_base.

(** Literals that the compiler accepts as a [u128]. *)
Theorem C47_literal (A : Arch) (AOK : ArchOk A) (s : list Z) (value : Z) (neg : bool) : 0 <= value < 2 ^ 128 ->
  reads_back (ubig_macro (TokLiteral s value) None) value /\
  ireads_back (ibig_macro neg (TokLiteral s value) None) (if neg then - value else value).
Proof. exact (macro_literal s value neg). Qed.
Print Assumptions C47_literal.

(** Nothing else is accepted.  43 is '+', which no identifier or literal starts with. *)
Theorem C47_identifier_only (A : Arch) (AOK : ArchOk A) (s body : list Z) (u : ubig) :
  written s body -> (forall t, body <> 43 :: t) -> slice_size body ->
  ubig_macro (TokIdent s) None = Ok (POk u) -> ubig_ok u /\ exists r t, prefixed body r t /\ numeral r t (uval u).
Proof. exact (macro_ident_only s body u). Qed.
Print Assumptions C47_identifier_only.

Theorem C47_base_only (A : Arch) (AOK : ArchOk A) (s body : list Z) (r : Z) (u : ubig) (value : Z) :
  written s body -> (forall t, body <> 43 :: t) -> slice_size body -> 2 <= r <= 36 ->
  forall tok, In tok [TokIdent s; TokLiteral s value] -> ubig_macro tok (Some r) = Ok (POk u) ->
  ubig_ok u /\ numeral r body (uval u).
Proof. exact (macro_base_only s body r u value). Qed.
Print Assumptions C47_base_only.

Theorem C47_ibig_only (A : Arch) (AOK : ArchOk A) (neg : bool) (tok : token) (base : option Z) (x : ibig) :
  ibig_macro neg tok base = Ok (POk x) -> 
  exists u, ubig_macro tok base = Ok (POk u) /\ (ubig_ok u -> ibig_ok x /\ ival x = if neg then - uval u else uval u).
Proof. exact (ibig_macro_only neg tok base x). Qed.
Print Assumptions C47_ibig_only.

(** The examples of the documentation, src/macros.rs:8-33 and 65-90. *)
Example C47_documented : let A := arch16 in
  parsed (ubig_macro (TokLiteral (txt "0x2ff") 0x2ff) None) = Ok (POk 0x2ff) /\
  parsed (ubig_macro (TokIdent (txt "a3gp1")) (Some 32)) = parsed (ubig_macro (TokIdent (txt "_a3gp1")) (Some 32)) /\
  parsed (ubig_macro (TokIdent (txt "_314159265358979")) None) = Ok (POk 314159265358979) /\
  parsed (ubig_macro (TokIdent (txt "_0b102")) (Some 32)) = Ok (POk 0x58402) /\
  parsed (ubig_macro (TokIdent (txt "b102")) (Some 32)) = Ok (POk 0x58402) /\
  iparsed (ibig_macro true (TokIdent (txt "_100ef")) (Some 32)) = Ok (POk (- 1049039)) /\
  parsed (ubig_macro (TokIdent (txt "_0b102")) None) = Ok (PErr InvalidDigit) /\
  parsed (ubig_macro (TokIdent (txt "__5")) None) = Ok (PErr InvalidDigit).
Proof. cbv zeta. sample. Qed.
Example C47_written : written (txt "_0x1F") (txt "0x1F") /\ written (txt "a1") (txt "a1") /\ prefixed (txt "0x1F") 16 (txt "1F").
Proof. split; [left; reflexivity|]. split; [right; split; [reflexivity|discriminate]|right; right; left; split; reflexivity]. Qed.
