(** The literal macros. *)
From Verif Require Import Model.Base Model.Words Model.Buffer Model.UBig Model.IBig Model.Convert Model.Parse Model.Macros
  Spec.Val Spec.Num Spec.Prim Spec.Digits Spec.Text Spec.ParseResult Spec.Literal
  Proofs.Basics Proofs.BufferProofs Proofs.ConvertProofs Proofs.DigitsProofs Proofs.ParseApi.
From Coq Require Import Lia.

Lemma strip_written s t : written s t -> strip_underscore s = t.
Proof.
  unfold strip_underscore. intros [->|[-> H]]; [reflexivity|]. destruct t as [|c t]; [reflexivity|]. cbn [strip_char].
  destruct (Z.eqb_spec c 95) as [->|]; [destruct (H t); reflexivity|reflexivity].
Qed.

Lemma numeral_pos r s v : 2 <= r -> numeral r s v -> 0 <= v.
Proof. intros Hr (_ & ds & _ & D & ->). apply num_bound; [lia|apply digits_ok_rev; exact D]. Qed.

Lemma prefixed_radix s r t : prefixed s r t -> 2 <= r <= 36.
Proof. unfold prefixed. intuition lia. Qed.

Section Macros.
Context {A : Arch} {AOK : ArchOk A}.

Lemma ibig_macro_accepts neg tok base v : 0 <= v -> accepts (ubig_macro tok base) v -> iaccepts (ibig_macro neg tok base) (signed neg v).
Proof.
  intros Hv [H1 H2]. assert (EA : Z.abs (signed neg v) = v) by (unfold signed; destruct neg; lia). unfold iaccepts. rewrite EA.
  unfold ibig_macro. split; intros H.
  - destruct (H1 H) as (u & -> & Hu & Vu). cbn [pbind]. destruct (ibig_from_ubig_spec u Hu) as [K1 K2].
    eexists. split; [reflexivity|]. unfold signed. destruct neg; [destruct (ibig_neg_spec _ K1) as [K3 K4]; split; [exact K3|lia]|split; [exact K1|lia]].
  - rewrite (H2 H). reflexivity.
Qed.

Theorem macro_ident s body r t v neg : written s body -> slice_size (43 :: body) -> prefixed body r t -> numeral r t v ->
  accepts (ubig_macro (TokIdent s) None) v /\ iaccepts (ibig_macro neg (TokIdent s) None) (signed neg v).
Proof.
  intros W S P N. assert (K : accepts (ubig_macro (TokIdent s) None) v).
  { cbn [ubig_macro]. rewrite (strip_written s body W). apply (ubig_prefix_spec body r t v S P N). }
  split; [exact K|]. apply ibig_macro_accepts; [|exact K]. apply prefixed_radix in P. apply (numeral_pos r t); [lia|exact N].
Qed.

Theorem macro_base s body r v value neg : written s body -> slice_size (43 :: body) -> 2 <= r <= 36 -> numeral r body v ->
  forall tok, In tok [TokIdent s; TokLiteral s value] ->
  accepts (ubig_macro tok (Some r)) v /\ iaccepts (ibig_macro neg tok (Some r)) (signed neg v).
Proof.
  intros W S Hr N tok HI. assert (K : accepts (ubig_macro tok (Some r)) v).
  { destruct HI as [<-|[<-|[]]]; cbn [ubig_macro]; rewrite (strip_written s body W); apply (ubig_from_str_radix_spec r body v Hr S N). }
  split; [exact K|]. apply ibig_macro_accepts; [|exact K]. apply (numeral_pos r body); [lia|exact N].
Qed.

Theorem macro_literal s value neg : 0 <= value < 2 ^ 128 ->
  reads_back (ubig_macro (TokLiteral s value) None) value /\
  ireads_back (ibig_macro neg (TokLiteral s value) None) (signed neg value).
Proof.
  intros Hv. assert (PB : prim_bits 128) by (unfold prim_bits; tauto).
  destruct (ubig_from_unsigned_spec 128 value PB Hv) as (u & E & Hu & Vu).
  cbn [ubig_macro]. unfold ibig_macro. cbn [ubig_macro]. rewrite E. cbn [pok bind pbind]. split; [exists u; auto|].
  destruct (ibig_from_ubig_spec u Hu) as [K1 K2]. eexists. split; [reflexivity|].
  unfold signed. destruct neg; [destruct (ibig_neg_spec _ K1) as [K3 K4]; split; [exact K3|lia]|split; [exact K1|lia]].
Qed.

Theorem macro_ident_only s body u : written s body -> (forall t, body <> 43 :: t) -> slice_size body ->
  ubig_macro (TokIdent s) None = Ok (POk u) -> ubig_ok u /\ exists r t, prefixed body r t /\ numeral r t (uval u).
Proof.
  intros W NP S E. cbn [ubig_macro] in E. rewrite (strip_written s body W) in E.
  destruct (ubig_prefix_complete body u S E) as (Hu & b & r & t & [->|Eb] & P & N); [|destruct (NP b Eb)].
  split; [exact Hu|]. exists r, t. auto.
Qed.

Theorem macro_base_only s body r u value : written s body -> (forall t, body <> 43 :: t) -> slice_size body -> 2 <= r <= 36 ->
  forall tok, In tok [TokIdent s; TokLiteral s value] -> ubig_macro tok (Some r) = Ok (POk u) -> ubig_ok u /\ numeral r body (uval u).
Proof.
  intros W NP S Hr tok HI E.
  assert (E' : ubig_from_str_radix body r = Ok (POk u)).
  { destruct HI as [<-|[<-|[]]]; cbn [ubig_macro] in E; rewrite (strip_written s body W) in E; exact E. }
  destruct (ubig_from_str_radix_complete r body u Hr S E') as (Hu & [N|(t & Eb & _)]); [auto|destruct (NP t Eb)].
Qed.

(** [ibig!] accepts what [ubig!] accepts. *)
Theorem ibig_macro_only neg tok base x : ibig_macro neg tok base = Ok (POk x) ->
  exists u, ubig_macro tok base = Ok (POk u) /\ (ubig_ok u -> ibig_ok x /\ ival x = if neg then - uval u else uval u).
Proof.
  unfold ibig_macro. destruct (ubig_macro tok base) as [[u|e]|p]; cbn [pbind]; try discriminate. intros [= <-].
  exists u. split; [reflexivity|]. intros Hu. destruct (ibig_from_ubig_spec u Hu) as [K1 K2].
  destruct neg; [|auto]. destruct (ibig_neg_spec _ K1) as [K3 K4]. split; [exact K3|]. rewrite K4, K2. reflexivity.
Qed.

End Macros.
