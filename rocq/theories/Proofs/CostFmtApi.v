(** How many steps formatting takes, for the callers. *)
From Coq Require Import Lia.
From Verif Require Import Model.Base Model.Words Model.Buffer Model.UBig Model.IBig Model.Radix Model.Fmt Model.Cost Model.CostFmt Spec.Val Spec.Num.
From Verif Require Import Proofs.Basics Proofs.CostProofs Proofs.CostOpsProofs Proofs.CostParseProofs Proofs.CostFmtProofs Proofs.CostFmtBounds Proofs.CostFmtSteps.

Section Api.
Context {A : Arch} (be : bool).
Notation wanted f := (match f_width f with Some w => Z.max 0 w | None => 0 end).

Lemma display_erase u x f : snd (c_ubig_display be u f) = ubig_display be u f /\ snd (c_ibig_display be x f) = ibig_display be x f.
Proof. unfold c_ubig_display, ubig_display, c_ibig_display, ibig_display. split; apply fmt_full_erase. Qed.

Lemma in_radix_erase u x radix f :
  snd (c_ubig_in_radix_text be u radix f) = ubig_in_radix_text be u radix f /\
  snd (c_ibig_in_radix_text be x radix f) = ibig_in_radix_text be x radix f.
Proof.
  split; [unfold c_ubig_in_radix_text, ubig_in_radix_text|unfold c_ibig_in_radix_text, ibig_in_radix_text]; rewrite snd_cbind; (apply bind_ext; [reflexivity|]); intros r;
    unfold c_in_radix_display, in_radix_display; apply fmt_full_erase.
Qed.

Context {AOK : ArchOk A}.

Lemma extra_none self f : irf_prefix self = [] -> extra self f = wanted f.
Proof. unfold extra. intros ->. reflexivity. Qed.

Lemma ubig_display_steps u f n s : ubig_ok u -> c_ubig_display be u f = (n, Ok s) ->
  ubig_display be u f = Ok s /\ 0 <= n /\ exists m, n <= m + wanted f /\ m ^ 100 <= (39700 * ulen u) ^ 100 * ulen u ^ 47.
Proof. intros O E. unfold c_ubig_display in E. apply fmt_full_steps in E; [exact E|exact O]. Qed.

Lemma ibig_display_steps x f n s : ibig_ok x -> c_ibig_display be x f = (n, Ok s) ->
  ibig_display be x f = Ok s /\ 0 <= n /\ exists m, n <= m + wanted f /\ m ^ 100 <= (39700 * ulen (imag x)) ^ 100 * ulen (imag x) ^ 47.
Proof. intros O E. unfold c_ibig_display in E. apply fmt_full_steps in E; [exact E|exact (proj1 O)]. Qed.

Lemma in_radix_steps u radix f n s : ubig_ok u -> c_ubig_in_radix_text be u radix f = (n, Ok s) ->
  ubig_in_radix_text be u radix f = Ok s /\ 0 <= n /\ exists m, n <= m + wanted f /\ m ^ 100 <= (39700 * ulen u) ^ 100 * ulen u ^ 47.
Proof.
  intros O E. unfold c_ubig_in_radix_text in E. destruct (ubig_in_radix u radix) as [r|p] eqn:R; [|discriminate]. rewrite free_bind in E.
  unfold ubig_in_radix_text. rewrite R. cbn [bind]. unfold ubig_in_radix in R. apply bind_inv in R. destruct R as (u0 & _ & R). injection R as <-.
  unfold c_in_radix_display in E. apply fmt_full_steps in E; [exact E|exact O].
Qed.

Lemma power_two_steps self f n s : ubig_ok (irf_magnitude self) -> In (irf_radix self) [2; 4; 8; 16; 32] -> c_fmt_full be self f = (n, Ok s) ->
  fmt_full be self f = Ok s /\ 0 <= n <= 574 * ulen (irf_magnitude self) + len (irf_prefix self) + wanted f.
Proof.
  intros O R E. rewrite <- Z.add_assoc. apply (fmt_power_two_steps be self f n s O); [|exact E].
  destruct R as [<-|[<-|[<-|[<-|[<-|[]]]]]]; reflexivity.
Qed.

End Api.
