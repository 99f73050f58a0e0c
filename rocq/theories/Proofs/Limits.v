(** Every number below the limit has a representation, so the limits that the
    theorems speak about can be reached. *)
From Verif Require Import Model.Base Model.Words Model.Buffer Model.UBig Model.IBig Model.ShiftOps Model.AddOps Model.MulOps Spec.Val Spec.Num Proofs.Basics Proofs.BufferProofs
  Proofs.AddOpsProofs Proofs.MulOpsProofs Proofs.ShiftOpsProofs.
From Coq Require Import Lia.

Section Limits.
Context {A : Arch} {AOK : ArchOk A}.

Lemma words_exist n : forall z, 0 <= z < Bn n -> exists ws, length ws = n /\ wf ws /\ val ws = z.
Proof.
  induction n as [|n IH]; intros z Hz.
  - exists []. split; [auto|]. split; [apply wf_nil|]. rewrite Bn_0 in Hz. cbn. lia.
  - rewrite Bn_S in Hz. pose proof B_pos as PB. destruct (IH (z / B)) as (ws & L & W & V).
    { split; [apply Z.div_pos; lia|]. apply Z.div_lt_upper_bound; lia. }
    exists (z mod B :: ws). split; [cbn; lia|]. split; [apply wf_cons; split; [apply Z.mod_pos_bound; lia|auto]|].
    rewrite val_cons, V. pose proof (Z.div_mod z B). lia.
Qed.

Lemma representable z : 0 <= z < MAXV -> exists u, ubig_ok u /\ uval u = z.
Proof.
  intros Hz. pose proof MAX_LEN_ge. destruct (words_exist (Z.to_nat MAX_LEN) z) as (ws & L & W & V).
  { pose proof (proj1 (MAXV_lt_Bn (Z.to_nat MAX_LEN))). lia. }
  destruct (from_buffer_yields (mkBuffer ws MAX_LEN)) as [Y _].
  { split; [exact W|]. unfold blen, len. cbn [words cap]. lia. }
  cbn [words] in Y. rewrite V in Y. destruct Y as (u & _ & Hu & Vu); [lia|]. eauto.
Qed.

Lemma max_exists : exists u, ubig_ok u /\ uval u = MAXV - 1.
Proof. apply representable. pose proof MAXV_pos. lia. Qed.

Lemma imax_exists : exists x, ibig_ok x /\ ival x = MAXV - 1.
Proof.
  destruct max_exists as (u & Hu & Vu). exists (mkIBig Positive u). split; [split; [auto|intros; reflexivity]|].
  unfold ival. cbn [isign imag sign_val]. lia.
Qed.

Lemma MAXV_even : MAXV mod 2 = 0.
Proof.
  unfold MAXV. pose proof MAX_LEN_ge. pose proof wbits_ge.
  replace (wbits * MAX_LEN) with (1 + (wbits * MAX_LEN - 1)) by lia. rewrite Z.pow_add_r by nia.
  rewrite Z.mul_comm. apply Z.mod_mul. lia.
Qed.

Lemma one_ok : ubig_ok (Small 1). Proof. cbn. pose proof B_ge. lia. Qed.
Lemma two_ok : ubig_ok (Small 2). Proof. cbn. pose proof B_ge. lia. Qed.
Lemma two_MAXV : 2 < MAXV. Proof. pose proof B_MAXV. pose proof B_ge. nia. Qed.

Lemma shl_limit : exists n, 0 <= n < 2 ^ ubits /\ returns (ubig_shl_v (Small 1) n) (MAXV / 2).
Proof.
  pose proof MAX_LEN_ge. pose proof wbits_ge. pose proof MAX_BIT_LEN_usize. exists (wbits * MAX_LEN - 1).
  assert (R : 0 <= wbits * MAX_LEN - 1 < 2 ^ ubits) by nia. split; [exact R|].
  assert (E : MAXV = 2 * 2 ^ (wbits * MAX_LEN - 1)) by (unfold MAXV; rewrite <- Z.pow_succ_r by lia; f_equal; lia).
  pose proof MAXV_pos. assert (D : MAXV / 2 = 2 ^ (wbits * MAX_LEN - 1)) by (rewrite E, Z.mul_comm; apply Z.div_mul; lia).
  destruct (ubig_shl_v_yields (Small 1) _ one_ok R) as [Y _]. cbn [uval] in Y. rewrite Z.mul_1_l, <- D in Y. apply Y.
  apply Z.div_lt; lia.
Qed.

Lemma shl_too_large : exists n, 0 <= n < 2 ^ ubits /\ ubig_shl_v (Small 1) n = Panic NumberTooLarge.
Proof.
  pose proof MAX_LEN_ge. pose proof wbits_ge. pose proof MAX_BIT_LEN_usize. exists (wbits * MAX_LEN).
  assert (R : 0 <= wbits * MAX_LEN < 2 ^ ubits) by nia. split; [exact R|].
  destruct (ubig_shl_v_yields (Small 1) _ one_ok R) as [_ Y]. apply Y. cbn [uval]. unfold MAXV. lia.
Qed.

Lemma add_too_large : exists a, ubig_ok a /\ ubig_add_rr a (Small 1) = Panic NumberTooLarge.
Proof.
  destruct max_exists as (a & Ha & Va). exists a. split; [exact Ha|].
  destruct (ubig_add_rr_yields a (Small 1) Ha one_ok) as [_ Y]. apply Y. rewrite Va. cbn [uval]. lia.
Qed.

Lemma mul_too_large : exists a, ubig_ok a /\ ubig_mul_vv a (Small 2) = Panic NumberTooLarge.
Proof.
  destruct max_exists as (a & Ha & Va). exists a. split; [exact Ha|].
  destruct (ubig_mul_vv_yields a (Small 2) Ha two_ok) as [_ Y]. apply Y. rewrite Va. pose proof two_MAXV. cbn [uval]. lia.
Qed.

End Limits.
