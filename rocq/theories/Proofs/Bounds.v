(** Operations that cannot overflow: their results always fit. *)
From Verif Require Import Model.Base Model.Words Model.Buffer Model.UBig Model.IBig Model.Convert Model.AddOps Model.MulOps
  Model.ShiftOps Model.Bits Model.DivOps Spec.Val Spec.Num Proofs.Basics Proofs.BufferProofs Proofs.AddOpsProofs
  Proofs.ShiftOpsProofs Proofs.BitsProofs Proofs.BitCountProofs Proofs.DivOpsProofs.
From Coq Require Import Lia.

Section Bounds.
Context {A : Arch} {AOK : ArchOk A}.

Lemma yields_returns r z : yields r z -> z < MAXV -> returns r z.
Proof. intros [Y _] H. exact (Y H). Qed.
Lemma iyields_ireturns r z : iyields r z -> Z.abs z < MAXV -> ireturns r z.
Proof. intros [Y _] H. exact (Y H). Qed.

Lemma yields_not_internal r z : yields r z -> r <> Panic Internal.
Proof.
  intros [Y1 Y2]. destruct (Z.lt_ge_cases z MAXV) as [H|H].
  - destruct (Y1 H) as (u & -> & _). discriminate.
  - rewrite (Y2 H). discriminate.
Qed.
Lemma iyields_not_internal r z : iyields r z -> r <> Panic Internal.
Proof.
  intros [Y1 Y2]. destruct (Z.lt_ge_cases (Z.abs z) MAXV) as [H|H].
  - destruct (Y1 H) as (u & -> & _). discriminate.
  - rewrite (Y2 H). discriminate.
Qed.

Lemma shr_bound x n : 0 <= n -> Z.abs (x / 2 ^ n) <= Z.abs x.
Proof.
  intros H. assert (0 < 2 ^ n) by (apply Z.pow_pos_nonneg; lia). destruct (Z.lt_ge_cases x 0) as [S|S].
  - assert (x <= x / 2 ^ n) by (apply Z.div_le_lower_bound; nia). assert (x / 2 ^ n <= 0) by (apply Z.div_le_upper_bound; nia). lia.
  - pose proof (div_self_bound x (2 ^ n)). lia.
Qed.

End Bounds.
