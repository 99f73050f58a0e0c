(** Counting what formatting does (Model/CostFmt.v): the counter changes nothing. *)
From Coq Require Import Lia.
From Verif Require Import Model.Base Model.Words Model.FastDivide Model.DivWord Model.Buffer Model.UBig Model.IBig
  Model.Convert Model.MulOps Model.DivOps Model.Gcd Model.Pow Model.Radix Model.Fmt Model.Cost Model.CostDiv Model.CostOps Model.CostFmt Spec.Val.
From Verif Require Import Proofs.Basics Proofs.CostProofs Proofs.CostOpsProofs.

Ltac fer1 :=
  lazymatch goal with
  | |- snd (free _) = _ => exact eq_refl
  | |- snd (call _ _) = _ => exact eq_refl
  | |- snd (cbind (call _ (Ok _)) _) = _ => rewrite snd_cbind, snd_call; cbn [bind]
  | |- snd (cbind _ _) = _ => rewrite snd_cbind; apply bind_ext; [|let x := fresh "x" in intros x; pairs x; cbv beta iota]
  | |- snd (match ?x with _ => _ end) = _ => destruct x
  | |- _ => first [match goal with H : forall _, _ |- _ => apply H end | reflexivity]
  end.
Ltac fer := repeat fer1.
Ltac fnn1 :=
  lazymatch goal with
  | |- 0 <= fst (free _) => apply nn_free
  | |- 0 <= fst (call _ _) => apply nn_call
  | |- 0 <= fst (cbind _ _) => apply nn_bind; [|let x := fresh "x" in intros x; pairs x; cbv beta iota]
  | |- 0 <= fst (match ?x with _ => _ end) => destruct x
  | |- _ => match goal with H : forall _, _ |- _ => apply H end
  end.
Ltac fnn := repeat fnn1.

Section Erase.
Context {A : Arch} (be : bool).

Lemma dw_write_loop_erase fuel : forall w buf, snd (c_dw_write_loop be fuel w buf) = dw_write_loop be fuel w buf.
Proof. induction fuel as [|fuel IH]; intros; cbn [c_dw_write_loop dw_write_loop]; cbv zeta; unfold c_dw_flush; fer. Qed.

Lemma dw_write_erase w buf : snd (c_dw_write be w buf) = dw_write be w buf.
Proof. apply dw_write_loop_erase. Qed.

Lemma p2w_write_erase p w : snd (c_p2w_write be p w) = p2w_write be p w.
Proof. unfold c_p2w_write, p2w_write. pose proof dw_write_erase. fer. Qed.

Lemma p2l_loop_erase fuel : forall it x b lr w, snd (c_p2l_loop be fuel it x b lr w) = p2l_loop be fuel it x b lr w.
Proof. pose proof dw_write_erase. induction fuel as [|fuel IH]; intros; cbn [c_p2l_loop p2l_loop]; cbv zeta; fer. Qed.

Lemma p2l_write_erase p w : snd (c_p2l_write be p w) = p2l_write be p w.
Proof. unfold c_p2l_write, p2l_write. cbv zeta. pose proof p2l_loop_erase. fer. Qed.

Lemma npw_new_erase x r m : snd (c_npw_new x r m) = npw_new x r m.
Proof. unfold c_npw_new, npw_new. fer. Qed.

Lemma npw_write_erase p w : snd (c_npw_write be p w) = npw_write be p w.
Proof. unfold c_npw_write, npw_write. pose proof dw_write_erase. fer. Qed.

Lemma npm_loop_erase fuel : forall ri b l, snd (c_npm_loop fuel ri b l) = npm_loop fuel ri b l.
Proof. induction fuel as [|fuel IH]; intros; cbn [c_npm_loop npm_loop]; cbv zeta; fer. Qed.

Lemma npm_new_erase x r : snd (c_npm_new x r) = npm_new x r.
Proof. unfold c_npm_new, npm_new, c_ubig_to_chunk_buffer. pose proof npm_loop_erase. pose proof npw_new_erase. fer. Qed.

Lemma write_groups_erase gs : forall r d w, snd (c_write_groups be gs r d w) = write_groups be gs r d w.
Proof. pose proof npw_new_erase. pose proof npw_write_erase. induction gs as [|g gs IH]; intros; cbn [c_write_groups write_groups]; fer. Qed.

Lemma npm_write_erase p w : snd (c_npm_write be p w) = npm_write be p w.
Proof. unfold c_npm_write, npm_write. pose proof npw_write_erase. pose proof write_groups_erase. fer. Qed.

Lemma npl_powers_erase fuel : forall n p ps, snd (c_npl_powers_loop fuel n p ps) = npl_powers_loop fuel n p ps.
Proof. pose proof mul_rr_erase. induction fuel as [|fuel IH]; intros; cbn [c_npl_powers_loop npl_powers_loop]; unfold c_ubig_lt; fer. Qed.

Lemma npl_split_erase ps : forall x cs, snd (c_npl_split ps x cs) = npl_split ps x cs.
Proof. pose proof div_rem_vr_erase. induction ps as [|p ps IH]; intros; cbn [c_npl_split npl_split]; unfold c_ubig_le; fer. Qed.

Lemma npl_new_erase x r : snd (c_npl_new x r) = npl_new x r.
Proof.
  unfold c_npl_new, npl_new, c_ubig_lt. pose proof pow_erase. pose proof npm_new_erase. pose proof npl_powers_erase. pose proof div_rem_rr_erase.
  pose proof npl_split_erase. fer.
Qed.

Lemma chunk_groups_erase n : forall ri b, snd (c_chunk_groups n ri b) = chunk_groups n ri b.
Proof. induction n as [|n IH]; intros; cbn [c_chunk_groups chunk_groups]; fer. Qed.

Lemma write_chunk_erase r w x : snd (c_npl_write_chunk be r w x) = npl_write_chunk be r w x.
Proof. unfold c_npl_write_chunk, npl_write_chunk, c_ubig_to_chunk_buffer. pose proof chunk_groups_erase. pose proof write_groups_erase. fer. Qed.

Lemma big_chunk_erase ps r i : forall w x, snd (c_npl_write_big_chunk be ps r w i x) = npl_write_big_chunk be ps r w i x.
Proof.
  pose proof write_chunk_erase. pose proof div_rem_vr_erase.
  induction i as [|i IH]; intros; cbn [c_npl_write_big_chunk npl_write_big_chunk]; fer.
Qed.

Lemma npl_write_loop_erase ps r cs : forall w, snd (c_npl_write_loop be ps r cs w) = npl_write_loop be ps r cs w.
Proof. pose proof big_chunk_erase. induction cs as [|[i x] cs IH]; intros; cbn [c_npl_write_loop npl_write_loop]; fer. Qed.

Lemma npl_write_erase p w : snd (c_npl_write be p w) = npl_write be p w.
Proof. unfold c_npl_write, npl_write. pose proof npm_write_erase. pose proof npl_write_loop_erase. fer. Qed.

Lemma write_digits_erase s cw w out : (forall x, snd (cw x) = w x) -> snd (c_write_digits be s cw out) = write_digits be s w out.
Proof. intros W. unfold c_write_digits, write_digits, c_dw_flush. fer. Qed.

Lemma format_prepared_erase s f cn n cw w : snd cn = n -> (forall x, snd (cw x) = w x) ->
  snd (c_format_prepared be s f cn cw) = format_prepared be s f n w.
Proof.
  intros N W. unfold c_format_prepared, format_prepared. cbv zeta.
  pose proof (fun s o => write_digits_erase s cw w o W). fer1; [exact N|]. fer.
Qed.

Lemma fmt_full_erase s f : snd (c_fmt_full be s f) = fmt_full be s f.
Proof.
  unfold c_fmt_full, fmt_full, c_fmt_power_two, fmt_power_two, c_fmt_non_power_two, fmt_non_power_two.
  destruct (is_pow2 (irf_radix s)).
  - fer1; [fer|]. destruct (irf_magnitude s); (fer1; [fer|]); apply format_prepared_erase; try reflexivity; [apply p2w_write_erase|apply p2l_write_erase].
  - fer1; [fer|]. destruct (irf_magnitude s).
    + fer1; [apply npw_new_erase|]. apply format_prepared_erase; [reflexivity|apply npw_write_erase].
    + do 4 (fer1; [fer|]). fer1.
      * fer1; [apply npm_new_erase|]. apply format_prepared_erase; [reflexivity|apply npm_write_erase].
      * fer1; [apply npl_new_erase|]. apply format_prepared_erase; [reflexivity|apply npl_write_erase].
Qed.

(** *** The counter is not negative. *)

Lemma dw_write_nn w buf : 0 <= fst (c_dw_write be w buf).
Proof.
  unfold c_dw_write. generalize (length buf). intros fuel. revert w buf.
  induction fuel as [|fuel IH]; intros; cbn [c_dw_write_loop]; cbv zeta; unfold c_dw_flush; fnn.
Qed.

Lemma p2w_write_nn p w : 0 <= fst (c_p2w_write be p w).
Proof. unfold c_p2w_write. pose proof dw_write_nn. fnn. Qed.

Lemma p2l_loop_nn fuel : forall it x b lr w, 0 <= fst (c_p2l_loop be fuel it x b lr w).
Proof. pose proof dw_write_nn. induction fuel as [|fuel IH]; intros; cbn [c_p2l_loop]; cbv zeta; fnn. Qed.

Lemma p2l_write_nn p w : 0 <= fst (c_p2l_write be p w).
Proof. unfold c_p2l_write. cbv zeta. pose proof p2l_loop_nn. fnn. Qed.

Lemma npw_new_nn x r m : 0 <= fst (c_npw_new x r m).
Proof. unfold c_npw_new. fnn. Qed.

Lemma npw_write_nn p w : 0 <= fst (c_npw_write be p w).
Proof. unfold c_npw_write. pose proof dw_write_nn. fnn. Qed.

Lemma npm_loop_nn fuel : forall ri b l, 0 <= fst (c_npm_loop fuel ri b l).
Proof. induction fuel as [|fuel IH]; intros; cbn [c_npm_loop]; cbv zeta; fnn. Qed.

Lemma npm_new_nn x r : 0 <= fst (c_npm_new x r).
Proof. unfold c_npm_new, c_ubig_to_chunk_buffer. pose proof npm_loop_nn. pose proof npw_new_nn. fnn. Qed.

Lemma write_groups_nn gs : forall r d w, 0 <= fst (c_write_groups be gs r d w).
Proof. pose proof npw_new_nn. pose proof npw_write_nn. induction gs as [|g gs IH]; intros; cbn [c_write_groups]; fnn. Qed.

Lemma npm_write_nn p w : 0 <= fst (c_npm_write be p w).
Proof. unfold c_npm_write. pose proof npw_write_nn. pose proof write_groups_nn. fnn. Qed.

Lemma npl_powers_nn fuel : forall n p ps, 0 <= fst (c_npl_powers_loop fuel n p ps).
Proof. pose proof mul_rr_nn. induction fuel as [|fuel IH]; intros; cbn [c_npl_powers_loop]; unfold c_ubig_lt; fnn. Qed.

Lemma npl_split_nn ps : forall x cs, 0 <= fst (c_npl_split ps x cs).
Proof. pose proof div_rem_vr_nn. induction ps as [|p ps IH]; intros; cbn [c_npl_split]; unfold c_ubig_le; fnn. Qed.

Lemma npl_new_nn x r : 0 <= fst (c_npl_new x r).
Proof.
  unfold c_npl_new, c_ubig_lt. pose proof pow_nn. pose proof npm_new_nn. pose proof npl_powers_nn. pose proof div_rem_rr_nn.
  pose proof npl_split_nn. fnn.
Qed.

Lemma chunk_groups_nn n : forall ri b, 0 <= fst (c_chunk_groups n ri b).
Proof. induction n as [|n IH]; intros; cbn [c_chunk_groups]; fnn. Qed.

Lemma write_chunk_nn r w x : 0 <= fst (c_npl_write_chunk be r w x).
Proof. unfold c_npl_write_chunk, c_ubig_to_chunk_buffer. pose proof chunk_groups_nn. pose proof write_groups_nn. fnn. Qed.

Lemma big_chunk_nn ps r i : forall w x, 0 <= fst (c_npl_write_big_chunk be ps r w i x).
Proof.
  pose proof write_chunk_nn. pose proof div_rem_vr_nn.
  induction i as [|i IH]; intros; cbn [c_npl_write_big_chunk]; fnn.
Qed.

Lemma npl_write_nn p w : 0 <= fst (c_npl_write be p w).
Proof.
  unfold c_npl_write. pose proof npm_write_nn.
  assert (forall ps r cs w, 0 <= fst (c_npl_write_loop be ps r cs w)).
  { pose proof big_chunk_nn. induction cs as [|[i x] cs IH]; intros; cbn [c_npl_write_loop]; fnn. }
  fnn.
Qed.

Lemma format_prepared_nn s f cn cw : 0 <= fst cn -> (forall x, 0 <= fst (cw x)) -> 0 <= fst (c_format_prepared be s f cn cw).
Proof.
  intros N W. unfold c_format_prepared. cbv zeta.
  assert (forall s o, 0 <= fst (c_write_digits be s cw o)). { intros. unfold c_write_digits, c_dw_flush. fnn. }
  fnn1; [exact N|]. fnn.
Qed.

Lemma fmt_full_nn s f : 0 <= fst (c_fmt_full be s f).
Proof.
  unfold c_fmt_full, c_fmt_power_two, c_fmt_non_power_two.
  destruct (is_pow2 (irf_radix s)).
  - fnn1; [fnn|]. destruct (irf_magnitude s); (fnn1; [fnn|]); apply format_prepared_nn; try apply nn_free; [apply p2w_write_nn|apply p2l_write_nn].
  - fnn1; [fnn|]. destruct (irf_magnitude s).
    + fnn1; [apply npw_new_nn|]. apply format_prepared_nn; [apply nn_free|apply npw_write_nn].
    + do 4 (fnn1; [fnn|]). fnn1.
      * fnn1; [apply npm_new_nn|]. apply format_prepared_nn; [apply nn_free|apply npm_write_nn].
      * fnn1; [apply npl_new_nn|]. apply format_prepared_nn; [apply nn_call|apply npl_write_nn].
Qed.

End Erase.
