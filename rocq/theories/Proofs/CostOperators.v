(** How many steps the operators of [UBig] take, for their callers. *)
From Coq Require Import Lia.
From Verif Require Import Model.Base Model.Words Model.Mul Model.Buffer Model.UBig Model.MulOps Model.DivOps Model.Pow
  Model.Cost Model.CostDiv Model.CostOps Spec.Val.
From Verif Require Import Proofs.Basics Proofs.CostProofs Proofs.CostBounds Proofs.CostTheorems Proofs.CostRates Proofs.CostDivProofs
  Proofs.CostOpsProofs Proofs.CostOpsBounds Proofs.CostDivOps.

Section Operators.
Context {A : Arch} {AOK : ArchOk A}.

Lemma below_times T n N k b : below T k b -> 0 <= N -> 0 <= n -> N <= T * n -> N ^ 100 <= (k * n) ^ 100 * b ^ 47.
Proof.
  intros [T0 TB] N0 n0 L. apply Z.le_trans with ((T * n) ^ 100); [apply Z.pow_le_mono_l; split; [exact N0|exact L]|].
  rewrite (Z.pow_mul_l T n), (Z.pow_mul_l k n). replace (k ^ 100 * n ^ 100 * b ^ 47) with (k ^ 100 * b ^ 47 * n ^ 100) by ring.
  apply Z.mul_le_mono_nonneg_r; [apply Z.pow_nonneg; exact n0|exact TB].
Qed.

(** A counted result, its cost and its bound. *)
Lemma counted_bound {T} (m : counted T) n x N P : m = (n, Ok x) -> costs m N P -> n <= N.
Proof. intros E C. rewrite E in C. apply (C x). reflexivity. Qed.

Theorem mul_op_steps (f : ubig -> ubig -> counted ubig) (g : ubig -> ubig -> res ubig) a b n x :
  In (f, g) [(c_ubig_mul_vv, ubig_mul_vv); (c_ubig_mul_vr, ubig_mul_vr); (c_ubig_mul_rr, ubig_mul_rr)] ->
  1 <= ulen a -> 1 <= ulen b -> f a b = (n, Ok x) ->
  g a b = Ok x /\ 0 <= n /\ n ^ 100 <= (368 * Z.max (ulen a) (ulen b)) ^ 100 * Z.min (ulen a) (ulen b) ^ 47.
Proof.
  intros F La Lb E. set (m := Z.max _ _). set (k := Z.min _ _).
  assert (FG : g a b = Ok x /\ 0 <= n).
  { destruct F as [F|[F|[F|[]]]]; injection F as <- <-.
    - pose proof (mul_vv_erase a b) as X. pose proof (mul_vv_nn a b) as Y. rewrite E in X, Y. auto.
    - pose proof (mul_vr_erase a b) as X. pose proof (mul_vr_nn a b) as Y. rewrite E in X, Y. auto.
    - pose proof (mul_rr_erase a b) as X. pose proof (mul_rr_nn a b) as Y. rewrite E in X, Y. auto. }
  destruct FG as [FG N0]. split; [exact FG|]. split; [exact N0|].
  assert (K1 : (1 <= Z.to_nat k)%nat) by lia. destruct (rate_below _ K1) as (H & R & HB). rewrite Z2Nat.id in HB by lia.
  assert (H1 : 1 <= H) by (destruct R as [R _]; clear HB; lia).
  apply (below_times (3 * H + 26)); [|exact N0|clear HB; lia|].
  - apply (below_add _ _ (3 * 114) 26); [lia|lia|clear HB; lia|apply below_scale; [lia|exact HB]|apply (below_const 26 26 k 1); [lia|lia|clear HB; lia|consts]].
  - clear HB. destruct (mul_ops_costs H a b (ulen a) (ulen b)) as (C1 & C2 & C3); [lia|lia|exact R|].
    assert (M : n <= mul_bound H (ulen a) (ulen b)).
    { destruct F as [F|[F|[F|[]]]]; injection F as <- <-; [exact (counted_bound _ _ _ _ _ E C1)|exact (counted_bound _ _ _ _ _ E C2)|exact (counted_bound _ _ _ _ _ E C3)]. }
    unfold mul_bound in M. fold m in M. fold k in M. assert (k <= m /\ ulen a + ulen b = m + k) by lia. nia.
Qed.

Theorem pow_op_steps u exp n x : 1 <= ulen u -> 1 <= exp -> c_ubig_pow u exp = (n, Ok x) ->
  ubig_pow u exp = Ok x /\ 0 <= n /\ n ^ 100 <= (1472 * (ulen u * exp)) ^ 100 * (ulen u * exp) ^ 47.
Proof.
  intros L X1 E. assert (FG : ubig_pow u exp = Ok x /\ 0 <= n).
  { pose proof (pow_erase u exp) as X. pose proof (pow_nn u exp) as Y. rewrite E in X, Y. auto. }
  destruct FG as [FG N0]. split; [exact FG|]. split; [exact N0|]. set (w := ulen u) in *.
  assert (WE : 1 <= w * exp) by nia. assert (K1 : (1 <= Z.to_nat (w * exp))%nat) by lia. destruct (rate_below _ K1) as (H & R & HB). rewrite Z2Nat.id in HB by lia.
  assert (H1 : 1 <= H) by (destruct R as [R _]; clear HB; lia).
  apply (below_times (4 * (3 * H + 26))); [|exact N0|clear HB; lia|].
  - apply (below_scale 4 _ 368); [lia|].
    apply (below_add _ _ (3 * 114) 26); [lia|lia|clear HB; lia|apply below_scale; [lia|exact HB]|apply (below_const 26 26 _ 1); [lia|lia|clear HB; lia|consts]].
  - clear HB. destruct (Z.eqb_spec exp 1) as [->|N].
    + apply (counted_bound (c_ubig_pow u 1) _ x _ (fun _ => True)); [exact E|]. unfold c_ubig_pow. cbn [Z.eqb Pos.eqb].
      eapply costs_weaken; [apply costs_call| |auto]. assert (Z.of_nat (length (as_words u)) <= w).
      { unfold w. destruct u as [y|b]; [cbn; destruct (y =? 0); cbn; lia|]. cbn [as_words ulen]. unfold blen, len. lia. }
      nia.
    + pose proof (counted_bound _ _ _ _ _ E (pow_costs H w u exp ltac:(lia) ltac:(lia) R)). nia.
Qed.

Theorem div_rem_op_steps (f : ubig -> ubig -> counted (ubig * ubig)) (g : ubig -> ubig -> res (ubig * ubig)) a b n x :
  In (f, g) [(c_ubig_div_rem_vv, ubig_div_rem_vv); (c_ubig_div_rem_vr, ubig_div_rem_vr); (c_ubig_div_rem_rr, ubig_div_rem_rr)] ->
  1 <= ulen a -> 1 <= ulen b -> f a b = (n, Ok x) ->
  g a b = Ok x /\ 0 <= n /\ n ^ 100 <= (5376 * ulen a) ^ 100 * Z.min (ulen b) (Z.max 1 (ulen a - ulen b + 1)) ^ 47.
Proof.
  intros F La Lb E. set (k := Z.min _ _).
  assert (FG : g a b = Ok x /\ 0 <= n).
  { destruct F as [F|[F|[F|[]]]]; injection F as <- <-.
    - pose proof (div_rem_vv_erase a b) as X. pose proof (div_rem_vv_nn a b) as Y. rewrite E in X, Y. auto.
    - pose proof (div_rem_vr_erase a b) as X. pose proof (div_rem_vr_nn a b) as Y. rewrite E in X, Y. auto.
    - pose proof (div_rem_rr_erase a b) as X. pose proof (div_rem_rr_nn a b) as Y. rewrite E in X, Y. auto. }
  destruct FG as [FG N0]. split; [exact FG|]. split; [exact N0|].
  assert (K1 : 1 <= k) by lia. destruct (divides_below (2 * k)) as (W & W9 & WB & D); [lia|].
  apply (below_times (2 * (W + 20))); [|exact N0|clear WB; lia|].
  - apply (below_scale 2 _ 2688); [lia|]. apply (below_add _ _ 2668 20); [lia|lia|clear WB; lia| |apply (below_const 20 20 k 1); [lia|lia|clear WB; lia|consts]].
    apply (below_half _ 1925); [clear WB; lia|lia|consts|exact WB].
  - clear WB. destruct (div_rem_ops_costs (2 * k) W a b) as (C1 & C2 & C3); [lia|exact D|lia|lia|].
    assert (M : n <= (W + 20) * (ulen a + 1)).
    { destruct F as [F|[F|[F|[]]]]; injection F as <- <-; [exact (counted_bound _ _ _ _ _ E C1)|exact (counted_bound _ _ _ _ _ E C2)|exact (counted_bound _ _ _ _ _ E C3)]. }
    nia.
Qed.

End Operators.
