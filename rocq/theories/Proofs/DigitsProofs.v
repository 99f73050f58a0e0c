(** Numbers written in an arbitrary base. *)
From Verif Require Import Spec.Digits Proofs.Basics.
From Coq Require Import ZArith List Lia.
Import ListNotations.
Open Scope Z_scope.

Lemma num_app b x y : num b (x ++ y) = num b x + b ^ Z.of_nat (length x) * num b y.
Proof.
  induction x as [|d t IH]; cbn [app num length]; [rewrite Z.pow_0_r; ring|].
  rewrite IH, Nat2Z.inj_succ, Z.pow_succ_r by lia. ring.
Qed.
Lemma num_repeat0 b n : num b (repeat 0 n) = 0.
Proof. induction n as [|n IH]; cbn [repeat num]; [|rewrite IH]; lia. Qed.
Lemma num_single b d : num b [d] = d. Proof. cbn [num]. lia. Qed.
Lemma digits_ok_app b x y : digits_ok b (x ++ y) <-> digits_ok b x /\ digits_ok b y.
Proof. apply Forall_app. Qed.
Lemma digits_ok_cons b d y : digits_ok b (d :: y) <-> 0 <= d < b /\ digits_ok b y.
Proof. split; [intros H; inversion H; auto|intros [H1 H2]; constructor; auto]. Qed.
Lemma digits_ok_firstn b n x : digits_ok b x -> digits_ok b (firstn n x).
Proof. intros H. rewrite <- (firstn_skipn n x) in H. apply digits_ok_app in H. tauto. Qed.
Lemma digits_ok_skipn b n x : digits_ok b x -> digits_ok b (skipn n x).
Proof. intros H. rewrite <- (firstn_skipn n x) in H. apply digits_ok_app in H. tauto. Qed.
Lemma digits_ok_rev b x : digits_ok b x -> digits_ok b (rev x).
Proof. apply Forall_rev. Qed.
Lemma digits_ok_repeat0 b n : 0 < b -> digits_ok b (repeat 0 n).
Proof. intros H. apply Forall_forall. intros x I. apply repeat_spec in I. lia. Qed.
Lemma num_bound b x : 0 < b -> digits_ok b x -> 0 <= num b x < b ^ Z.of_nat (length x).
Proof.
  intros Hb. induction x as [|d t IH]; intros H; cbn [num length]; [rewrite Z.pow_0_r; lia|].
  apply digits_ok_cons in H as [Hd Ht]. specialize (IH Ht).
  rewrite Nat2Z.inj_succ, Z.pow_succ_r by lia. mle b (num b t + 1) (b ^ Z.of_nat (length t)).
  mnn b (num b t). lia.
Qed.
Lemma num_inj b x y : 0 < b -> digits_ok b x -> digits_ok b y -> length x = length y -> num b x = num b y -> x = y.
Proof.
  intros Hb. revert y; induction x as [|d t IH]; intros [|e u] Hx Hy L E; try discriminate; auto.
  apply digits_ok_cons in Hx as [Hd Ht], Hy as [He Hu]. cbn [num] in E.
  destruct (decomp d (num b t) e (num b u) b) as [-> E2]; auto. f_equal. apply IH; auto.
Qed.
Lemma num_top b x : 0 < b -> digits_ok b x -> last x 0 <> 0 -> b ^ Z.of_nat (length x - 1) <= num b x.
Proof.
  intros Hb W H. destruct x as [|w t] using rev_ind; [simpl in H; lia|]. clear IHt.
  rewrite last_last in H. rewrite app_length. simpl length. replace (length t + 1 - 1)%nat with (length t) by lia.
  apply digits_ok_app in W as [W1 W2]. apply digits_ok_cons in W2 as [W2 _].
  rewrite num_app, num_single. pose proof (num_bound b t Hb W1).
  mle (b ^ Z.of_nat (length t)) 1 w. lia.
Qed.
(** Digits without a leading zero are determined by the number. *)
Lemma num_canon b x y : 1 < b -> digits_ok b x -> digits_ok b y ->
  (x = [] \/ last x 0 <> 0) -> (y = [] \/ last y 0 <> 0) -> num b x = num b y -> x = y.
Proof.
  intros Hb Hx Hy Tx Ty E.
  assert (forall x, digits_ok b x -> (x = [] \/ last x 0 <> 0) -> x <> [] -> 1 <= num b x) as NZ.
  { intros z Hz [->|T] N; [congruence|]. pose proof (num_top b z ltac:(lia) Hz T).
    assert (0 < b ^ Z.of_nat (length z - 1)) by (apply Z.pow_pos_nonneg; lia). lia. }
  destruct (list_eq_dec Z.eq_dec x []) as [->|Nx].
  { destruct (list_eq_dec Z.eq_dec y []) as [->|Ny]; auto. specialize (NZ y Hy Ty Ny). cbn [num] in E. lia. }
  destruct (list_eq_dec Z.eq_dec y []) as [->|Ny].
  { specialize (NZ x Hx Tx Nx). cbn [num] in E. lia. }
  destruct Tx as [->|Tx]; [congruence|]. destruct Ty as [->|Ty]; [congruence|].
  apply (num_inj b); auto; [lia|].
  pose proof (num_top b x ltac:(lia) Hx Tx). pose proof (num_top b y ltac:(lia) Hy Ty).
  pose proof (num_bound b x ltac:(lia) Hx). pose proof (num_bound b y ltac:(lia) Hy).
  assert (Z.of_nat (length x - 1) < Z.of_nat (length y)) by (apply (Z.pow_lt_mono_r_iff b); lia).
  assert (Z.of_nat (length y - 1) < Z.of_nat (length x)) by (apply (Z.pow_lt_mono_r_iff b); lia). lia.
Qed.
