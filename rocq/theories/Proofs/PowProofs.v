(** Exponentiation (src/pow.rs) is exact. *)
From Verif Require Import Model.Base Model.Words Model.Buffer Model.UBig Model.IBig Model.Convert Model.AddOps Model.MulOps
  Model.Bits Model.Pow Spec.Val Spec.Num Proofs.Basics Proofs.BufferProofs
  Proofs.AddOpsProofs Proofs.MulOpsProofs Proofs.ShiftOpsProofs Proofs.BitCountProofs Proofs.Bounds Proofs.ApiProofs Proofs.Limits.
From Coq Require Import Lia.

Section Pow.
Context {A : Arch} {AOK : ArchOk A}.

(** A computation whose first step yields [z]; the rest only makes it larger. *)
Lemma yields_bind r z k w : yields r z -> (MAXV <= z -> MAXV <= w) ->
  (forall u, ubig_ok u -> uval u = z -> yields (k u) w) -> yields (bind r k) w.
Proof.
  intros [Y1 Y2] G K. destruct (Z.lt_ge_cases z MAXV) as [C|C].
  - destruct (Y1 C) as (u & -> & Hu & Vu). cbn [bind]. auto.
  - rewrite (Y2 C). cbn [bind]. split; [intros; apply G in C; lia|auto].
Qed.

Lemma testbit_shift e p : 0 <= p -> 0 <= e -> e / 2 ^ p = 2 * (e / 2 ^ (p + 1)) + Z.b2z (Z.testbit e p).
Proof.
  intros Hp He. rewrite Z.pow_add_r by lia. change (2 ^ 1) with 2.
  rewrite <- Z.div_div by (try apply Z.pow_nonzero; lia). rewrite Z.testbit_spec' by lia. apply Z.div_mod. lia.
Qed.

Lemma pow_le b m n : 2 <= b -> 0 <= m <= n -> b ^ m <= b ^ n.
Proof. intros. apply Z.pow_le_mono_r; lia. Qed.

Lemma pow_loop_spec self e : ubig_ok self -> 2 <= uval self -> 0 <= e -> forall p r, ubig_ok r ->
  uval r = uval self ^ (2 * (e / 2 ^ (Z.of_nat p + 1))) -> yields (pow_loop p self e r) (uval self ^ e).
Proof.
  intros Hs Ls He. induction p as [|p IH]; intros r Hr Vr; cbn [pow_loop].
  1: set (n := Z.of_nat 0) in *. 2: set (n := Z.of_nat (S p)) in *.
  all: assert (Hn : 0 <= n) by (unfold n; lia).
  all: pose proof (testbit_shift e n Hn He) as T.
  all: pose proof (Z.div_pos e (2 ^ n) He ltac:(apply Z.pow_pos_nonneg; lia)) as D1.
  all: pose proof (Z.div_pos e (2 ^ (n + 1)) He ltac:(apply Z.pow_pos_nonneg; lia)) as D2.
  all: assert (Le : e / 2 ^ n <= e) by (apply div_self_bound; [lia|apply Z.pow_pos_nonneg; lia]).
  all: apply yields_bind with (uval self ^ (e / 2 ^ n)).
  1,4: rewrite T; destruct (Z.testbit e n); cbn [Z.b2z];
    [rewrite Z.pow_add_r by (clear - D2; lia); rewrite <- Vr, Z.pow_1_r; apply ubig_mul_vr_yields; auto
    |rewrite Z.add_0_r, <- Vr; split; [intros; exists r; auto|apply ubig_ok_val in Hr; lia]].
  1,3: intros; eapply Z.le_trans; [eassumption|apply pow_le; [exact Ls|split; [exact D1|exact Le]]].
  all: intros u Hu Vu.
  - split; [intros _; exists u; split; [auto|split; [auto|]]|].
    + rewrite Vu. unfold n. rewrite Z.div_1_r. reflexivity.
    + intros C. apply ubig_ok_val in Hu. rewrite Vu in Hu. unfold n in Hu. change (2 ^ Z.of_nat 0) with 1 in Hu.
      rewrite Z.div_1_r in Hu. lia.
  - assert (En : n = Z.of_nat p + 1) by (unfold n; lia).
    apply yields_bind with (uval u * uval u); [apply ubig_mul_rr_yields; auto| |].
    + intros C. rewrite Vu, <- Z.pow_add_r in C by lia.
      assert (2 * (e / 2 ^ n) <= e).
      { rewrite En, Z.pow_add_r by lia. change (2 ^ 1) with 2. rewrite <- Z.div_div by (try apply Z.pow_nonzero; lia).
        assert (P2 : 0 < 2 ^ Z.of_nat p) by (apply Z.pow_pos_nonneg; [reflexivity|apply Nat2Z.is_nonneg]).
        pose proof (div_self_bound e (2 ^ Z.of_nat p) He P2) as Q1.
        assert (L2 : 0 < 2) by reflexivity. pose proof (Z.mul_div_le (e / 2 ^ Z.of_nat p) 2 L2) as Q2.
        revert Q1 Q2. generalize (e / 2 ^ Z.of_nat p). clear. intros. lia. }
      assert (H' : 0 <= e / 2 ^ n + e / 2 ^ n <= e) by (clear - H D1; lia).
      pose proof (pow_le (uval self) _ e Ls H'). eapply Z.le_trans; eassumption.
    + intros r' Hr' Vr'. apply IH; [auto|]. rewrite Vr', Vu, <- En, <- Z.pow_add_r by lia. f_equal. lia.
Qed.

Lemma pow_large_spec self e : ubig_ok self -> 2 <= uval self -> 3 <= e -> yields (pow_large self e) (uval self ^ e).
Proof.
  intros Hs Ls He. unfold pow_large.
  apply yields_bind with (uval self * uval self); [apply ubig_mul_rr_yields; auto| |].
  - intros C. pose proof (pow_le (uval self) 2 e Ls ltac:(lia)). lia.
  - intros r Hr Vr. apply pow_loop_spec; auto; [lia|]. rewrite Vr.
    assert (L : 1 <= Z.log2 e) by (apply Z.log2_le_pow2; lia).
    assert (E : e / 2 ^ (Z.of_nat (Z.to_nat (bitlen e - 2)) + 1) = 1).
    { unfold bitlen. rewrite (proj2 (Z.eqb_neq e 0)) by lia. rewrite Z2Nat.id by lia.
      replace (Z.log2 e + 1 - 2 + 1) with (Z.log2 e) by lia. pose proof (Z.log2_spec e ltac:(lia)) as [S1 S2].
      rewrite Z.pow_succ_r in S2 by lia. symmetry. apply Z.div_unique with (e - 2 ^ Z.log2 e); lia. }
    rewrite E. change (2 * 1) with 2. rewrite Z.pow_2_r. reflexivity.
Qed.

Lemma ubig_pow_spec u e : ubig_ok u -> 0 <= e < 2 ^ ubits -> yields (ubig_pow u e) (uval u ^ e).
Proof.
  intros Hu He. unfold ubig_pow. pose proof B_ge.
  destruct (Z.eqb_spec e 0) as [->|N0]; [apply yields_word; lia|].
  destruct (Z.eqb_spec e 1) as [->|N1].
  { rewrite Z.pow_1_r. destruct (ubig_clone_spec u Hu) as (v & -> & Hv & Vv). rewrite <- Vv.
    split; [intros; exists v; auto|]. apply ubig_ok_val in Hv. lia. }
  destruct (Z.eqb_spec e 2) as [->|N2]; [rewrite Z.pow_2_r; apply ubig_mul_rr_yields; auto|].
  destruct u as [w|b].
  - cbn [uval]. destruct (Z.eqb_spec w 0) as [->|W0]; [rewrite Z.pow_0_l by lia; apply yields_word; lia|].
    destruct (Z.eqb_spec w 1) as [->|W1]; [rewrite Z.pow_1_l by lia; apply yields_word; lia|].
    destruct (Z.eqb_spec w 2) as [->|W2].
    { pose proof (set_bit_yields (from_word 0) e) as Y. cbn [uval from_word] in Y.
      rewrite Z.setbit_spec', Z.lor_0_l in Y. apply Y; [cbn; lia|lia]. }
    cbn in Hu. change w with (uval (Small w)). apply pow_large_spec; [auto|cbn [uval]; lia|lia].
  - apply pow_large_spec; auto; [|lia]. cbn [uval]. apply Large_ge in Hu. lia.
Qed.

Lemma ibig_pow_spec x e : ibig_ok x -> 0 <= e < 2 ^ ubits -> iyields (ibig_pow x e) (ival x ^ e).
Proof.
  intros [Hx Zx] He. unfold ibig_pow. destruct (ubig_pow_spec (imag x) e Hx He) as [Y1 Y2].
  pose proof (uval_nonneg _ Hx) as P.
  assert (E : Z.abs (ival x ^ e) = uval (imag x) ^ e).
  { rewrite Z.abs_pow. f_equal. unfold ival. destruct (isign x); cbn [sign_val]; lia. }
  set (s := match isign x with Negative => _ | Positive => _ end).
  assert (S : ival x ^ e = sign_val s * uval (imag x) ^ e).
  { unfold s, ival. destruct (isign x); cbn [sign_val]; [rewrite !Z.mul_1_l; auto|].
    replace (-1 * uval (imag x)) with (- uval (imag x)) by lia.
    destruct (Z.eqb_spec (e mod 2) 1) as [O|O]; cbn [sign_val].
    - rewrite Z.pow_opp_odd; [lia|]. exists (e / 2). pose proof (Z.div_mod e 2). lia.
    - rewrite Z.pow_opp_even; [lia|]. exists (e / 2). pose proof (Z.div_mod e 2). pose proof (Z.mod_pos_bound e 2). lia. }
  split; rewrite E; intros C.
  - destruct (Y1 C) as (m & -> & Hm & Vm). cbn [bind]. eexists. split; [reflexivity|].
    destruct (from_sign_magnitude_spec s m Hm) as [O V]. split; [auto|]. rewrite V, Vm, S. reflexivity.
  - rewrite (Y2 C). reflexivity.
Qed.

Lemma pow_too_large : exists e, 0 <= e < 2 ^ ubits /\ ubig_pow (Small 2) e = Panic NumberTooLarge.
Proof.
  pose proof MAX_LEN_ge. pose proof wbits_ge. pose proof MAX_BIT_LEN_usize. exists (wbits * MAX_LEN).
  assert (R : 0 <= wbits * MAX_LEN < 2 ^ ubits) by nia. split; [exact R|].
  destruct (ubig_pow_spec (Small 2) _ two_ok R) as [_ Y]. apply Y. cbn [uval]. unfold MAXV. lia.
Qed.

End Pow.
