(** The example program computes factorials. *)
From Coq Require Import Lia.
From Verif Require Import Model.Base Model.Words Model.Buffer Model.UBig Model.IBig Model.Convert Model.AddOps Model.MulOps
  Model.Fmt Model.Tools Spec.Val Spec.Num Spec.Prim Spec.Digits Spec.FmtText Spec.Factorial
  Proofs.Basics Proofs.BufferProofs Proofs.ConvertProofs Proofs.MulOpsProofs Proofs.FmtRound.

Lemma prod_app l m : fold_right Z.mul 1 (l ++ m) = fold_right Z.mul 1 l * fold_right Z.mul 1 m.
Proof. induction l as [|x l IH]; cbn [fold_right app]; [lia|]. rewrite IH. lia. Qed.

Lemma run_product_split a m b : a <= m <= b -> run_product a b = run_product a m * run_product m b.
Proof.
  intros H. unfold run_product. replace (Z.to_nat (b - a)) with (Z.to_nat (m - a) + Z.to_nat (b - m))%nat by lia.
  rewrite seq_app, map_app, prod_app. f_equal. cbn [plus]. f_equal.
  replace (Z.to_nat (m - a)) with (0 + Z.to_nat (m - a))%nat at 1 by lia.
  generalize 0%nat as s. generalize (Z.to_nat (b - m)) as k. induction k as [|k IH]; intros s; [reflexivity|].
  cbn [seq map]. f_equal; [lia|]. exact (IH (S s)).
Qed.

Lemma run_product_one a : run_product a (a + 1) = a.
Proof. unfold run_product. replace (Z.to_nat (a + 1 - a)) with 1%nat by lia. cbn. lia. Qed.

Lemma run_product_none a : run_product a a = 1.
Proof. unfold run_product. rewrite Z.sub_diag. reflexivity. Qed.

Lemma run_product_pos a b : 1 <= a -> 1 <= run_product a b.
Proof.
  intros H. unfold run_product. induction (seq 0 (Z.to_nat (b - a))) as [|i l IH]; cbn [map fold_right]; [lia|]. nia.
Qed.

Lemma factorial_fact n : factorial (Z.of_nat n) = Z.of_nat (fact n).
Proof.
  unfold factorial. induction n as [|n IH]; [reflexivity|].
  rewrite (run_product_split 1 (Z.of_nat n + 1) (Z.of_nat (S n) + 1)) by lia.
  replace (Z.of_nat (S n) + 1) with (Z.of_nat n + 1 + 1) by lia. rewrite run_product_one, IH. cbn [fact]. lia.
Qed.

Lemma run_product_bound a b m : 1 <= a <= b -> b <= m + 1 -> run_product a b <= m ^ (b - a).
Proof.
  intros H Hm. rewrite <- (Z2Nat.id (b - a)) at 1 by lia. unfold run_product.
  assert (K : forall l, Forall (fun i => a + Z.of_nat i <= m) l -> fold_right Z.mul 1 (map (fun i => a + Z.of_nat i) l) <= m ^ Z.of_nat (length l) /\
    1 <= fold_right Z.mul 1 (map (fun i => a + Z.of_nat i) l)).
  { induction 1 as [|i l Hi F IH]; cbn [map fold_right length]; [split; [reflexivity|lia]|].
    rewrite Nat2Z.inj_succ, Z.pow_succ_r by lia. nia. }
  destruct (K (seq 0 (Z.to_nat (b - a)))) as [K1 _].
  - apply Forall_forall. intros i Hi. apply in_seq in Hi. lia.
  - rewrite seq_length in K1. exact K1.
Qed.

Section Factorial.
Context {A : Arch} {AOK : ArchOk A}.

Lemma u32_fits x : 0 <= x < 2 ^ 32 -> u32 x = Ok x.
Proof. intros H. unfold u32. destruct (Z.leb_spec 0 x); [|lia]. destruct (Z.ltb_spec x (2 ^ 32)); [reflexivity|lia]. Qed.

Lemma product_rec_spec fuel : forall a b, 1 <= a < b -> b < 2 ^ 32 -> b - a <= 2 ^ (Z.of_nat fuel - 1) ->
  yields (product_rec fuel a b) (run_product a b).
Proof.
  induction fuel as [|fuel IH]; intros a b Hab Hb Hf; [cbn in Hf; lia|]. cbn [product_rec].
  rewrite u32_fits by lia. cbn [bind]. destruct (Z.eqb_spec b (a + 1)) as [->|N].
  - rewrite run_product_one. destruct (ubig_from_unsigned_spec 32 a) as (u & -> & Hu & Eu); [right; right; left; reflexivity|lia|].
    pose proof (ubig_ok_val u Hu). split; [intros _; exists u; auto|intros C; lia].
  - rewrite u32_fits by lia. cbn [bind].
    assert (Hm : a < a + (b - a) / 2 < b) by (Z.to_euclidean_division_equations; lia).
    assert (F : (b - a) - (b - a) / 2 <= 2 ^ (Z.of_nat fuel - 1) /\ (b - a) / 2 <= 2 ^ (Z.of_nat fuel - 1)).
    { rewrite Nat2Z.inj_succ in Hf. replace (Z.succ (Z.of_nat fuel) - 1) with (Z.succ (Z.of_nat fuel - 1)) in Hf by lia.
      destruct fuel as [|fuel']; [cbn in Hf; lia|]. rewrite Z.pow_succ_r in Hf by lia. Z.to_euclidean_division_equations; lia. }
    rewrite u32_fits by lia. cbn [bind]. set (mid := a + (b - a) / 2) in *.
    pose proof (IH a mid ltac:(lia) ltac:(lia) ltac:(lia)) as [X1 X2].
    pose proof (IH mid b ltac:(lia) ltac:(lia) ltac:(lia)) as [Y1 Y2].
    pose proof (run_product_pos a mid ltac:(lia)) as P1. pose proof (run_product_pos mid b ltac:(lia)) as P2.
    rewrite (run_product_split a mid b) by lia.
    destruct (Z_lt_ge_dec (run_product a mid) MAXV) as [L1|G1].
    + destruct (X1 L1) as (x & -> & Hx & Ex). cbn [bind].
      destruct (Z_lt_ge_dec (run_product mid b) MAXV) as [L2|G2].
      * destruct (Y1 L2) as (y & -> & Hy & Ey). cbn [bind]. rewrite <- Ex, <- Ey. apply ubig_mul_vv_yields; assumption.
      * rewrite Y2 by lia. cbn [bind]. split; [intros C; nia|reflexivity].
    + rewrite X2 by lia. cbn [bind]. split; [intros C; nia|reflexivity].
Qed.

Theorem product_spec a b : 1 <= a < b -> b < 2 ^ 32 -> yields (product a b) (run_product a b).
Proof. intros H Hb. apply product_rec_spec; [exact H|exact Hb|]. change (Z.of_nat 33 - 1) with 32. lia. Qed.

Theorem factorial_prints be n : 1 <= n < 2 ^ 32 - 1 ->
  (factorial n < MAXV -> exists ds, canonical 16 (factorial n) ds /\ factorial_text be n = Ok ([48; 120] ++ map (digit_text false) ds)) /\
  (MAXV <= factorial n -> factorial_text be n = Panic NumberTooLarge).
Proof.
  intros H. unfold factorial_text. rewrite u32_fits by lia. cbn [bind].
  destruct (product_spec 1 (n + 1)) as [Y1 Y2]; [lia|lia|]. fold (factorial n) in Y1, Y2. split; intros L.
  - destruct (Y1 L) as (u & -> & Hu & Eu). cbn [bind].
    pose proof (ubig_prints be u (mkFormatter 32 None None false true false) Hu eq_refl) as (_ & _ & _ & _ & P & _).
    destruct P as (ds & C & E). exists ds. rewrite Eu in C, E. pose proof (run_product_pos 1 (n + 1) ltac:(lia)) as P.
    fold (factorial n) in P. rewrite Z.abs_eq in C by lia. split; [exact C|]. rewrite E. destruct (Z.ltb_spec (factorial n) 0); [lia|]. reflexivity.
  - rewrite Y2 by exact L. reflexivity.
Qed.

(** The program as it stands. *)
Theorem million_fits : 32 <= wbits -> 32 <= ubits -> factorial 1000000 < MAXV.
Proof.
  intros Hw Hu. unfold factorial. eapply Z.le_lt_trans; [apply (run_product_bound 1 (1000000 + 1) 1000000); lia|].
  apply Z.le_lt_trans with (2 ^ (20 * 1000000)).
  - rewrite Z.pow_mul_r by lia. change (1000000 + 1 - 1) with 1000000. apply Z.pow_le_mono_l. split; [lia|]. vm_compute. discriminate.
  - pose proof MAX_LEN_ge. unfold MAXV. apply Z.pow_lt_mono_r; [lia|nia|]. clear H. destruct arch_ok as ([Ew|[Ew|Ew]] & [Eu|[Eu|Eu]] & _); try lia;
      unfold MAX_LEN, NTT_MAX_ORDER, USIZE_MAX; rewrite Ew, Eu; reflexivity.
Qed.
End Factorial.
