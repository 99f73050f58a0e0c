(** The assertions on elements of rings accept exactly the elements. *)
From Verif Require Import Model.Base Model.Words Model.Buffer Model.UBig Model.Modular
  Spec.Val Spec.Num Spec.Modular Proofs.Basics Proofs.DivProofs Proofs.ModularProofs.
From Coq Require Import Lia.

Section Valid.
Context {A : Arch} {AOK : ArchOk A}.

Lemma raw_valid_iff r n raw : is_ring (RingSmall r) n -> 0 <= raw ->
  raw_is_valid raw r = true <-> exists a, element (RingSmall r) n (MSmall (mkModuloSmall r raw)) a.
Proof.
  intros R Hr. pose proof (is_ring_small r n R) as K. pose proof (pow_s r n K) as P. split.
  - intros V. pose proof K as (Hn & Hs & E & _). unfold raw_is_valid in V. apply andb_true_iff in V. destruct V as [V1 V2].
    apply Z.ltb_lt in V1. apply Z.eqb_eq in V2. rewrite (land_ones_w raw _ Hs) in V2.
    pose proof (Z.div_mod raw (2 ^ rs_shift r) ltac:(lia)) as D. rewrite V2, Z.add_0_r in D.
    exists (raw / 2 ^ rs_shift r). split; [exact R|]. split.
    + split; [apply Z.div_pos; lia|]. apply Z.div_lt_upper_bound; [lia|]. rewrite E in V1. lia.
    + cbn [stored ms_ring ms_raw]. split; [reflexivity|]. rewrite Z.mul_comm. exact D.
  - intros (a & _ & Ha & _ & E). cbn [ms_raw] in E. apply (raw_valid r n K raw a). split; [exact E|exact Ha].
Qed.

Lemma val_low v w : 0 <= w -> forall k, 0 <= k <= wbits -> (w + B * v) mod 2 ^ k = w mod 2 ^ k.
Proof.
  intros Hw k Hk. assert (E : B = 2 ^ (wbits - k) * 2 ^ k) by (unfold B; rewrite <- Z.pow_add_r by lia; f_equal; lia).
  rewrite E. replace (w + 2 ^ (wbits - k) * 2 ^ k * v) with (w + 2 ^ (wbits - k) * v * 2 ^ k) by ring.
  apply Z.mod_add. pose proof (Z.pow_pos_nonneg 2 k ltac:(lia) ltac:(lia)). lia.
Qed.

Lemma large_valid_iff r n v : is_ring (RingLarge r) n -> wf v ->
  (exists b, large_is_valid r v = Ok b) /\
  (large_is_valid r v = Ok true <-> exists a, element (RingLarge r) n (MLarge (mkModuloLarge r v)) a).
Proof.
  intros R W. pose proof (is_ring_large r n R) as K. pose proof K as (Hn & Hs & E & _ & L2 & _ & Wm).
  pose proof (Z.pow_pos_nonneg 2 (rl_shift r) ltac:(lia) ltac:(lia)) as P.
  assert (BACK : (exists a, element (RingLarge r) n (MLarge (mkModuloLarge r v)) a) -> large_is_valid r v = Ok true).
  { intros (a & _ & Ha & _ & _ & L & V). apply (large_valid r n K v a). repeat split; try assumption; lia. }
  assert (FORTH : exists b, large_is_valid r v = Ok b /\ (b = true -> exists a, element (RingLarge r) n (MLarge (mkModuloLarge r v)) a)).
  { unfold large_is_valid. destruct (Nat.eqb_spec (length v) (length (rl_modulus r))) as [L|L]; [|exists false; split; [reflexivity|discriminate]].
    rewrite (cmp_same_len_spec v (rl_modulus r) W Wm L). cbn [bind].
    destruct (Z.compare_spec (val v) (val (rl_modulus r))) as [C|C|C]; try (exists false; split; [reflexivity|discriminate]).
    destruct v as [|v0 v]; [cbn [length] in L; lia|]. cbn [get nth_error bind]. eexists. split; [reflexivity|].
    intros Z0. apply Z.eqb_eq in Z0. rewrite (land_ones_w v0 _ Hs) in Z0.
    assert (H0 : 0 <= v0) by (inversion W as [|? ? Hw ?]; unfold word_ok in Hw; destruct Hw; assumption).
    assert (D : val (v0 :: v) mod 2 ^ rl_shift r = 0) by (rewrite <- Z0; apply (val_low (val v) v0 H0); lia).
    pose proof (Z.div_mod (val (v0 :: v)) (2 ^ rl_shift r) ltac:(lia)) as Q. rewrite D, Z.add_0_r in Q.
    pose proof (val_bound _ W) as Bd.
    exists (val (v0 :: v) / 2 ^ rl_shift r). split; [exact R|]. split.
    - split; [apply Z.div_pos; lia|]. apply Z.div_lt_upper_bound; [lia|]. rewrite E in C. lia.
    - cbn [stored ml_ring ml_value]. split; [reflexivity|]. split; [exact W|]. split; [exact L|]. rewrite Z.mul_comm. exact Q. }
  destruct FORTH as (b & Eb & F). split; [exists b; exact Eb|]. split; [|exact BACK].
  intros T. apply F. congruence.
Qed.

End Valid.
