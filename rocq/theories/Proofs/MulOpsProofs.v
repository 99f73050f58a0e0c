(** Multiplication of UBig and IBig. *)
From Verif Require Import Model.Base Model.Words Model.Add Model.Memory Model.Mul Model.Buffer Model.UBig Model.IBig
  Model.Convert Model.MulOps Model.AddOps Spec.Val Spec.Num Spec.Prim Proofs.Basics Proofs.AddProofs Proofs.MulWordProofs
  Proofs.MulProofs Proofs.MulFull Proofs.DivProofs Proofs.BufferProofs Proofs.AddOpsProofs Proofs.ConvertProofs Proofs.Scratch.
From Coq Require Import Lia.

Section MulOpsProofs.
Context {A : Arch} {AOK : ArchOk A}.

Lemma yields_Ok u z : ubig_ok u -> uval u = z -> yields (Ok u) z.
Proof. intros H E. pose proof (ubig_ok_val u H). split; [|lia]. intros _. exists u. auto. Qed.

Lemma prim_dword : prim_bits (2 * wbits).
Proof. unfold prim_bits. destruct wbits_cases as [-> | [-> | ->]]; lia. Qed.
Lemma pow_dword : 2 ^ (2 * wbits) = B * B.
Proof. pose proof wbits_ge. replace (2 * wbits) with (wbits + wbits) by lia. rewrite Z.pow_add_r by lia. reflexivity. Qed.

Lemma ubig_from_dword_yields z : 0 <= z < B * B -> yields (ubig_from_dword z) z.
Proof.
  intros H. unfold ubig_from_dword.
  destruct (ubig_from_unsigned_spec (2 * wbits) z prim_dword) as (u & -> & H1 & H2); [rewrite pow_dword; auto|].
  apply yields_Ok; auto.
Qed.

Lemma mul_word_yields a b : 0 <= a < B -> 0 <= b < B -> yields (mul_word a b) (a * b).
Proof.
  intros Ha Hb. unfold mul_word, extend_word. pose proof (mul_range a b B B Ha Hb).
  unfold dword_chk, checked. rewrite pow_dword, (proj2 (Z.leb_le _ _)), (proj2 (Z.ltb_lt _ _)) by lia. cbn [bind andb].
  apply ubig_from_dword_yields; auto.
Qed.

Lemma mul_large_word_yields b a : big b -> 0 <= a < B -> yields (mul_large_word b a) (val (words b) * a).
Proof.
  intros (Hb & L2 & LM) Ha. unfold mul_large_word. destruct (Z.eqb_spec a 0) as [->|N0].
  { rewrite Z.mul_0_r. apply yields_word. lia. }
  destruct (Z.eqb_spec a 1) as [->|N1].
  { rewrite Z.mul_1_r. apply from_buffer_yields; auto. }
  destruct (mul_word_spec (words b) a) as (ws & k & E & L & W & Hk & V); [apply Hb|auto|].
  rewrite (on_words_ok _ _ _ _ E). cbn [bind].
  assert (buffer_ok (mkBuffer ws (cap b))) as Hb'.
  { destruct b as [bw bc]; cbn [words cap] in *. eapply buffer_ok_same; eauto. }
  destruct (Z.eqb_spec k 0) as [->|Nk]; cbn [bind].
  - eapply yields_eq; [apply from_buffer_yields; auto|]. cbn [words]. lia.
  - destruct (push_may_reallocate_spec (mkBuffer ws (cap b)) k) as (c & -> & Hc & _); auto.
    { unfold blen, len in *. cbn [words]. rewrite L. auto. }
    cbn [bind words]. eapply yields_eq; [apply from_buffer_yields; auto|]. cbn [words]. rewrite val_app, val_single, L. lia.
Qed.

Lemma push_zeros_spec ws c n : len ws + Z.of_nat n <= c -> push_zeros (mkBuffer ws c) n = Ok (mkBuffer (ws ++ repeat 0 n) c).
Proof. intros H. unfold push_zeros, blen. cbn [words cap]. rewrite check_true by lia. reflexivity. Qed.

Lemma mul_large_yields a b : wf a -> wf b -> (2 <= length a)%nat -> (2 <= length b)%nat ->
  len a <= MAX_LEN -> len b <= MAX_LEN -> last a 0 <> 0 -> last b 0 <> 0 ->
  yields (mul_large a b) (val a * val b).
Proof.
  intros Wa Wb La Lb Ma Mb Ta Tb. unfold mul_large.
  rewrite check_true by (rewrite (proj2 (Nat.leb_le _ _)), (proj2 (Nat.leb_le _ _)) by auto; reflexivity).
  pose proof (len_nonneg a). pose proof (len_nonneg b). rewrite usize_chk_ok by lia. cbn [bind].
  pose proof (val_bound a Wa) as [Va _]. pose proof (val_bound b Wb) as [Vb _].
  destruct (Z.le_gt_cases (len a + len b) MAX_CAPACITY) as [C|C].
  - destruct (allocate_spec (len a + len b)) as (c & -> & Hc & _); [lia|]. cbn [bind].
    rewrite push_zeros_spec by (unfold len in *; simpl length; lia). cbn [bind app].
    destruct (mul_request (Nat.min (length a) (length b))) as (l & -> & Em). { rewrite MAX_CAPACITY_eq in C. unfold len in C. lia. }
    cbn [bind]. rewrite Em. cbn [bind].
    destruct (add_signed_mul_spec (repeat 0 (length a + length b)) Positive a b
      (mul_memory (Nat.min (length a) (length b)))) as (ws & k & E & (L & W & V)); auto; try lia.
    { apply wf_repeat0. } { rewrite repeat_length. reflexivity. }
    rewrite (on_words_ok _ _ _ _ E). cbn [bind]. rewrite repeat_length in *. rewrite val_repeat0 in V. cbn [sign_val] in V.
    pose proof (val_bound ws W) as Vw. rewrite L in Vw.
    pose proof (val_bound a Wa) as [_ Va']. pose proof (val_bound b Wb) as [_ Vb'].
    pose proof (mul_range _ _ _ _ (conj Va Va') (conj Vb Vb')) as VP. rewrite <- Bn_add in VP.
    assert (k = 0) as ->.
    { pose proof (Bn_pos (length a + length b)). set (P := val a * val b) in *. clearbody P. nia. }
    rewrite check_true by reflexivity. eapply yields_eq; [apply from_buffer_yields|cbn [words]; lia].
    split; cbn [words cap]; auto. unfold blen, len in *. cbn [words]. lia.
  - rewrite allocate_too_large by lia. cbn [bind].
    pose proof (val_top a Wa Ta) as Pa. pose proof (val_top b Wb Tb) as Pb.
    pose proof (Bn_pos (length a - 1)). pose proof (Bn_pos (length b - 1)).
    assert (MAXV <= val a * val b); [|split; [lia|reflexivity]].
    assert (MAXV <= Bn (length a - 1) * Bn (length b - 1)) by
      (rewrite <- Bn_add; apply MAXV_lt_Bn; rewrite MAX_CAPACITY_eq in C; unfold len in *; lia).
    assert (Bn (length a - 1) * Bn (length b - 1) <= val a * val b) by (apply Z.mul_le_mono_nonneg; lia). lia.
Qed.

Lemma mul_Large_yields x y : ubig_ok (Large x) -> ubig_ok (Large y) -> 
  yields (mul_large (words x) (words y)) (val (words x) * val (words y)).
Proof. intros (H1 & H2 & H3 & H4 & _) (I1 & I2 & I3 & I4 & _). apply mul_large_yields; auto. Qed.

Lemma ubig_mul_vv_yields a b : ubig_ok a -> ubig_ok b -> yields (ubig_mul_vv a b) (uval a * uval b).
Proof.
  intros Ha Hb. destruct a as [x|x], b as [y|y]; cbn [ubig_mul_vv uval].
  - apply mul_word_yields; auto.
  - rewrite Z.mul_comm. apply mul_large_word_yields; auto. apply Large_big; auto.
  - apply mul_large_word_yields; auto. apply Large_big; auto.
  - apply mul_Large_yields; auto.
Qed.

Lemma ubig_mul_vr_yields a b : ubig_ok a -> ubig_ok b -> yields (ubig_mul_vr a b) (uval a * uval b).
Proof.
  intros Ha Hb. destruct a as [x|x], b as [y|y]; cbn [ubig_mul_vr uval].
  - apply mul_word_yields; auto.
  - rewrite Z.mul_comm. clone Hb. apply mul_large_word_yields; auto.
  - apply mul_large_word_yields; auto. apply Large_big; auto.
  - apply mul_Large_yields; auto.
Qed.

Lemma ubig_mul_rv_yields a b : ubig_ok a -> ubig_ok b -> yields (ubig_mul_rv a b) (uval a * uval b).
Proof. intros Ha Hb. rewrite Z.mul_comm. apply ubig_mul_vr_yields; auto. Qed.

Lemma ubig_mul_rr_yields a b : ubig_ok a -> ubig_ok b -> yields (ubig_mul_rr a b) (uval a * uval b).
Proof.
  intros Ha Hb. destruct a as [x|x], b as [y|y]; cbn [ubig_mul_rr uval].
  - apply mul_word_yields; auto.
  - rewrite Z.mul_comm. clone Hb. apply mul_large_word_yields; auto.
  - clone Ha. apply mul_large_word_yields; auto.
  - apply mul_Large_yields; auto.
Qed.

Lemma sign_mul_val s t : sign_val (sign_mul s t) = sign_val s * sign_val t.
Proof. destruct s, t; reflexivity. Qed.

Lemma imul_yields (f : ubig -> ubig -> res ubig) : 
  (forall a b, ubig_ok a -> ubig_ok b -> yields (f a b) (uval a * uval b)) ->
  forall x y, ibig_ok x -> ibig_ok y ->
  iyields (m <- f (imag x) (imag y) ;; Ok (from_sign_magnitude (sign_mul (isign x) (isign y)) m)) (ival x * ival y).
Proof.
  intros Hf x y [Hx _] [Hy _]. pose proof (uval_nonneg _ Hx). pose proof (uval_nonneg _ Hy).
  eapply iyields_eq; [apply iyields_sign; [|apply Hf; auto]|].
  - apply Z.mul_nonneg_nonneg; auto.
  - rewrite sign_mul_val. unfold ival. lia.
Qed.

Lemma ibig_mul_vv_yields x y : ibig_ok x -> ibig_ok y -> iyields (ibig_mul_vv x y) (ival x * ival y).
Proof. apply imul_yields, ubig_mul_vv_yields. Qed.
Lemma ibig_mul_vr_yields x y : ibig_ok x -> ibig_ok y -> iyields (ibig_mul_vr x y) (ival x * ival y).
Proof. apply imul_yields, ubig_mul_vr_yields. Qed.
Lemma ibig_mul_rv_yields x y : ibig_ok x -> ibig_ok y -> iyields (ibig_mul_rv x y) (ival x * ival y).
Proof. intros Hx Hy. rewrite Z.mul_comm. apply ibig_mul_vr_yields; auto. Qed.
Lemma ibig_mul_rr_yields x y : ibig_ok x -> ibig_ok y -> iyields (ibig_mul_rr x y) (ival x * ival y).
Proof. apply imul_yields, ubig_mul_rr_yields. Qed.

End MulOpsProofs.
