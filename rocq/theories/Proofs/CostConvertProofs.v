(** Comparisons, conversions to primitive integers and floating point numbers, and
    serialization (Model/CostConvert.v). *)
From Coq Require Import Lia.
From Verif Require Import Model.Base Model.Words Model.Memory Model.Buffer Model.Div Model.UBig Model.IBig Model.Convert
  Model.ShiftOps Model.Bits Model.Float Model.Serde Model.Cost Model.CostDiv Model.CostOps Model.CostGcd Model.CostConvert Spec.Val Spec.Num.
From Verif Require Import Proofs.Basics Proofs.BufferProofs Proofs.FastDivideProofs Proofs.CostProofs Proofs.CostBounds Proofs.CostTheorems Proofs.CostRates Proofs.CostDivProofs
  Proofs.CostOpsProofs Proofs.CostOpsBounds Proofs.CostDivOps Proofs.CostGcdProofs Proofs.CostGcdSteps Proofs.CostGcdTheorems
  Proofs.CostBitsTheorems Proofs.CostBitsApi.

Section Erase.
Context {A : Arch}.

Lemma ubig_cmp_erase a b : snd (c_ubig_cmp a b) = ubig_cmp a b.
Proof. unfold c_ubig_cmp, ubig_cmp. oer. Qed.
Lemma ibig_cmp_erase x y : snd (c_ibig_cmp x y) = ibig_cmp x y.
Proof. unfold c_ibig_cmp, ibig_cmp. pose proof ubig_cmp_erase. oer. Qed.
Lemma ubig_equal_erase a b : snd (c_ubig_equal a b) = Ok (ubig_eqb a b).
Proof. unfold c_ubig_equal, ubig_eqb. destruct a, b; try reflexivity. destruct (_ =? _)%nat; reflexivity. Qed.
Lemma ibig_equal_erase x y : snd (c_ibig_equal x y) = Ok (ibig_eqb x y).
Proof. unfold c_ibig_equal, ibig_eqb. destruct (sign_eqb _ _); [apply ubig_equal_erase|reflexivity]. Qed.

Lemma into_bytes_erase ws : forall idx bytes, snd (c_words_into_bytes idx ws bytes) = words_into_bytes idx ws bytes.
Proof. induction ws as [|w t IH]; intros idx bytes; cbn [c_words_into_bytes words_into_bytes]; [reflexivity|]. rewrite snd_cbind. apply bind_ext; [reflexivity|]. intros. apply IH. Qed.
Lemma from_words_erase tb ws : snd (c_unsigned_from_words tb ws) = unsigned_from_words tb ws.
Proof.
  unfold c_unsigned_from_words, unsigned_from_words. cbv zeta. pose proof into_bytes_erase. rewrite snd_cbind. apply bind_ext; [reflexivity|]. intros _.
  destruct ((_ <=? _) || _)%nat; [reflexivity|]. rewrite snd_cbind. apply bind_ext; [reflexivity|]. intros _. rewrite snd_cbind, snd_call. cbn [bind]. oer.
Qed.
Lemma try_u_erase tb u : snd (c_ubig_try_to_unsigned tb u) = ubig_try_to_unsigned tb u.
Proof. unfold c_ubig_try_to_unsigned, ubig_try_to_unsigned. destruct u; [reflexivity|apply from_words_erase]. Qed.
Lemma try_s_erase tb u : snd (c_ubig_try_to_signed tb u) = ubig_try_to_signed tb u.
Proof. unfold c_ubig_try_to_signed, ubig_try_to_signed. destruct u; [reflexivity|]. rewrite snd_cbind, from_words_erase. reflexivity. Qed.
Lemma itry_u_erase tb x : snd (c_ibig_try_to_unsigned tb x) = ibig_try_to_unsigned tb x.
Proof. unfold c_ibig_try_to_unsigned, ibig_try_to_unsigned. destruct (isign x); [apply try_u_erase|reflexivity]. Qed.
Lemma itry_s_erase tb x : snd (c_ibig_try_to_signed tb x) = ibig_try_to_signed tb x.
Proof. unfold c_ibig_try_to_signed, ibig_try_to_signed. rewrite snd_cbind, try_u_erase. reflexivity. Qed.

Lemma low_bits_erase u n : snd (c_are_low_bits_nonzero u n) = are_low_bits_nonzero u n.
Proof.
  unfold c_are_low_bits_nonzero, are_low_bits_nonzero. cbv zeta. destruct u as [w|b]; [reflexivity|]. destruct (_ <=? _); [reflexivity|].
  rewrite snd_cbind. apply bind_ext; [reflexivity|]. intros lo. rewrite snd_cbind, snd_call. cbn [bind]. destruct (existsb _ lo); [reflexivity|]. oer.
Qed.
Lemma slow_erase f u : snd (c_to_float_slow f u) = to_float_slow f u.
Proof.
  unfold c_to_float_slow, to_float_slow. cbv zeta. rewrite snd_cbind. apply bind_ext; [reflexivity|]. intros n. rewrite snd_cbind. apply bind_ext; [reflexivity|]. intros _.
  destruct (_ <? n); [reflexivity|]. rewrite snd_cbind. apply bind_ext; [reflexivity|]. intros _. rewrite snd_cbind. apply bind_ext; [apply shr_r_erase|]. intros x.
  rewrite snd_cbind. apply bind_ext; [apply try_u_erase|]. intros [m|]; [|reflexivity]. rewrite snd_cbind. apply bind_ext; [reflexivity|]. intros v.
  rewrite snd_cbind. apply bind_ext; [apply low_bits_erase|]. reflexivity.
Qed.
Lemma float_erase f u : snd (c_ubig_to_float f u) = ubig_to_float f u.
Proof.
  unfold c_ubig_to_float, ubig_to_float. destruct u as [w|b]; [reflexivity|]. rewrite snd_cbind. apply bind_ext; [apply try_u_erase|]. intros [v|]; [reflexivity|apply slow_erase].
Qed.
Lemma ifloat_erase f x : snd (c_ibig_to_float f x) = ibig_to_float f x.
Proof. unfold c_ibig_to_float, ibig_to_float. rewrite snd_cbind, float_erase. reflexivity. Qed.

Lemma chunk_words_erase cs : snd (c_chunk_words cs) = chunk_words cs.
Proof.
  induction cs as [|c cs IH]; cbn [c_chunk_words chunk_words]; [reflexivity|]. rewrite snd_cbind. apply bind_ext; [reflexivity|]. intros w. rewrite snd_cbind, IH. reflexivity.
Qed.
Lemma serialize_erase u : snd (c_ubig_serialize u) = ubig_serialize u.
Proof. unfold c_ubig_serialize, ubig_serialize. cbv zeta. rewrite snd_cbind, chunk_words_erase. reflexivity. Qed.
Lemma iserialize_erase x : snd (c_ibig_serialize x) = ibig_serialize x.
Proof. unfold c_ibig_serialize, ibig_serialize. rewrite snd_cbind, serialize_erase. reflexivity. Qed.
Lemma read_hinted_erase n : forall seq b, snd (c_read_hinted n seq b) = read_hinted n seq b.
Proof.
  induction n as [|n IH]; intros seq b; cbn [c_read_hinted read_hinted]; [reflexivity|]. rewrite snd_cbind. apply bind_ext; [reflexivity|]. intros [w s].
  rewrite snd_cbind. apply bind_ext; [reflexivity|]. intros. apply IH.
Qed.
Lemma push_all_erase ws : forall b, snd (c_push_all ws b) = push_all ws b.
Proof. induction ws as [|w t IH]; intros b; cbn [c_push_all push_all]; [reflexivity|]. rewrite snd_cbind. apply bind_ext; [reflexivity|]. intros. apply IH. Qed.
Lemma deserialize_erase hint seq : snd (c_ubig_deserialize hint seq) = ubig_deserialize hint seq.
Proof.
  unfold c_ubig_deserialize, ubig_deserialize, c_visit_seq, visit_seq. destruct hint as [n|].
  - destruct (n =? 0); [oer|]. destruct (n =? 1); [oer|]. rewrite snd_cbind. apply bind_ext; [reflexivity|]. intros m. rewrite snd_cbind. apply bind_ext; [reflexivity|]. intros b.
    rewrite snd_cbind. apply bind_ext; [apply read_hinted_erase|]. intros [b' s]. oer.
  - rewrite snd_cbind, snd_call. cbn [bind]. rewrite snd_cbind. apply bind_ext; [reflexivity|]. intros m. rewrite snd_cbind. apply bind_ext; [reflexivity|]. intros b.
    rewrite snd_cbind. apply bind_ext; [apply push_all_erase|]. reflexivity.
Qed.
Lemma ideserialize_erase s hint seq : snd (c_ibig_deserialize s hint seq) = ibig_deserialize s hint seq.
Proof. unfold c_ibig_deserialize, ibig_deserialize. rewrite snd_cbind, deserialize_erase. reflexivity. Qed.

End Erase.

Section Nonneg.
Context {A : Arch}.

Lemma ubig_cmp_nn a b : 0 <= fst (c_ubig_cmp a b). Proof. unfold c_ubig_cmp. onn. Qed.
Lemma ibig_cmp_nn x y : 0 <= fst (c_ibig_cmp x y). Proof. unfold c_ibig_cmp. pose proof ubig_cmp_nn. onn. Qed.
Lemma ubig_equal_nn a b : 0 <= fst (c_ubig_equal a b). Proof. unfold c_ubig_equal. onn. Qed.
Lemma ibig_equal_nn x y : 0 <= fst (c_ibig_equal x y). Proof. unfold c_ibig_equal. pose proof ubig_equal_nn. onn. Qed.
Lemma into_bytes_nn ws : forall idx bytes, 0 <= fst (c_words_into_bytes idx ws bytes).
Proof. induction ws as [|w t IH]; intros idx bytes; cbn [c_words_into_bytes]; [apply nn_free|]. apply nn_bind; [apply nn_call|]. intros. apply IH. Qed.
Lemma from_words_nn tb ws : 0 <= fst (c_unsigned_from_words tb ws).
Proof. unfold c_unsigned_from_words. cbv zeta. pose proof into_bytes_nn. onn. Qed.
Lemma try_u_nn tb u : 0 <= fst (c_ubig_try_to_unsigned tb u).
Proof. unfold c_ubig_try_to_unsigned. destruct u; [apply nn_call|apply from_words_nn]. Qed.
Lemma try_s_nn tb u : 0 <= fst (c_ubig_try_to_signed tb u).
Proof. unfold c_ubig_try_to_signed. destruct u; [apply nn_call|]. apply nn_bind; [apply from_words_nn|]. intros. apply nn_free. Qed.
Lemma itry_u_nn tb x : 0 <= fst (c_ibig_try_to_unsigned tb x).
Proof. unfold c_ibig_try_to_unsigned. destruct (isign x); [apply try_u_nn|apply nn_call]. Qed.
Lemma itry_s_nn tb x : 0 <= fst (c_ibig_try_to_signed tb x).
Proof. unfold c_ibig_try_to_signed. apply nn_bind; [apply try_u_nn|]. intros. apply nn_free. Qed.
Lemma low_bits_nn u n : 0 <= fst (c_are_low_bits_nonzero u n). Proof. unfold c_are_low_bits_nonzero. cbv zeta. onn. Qed.
Lemma shr_r_nn u n : 0 <= fst (c_ubig_shr_r u n). Proof. unfold c_ubig_shr_r, c_shr_large_ref, c_from_buffer. cbv zeta. onn. Qed.
Lemma slow_nn f u : 0 <= fst (c_to_float_slow f u).
Proof. unfold c_to_float_slow. cbv zeta. pose proof low_bits_nn. pose proof shr_r_nn. pose proof try_u_nn. onn. Qed.
Lemma float_nn f u : 0 <= fst (c_ubig_to_float f u). Proof. unfold c_ubig_to_float. pose proof slow_nn. pose proof try_u_nn. onn. Qed.
Lemma ifloat_nn f x : 0 <= fst (c_ibig_to_float f x). Proof. unfold c_ibig_to_float. pose proof float_nn. onn. Qed.
Lemma chunk_words_nn cs : 0 <= fst (c_chunk_words cs).
Proof. induction cs as [|c cs IH]; cbn [c_chunk_words]; [apply nn_free|]. apply nn_bind; [apply nn_call|]. intros. apply nn_bind; [exact IH|]. intros. apply nn_free. Qed.
Lemma serialize_nn u : 0 <= fst (c_ubig_serialize u). Proof. unfold c_ubig_serialize. cbv zeta. pose proof chunk_words_nn. onn. Qed.
Lemma iserialize_nn x : 0 <= fst (c_ibig_serialize x). Proof. unfold c_ibig_serialize. pose proof serialize_nn. onn. Qed.
Lemma read_hinted_nn n : forall seq b, 0 <= fst (c_read_hinted n seq b).
Proof. induction n as [|n IH]; intros seq b; cbn [c_read_hinted]; [apply nn_free|]. apply nn_bind; [apply nn_call|]. intros [w s]. apply nn_bind; [apply nn_call|]. intros. apply IH. Qed.
Lemma push_all_nn ws : forall b, 0 <= fst (c_push_all ws b).
Proof. induction ws as [|w t IH]; intros b; cbn [c_push_all]; [apply nn_free|]. apply nn_bind; [apply nn_call|]. intros. apply IH. Qed.
Lemma deserialize_nn hint seq : 0 <= fst (c_ubig_deserialize hint seq).
Proof. unfold c_ubig_deserialize, c_visit_seq, c_from_buffer. pose proof read_hinted_nn. pose proof push_all_nn. onn. Qed.
Lemma ideserialize_nn s hint seq : 0 <= fst (c_ibig_deserialize s hint seq).
Proof. unfold c_ibig_deserialize. pose proof deserialize_nn. onn. Qed.

End Nonneg.

Section Bounds.
Context {A : Arch} {AOK : ArchOk A}.

Lemma ubig_cmp_costs a b : 1 <= ulen a -> 1 <= ulen b ->
  costs (c_ubig_cmp a b) (Z.min (ulen a) (ulen b) + 1) (fun _ => True) /\
  (ulen a <> ulen b -> costs (c_ubig_cmp a b) 1 (fun _ => True)).
Proof.
  intros La Lb. unfold c_ubig_cmp. destruct a as [x|x], b as [y|y]; cbn [ulen] in *;
    try (split; [|intros _]; (eapply costs_weaken; [apply costs_call|cbn [Z.of_nat]; lia|auto])).
  destruct (Z.compare_spec (blen x) (blen y)) as [C|C|C]; (split; [|intros D]); try (eapply costs_weaken; [apply costs_call|unfold blen, len in *; cbn [Z.of_nat]; lia|auto]).
Qed.

Lemma ubig_equal_costs a b : 1 <= ulen a -> 1 <= ulen b ->
  costs (c_ubig_equal a b) (Z.min (ulen a) (ulen b) + 1) (fun _ => True) /\
  (ulen a <> ulen b -> costs (c_ubig_equal a b) 1 (fun _ => True)).
Proof.
  intros La Lb. unfold c_ubig_equal. destruct a as [x|x], b as [y|y]; cbn [ulen] in *;
    try (split; [|intros _]; (eapply costs_weaken; [apply costs_call|cbn [Z.of_nat]; lia|auto])).
  destruct (Nat.eqb_spec (length (words x)) (length (words y))) as [C|C]; (split; [|intros D]); try (eapply costs_weaken; [apply costs_call|unfold blen, len in *; cbn [Z.of_nat]; lia|auto]).
Qed.

Lemma ibig_cmp_costs x y : 1 <= ulen (imag x) -> 1 <= ulen (imag y) ->
  costs (c_ibig_cmp x y) (Z.min (ulen (imag x)) (ulen (imag y)) + 1) (fun _ => True) /\
  (isign x <> isign y \/ ulen (imag x) <> ulen (imag y) -> costs (c_ibig_cmp x y) 1 (fun _ => True)).
Proof.
  intros Lx Ly. unfold c_ibig_cmp. pose proof (ubig_cmp_costs _ _ Lx Ly) as [C1 C2]. pose proof (ubig_cmp_costs _ _ Ly Lx) as [D1 D2].
  rewrite Z.min_comm in D1. destruct (isign x) eqn:Ex, (isign y) eqn:Ey.
  - split; [exact C1|]. intros [E|E]; [congruence|auto].
  - split; [|intros _]; (eapply costs_weaken; [apply costs_call|cbn [Z.of_nat]; lia|auto]).
  - split; [|intros _]; (eapply costs_weaken; [apply costs_call|cbn [Z.of_nat]; lia|auto]).
  - split; [exact D1|]. intros [E|E]; [congruence|auto].
Qed.

Lemma ibig_equal_costs x y : 1 <= ulen (imag x) -> 1 <= ulen (imag y) ->
  costs (c_ibig_equal x y) (Z.min (ulen (imag x)) (ulen (imag y)) + 1) (fun _ => True) /\
  (isign x <> isign y \/ ulen (imag x) <> ulen (imag y) -> costs (c_ibig_equal x y) 1 (fun _ => True)).
Proof.
  intros Lx Ly. unfold c_ibig_equal. pose proof (ubig_equal_costs _ _ Lx Ly) as [C1 C2]. destruct (sign_eqb _ _) eqn:E.
  - split; [exact C1|]. intros [D|D]; [destruct (isign x), (isign y); cbn in E; congruence|auto].
  - split; [|intros _]; (eapply costs_weaken; [apply costs_call|cbn [Z.of_nat]; lia|auto]).
Qed.

Lemma into_bytes_costs ws : forall idx bytes, costs (c_words_into_bytes idx ws bytes) (len ws * (Z.of_nat WORD_BYTES + 1)) (fun _ => True).
Proof.
  induction ws as [|w t IH]; intros idx bytes; cbn [c_words_into_bytes]; [apply costs_ok; [unfold len; cbn; lia|exact I]|].
  assert (L : len (w :: t) = len t + 1) by (unfold len; cbn [length]; lia). rewrite L.
  apply costs_bind_call. intros b' _. eapply costs_weaken; [apply IH|nia|auto].
Qed.

Lemma from_words_costs tb ws : 0 <= tb -> costs (c_unsigned_from_words tb ws) (tb / 2 + 2) (fun _ => (2 <= length ws)%nat).
Proof.
  intros T0. destruct word_bytes_range as [W _]. pose proof (Z.div_pos tb 8 T0 ltac:(lia)) as T8.
  assert (T2 : 4 * (tb / 8) <= tb / 2) by (apply Z.div_le_lower_bound; [lia|]; pose proof (Z.mul_div_le tb 8 ltac:(lia)); lia).
  unfold c_unsigned_from_words. cbv zeta. apply costs_bind_free. intros t G. apply assert_ok in G. apply Nat.leb_le in G.
  destruct ((_ <=? _) || _)%nat eqn:C; [eapply costs_weaken; [apply costs_call|cbn [Z.of_nat]; lia|auto]|].
  apply Bool.orb_false_iff in C as [_ C]. apply Nat.ltb_ge in C.
  apply costs_bind_free. intros ? _. apply costs_bind_call. intros z E. eapply costs_bind; [apply into_bytes_costs|]. intros bs _.
  assert (D : (length ws * WORD_BYTES <= Z.to_nat (tb / 8))%nat).
  { pose proof (Nat.mul_div_le (Z.to_nat (tb / 8)) WORD_BYTES ltac:(lia)). nia. }
  eapply costs_weaken; [apply costs_call| |auto]. unfold len. nia.
Qed.

Lemma try_u_costs tb u : 0 <= tb -> costs (c_ubig_try_to_unsigned tb u) (tb / 2 + 2) (fun _ => True).
Proof.
  intros T. pose proof (Z.div_pos tb 2 T ltac:(lia)). destruct u; cbn [c_ubig_try_to_unsigned]; [eapply costs_weaken; [apply costs_call|cbn [Z.of_nat]; lia|auto]|].
  eapply costs_weaken; [apply from_words_costs; exact T|lia|auto].
Qed.
Lemma try_s_costs tb u : 0 <= tb -> costs (c_ubig_try_to_signed tb u) (tb / 2 + 2) (fun _ => True).
Proof.
  intros T. pose proof (Z.div_pos tb 2 T ltac:(lia)). destruct u; cbn [c_ubig_try_to_signed]; [eapply costs_weaken; [apply costs_call|cbn [Z.of_nat]; lia|auto]|].
  eapply costs_bind; [apply from_words_costs; exact T|]. intros o _. apply costs_ok; [lia|exact I].
Qed.
Lemma itry_u_costs tb x : 0 <= tb -> costs (c_ibig_try_to_unsigned tb x) (tb / 2 + 2) (fun _ => True).
Proof.
  intros T. pose proof (Z.div_pos tb 2 T ltac:(lia)). unfold c_ibig_try_to_unsigned. destruct (isign x); [now apply try_u_costs|].
  eapply costs_weaken; [apply costs_call|cbn [Z.of_nat]; lia|auto].
Qed.
Lemma itry_s_costs tb x : 0 <= tb -> costs (c_ibig_try_to_signed tb x) (tb / 2 + 2) (fun _ => True).
Proof. intros T. unfold c_ibig_try_to_signed. eapply costs_bind; [now apply try_u_costs|]. intros o _. apply costs_ok; [lia|exact I]. Qed.

Lemma low_bits_costs b n : 1 <= blen b -> costs (c_are_low_bits_nonzero (Large b) n) (blen b + 1) (fun _ => True).
Proof.
  intros L. cbn [c_are_low_bits_nonzero]. cbv zeta. destruct (_ <=? _); [eapply costs_weaken; [apply costs_call|cbn [Z.of_nat]; lia|auto]|].
  apply costs_bind_free. intros lo E. pose proof (slice_to_len _ _ _ E) as El. apply costs_bind_call. intros t _.
  assert (length lo <= length (words b))%nat by (unfold slice_to in E; destruct (_ <=? _)%nat eqn:C in E; [|discriminate]; apply Nat.leb_le in C; lia).
  destruct t; [apply costs_ok; [unfold blen, len; lia|exact I]|]. apply costs_bind_free. intros w _. apply costs_ok; [unfold blen, len; lia|exact I].
Qed.

Lemma bit_len_large b n : ubig_bit_len (Large b) = Ok n -> (blen b - 1) * wbits <= n.
Proof.
  cbn [ubig_bit_len]. intros E. apply bind_inv in E as (m & E1 & E). apply bind_inv in E as (w & _ & E).
  unfold usize_chk, checked in *. destruct (_ && _) in E1; [|discriminate]. injection E1 as <-. destruct (_ && _) in E; [|discriminate]. injection E as <-.
  pose proof (bitlen_nonneg w). unfold leading_zeros_w, leading_zeros_n. lia.
Qed.

Lemma float_costs f u : In f [f32; f64] -> costs (c_ubig_to_float f u) 400 (fun _ => True).
Proof.
  intros F. assert (FB : 0 <= fbits f <= 64 /\ femax f <= 1024) by (destruct F as [<-|[<-|[]]]; cbn; lia). destruct FB as [FB FE].
  assert (F2 : fbits f / 2 <= 32) by (apply Z.div_le_upper_bound; lia). assert (W16 : 16 <= wbits) by (destruct AOK as [[->|[->| ->]] _]; lia).
  unfold c_ubig_to_float. destruct u as [w|b]; [eapply costs_weaken; [apply costs_call|cbn [Z.of_nat]; lia|auto]|].
  cbn [c_ubig_try_to_unsigned]. eapply costs_bind; [apply from_words_costs; lia|]. intros o L. cbv beta in L. destruct o as [v|]; [apply costs_ok; [lia|exact I]|].
  unfold c_to_float_slow. cbv zeta. apply costs_bind_call. intros n En. apply bit_len_large in En. apply costs_bind_free. intros ? _.
  destruct (Z.ltb_spec (femax f) n) as [C|C]; [apply costs_ok; [lia|exact I]|]. apply costs_bind_free. intros ? _.
  assert (LB : 1 <= blen b <= 65) by (unfold blen, len in *; nia).
  eapply costs_bind; [apply (shr_r_costs (Large b)); cbn [ulen]; lia|]. intros x _. cbn [ulen]. eapply costs_bind; [apply try_u_costs; lia|]. intros [m|] _; [|apply costs_panic].
  apply costs_bind_free. intros vv _. eapply costs_bind; [apply low_bits_costs; lia|]. intros e _. eapply costs_weaken; [apply costs_free|cbn [Z.of_nat]; lia|auto].
Qed.
Lemma ifloat_costs f x : In f [f32; f64] -> costs (c_ibig_to_float f x) 400 (fun _ => True).
Proof. intros F. unfold c_ibig_to_float. eapply costs_bind; [now apply float_costs|]. intros v _. apply costs_ok; [lia|exact I]. Qed.

Lemma chunk_words_costs fuel k : (0 < k)%nat -> forall ws, costs (c_chunk_words (chunks fuel k ws)) (2 * len ws) (fun _ => True).
Proof.
  intros K. induction fuel as [|fuel IH]; intros ws; cbn [chunks]; [apply costs_ok; [unfold len; lia|exact I]|].
  destruct ws as [|w t]; [apply costs_ok; [unfold len; cbn; lia|exact I]|]. cbn [c_chunk_words]. apply costs_bind_call. intros x _. eapply costs_bind; [apply IH|].
  intros y _. apply costs_ok; [|exact I]. unfold len. rewrite firstn_length, skipn_length. cbn [length]. lia.
Qed.
Lemma words_per_u64 : (1 <= WORDS_PER_U64 <= 4)%nat.
Proof. unfold WORDS_PER_U64. destruct AOK as [[->|[->| ->]] _]; vm_compute; repeat constructor. Qed.
Lemma as_words_le u : len (as_words u) <= Z.max 1 (ulen u).
Proof. destruct u as [w|b]; cbn [as_words ulen]; [destruct (w =? 0); unfold len; cbn [length]; lia|fold (blen b); lia]. Qed.
Lemma serialize_costs u : 1 <= ulen u -> costs (c_ubig_serialize u) (2 * ulen u) (fun _ => True).
Proof.
  intros L. pose proof (as_words_le u). unfold c_ubig_serialize. cbv zeta. eapply costs_bind; [apply chunk_words_costs; apply words_per_u64|]. intros es _.
  apply costs_ok; [lia|exact I].
Qed.
Lemma iserialize_costs x : 1 <= ulen (imag x) -> costs (c_ibig_serialize x) (2 * ulen (imag x)) (fun _ => True).
Proof. intros L. unfold c_ibig_serialize. eapply costs_bind; [now apply serialize_costs|]. intros m _. apply costs_ok; [lia|exact I]. Qed.

Lemma push_parts_words k : forall i w b b', push_parts k i w b = Ok b' -> blen b' = blen b + Z.of_nat k.
Proof.
  induction k as [|k IH]; intros i w b b' E; cbn [push_parts] in E; [injection E as <-; lia|]. apply check_ok in E as [_ E]. apply bind_inv in E as (b1 & E1 & E).
  apply push_words in E1. apply IH in E. unfold blen, len in *. rewrite E1, app_length in E. cbn [length] in E. lia.
Qed.
Lemma read_hinted_costs n : forall seq b, costs (c_read_hinted n seq b) (6 * Z.of_nat n)
  (fun '(b', s) => blen b' <= blen b + 4 * Z.of_nat n /\ length seq = (length s + n)%nat).
Proof.
  pose proof words_per_u64 as K. induction n as [|n IH]; intros seq b; cbn [c_read_hinted]; [apply costs_ok; [lia|]; split; lia|].
  apply costs_bind_call. intros [w s] E. destruct seq as [|x t]; [discriminate|]. injection E as -> ->. unfold c_push_word_64. apply costs_bind_call. intros b1 E1. apply push_parts_words in E1.
  eapply costs_weaken; [apply IH|cbn [Z.of_nat]; lia|]. intros [b' s'] [L1 L2]. cbn [length]. split; lia.
Qed.
Lemma push_all_costs ws : forall b, costs (c_push_all ws b) (5 * len ws) (fun b' => blen b' <= blen b + 4 * len ws).
Proof.
  pose proof words_per_u64 as K. induction ws as [|w t IH]; intros b; cbn [c_push_all]; [apply costs_ok; [unfold len; cbn; lia|unfold len; cbn; lia]|].
  assert (L : len (w :: t) = len t + 1) by (unfold len; cbn [length]; lia). rewrite L.
  unfold c_push_word_64. apply costs_bind_call. intros b1 E1. apply push_parts_words in E1. eapply costs_weaken; [apply IH|lia|]. cbv beta. intros b' H. lia.
Qed.
Lemma deserialize_costs hint seq : costs (c_ubig_deserialize hint seq) (15 * len seq + 3) (fun _ => True).
Proof.
  pose proof words_per_u64 as K. assert (S0 : 0 <= len seq) by (unfold len; lia). unfold c_ubig_deserialize, c_visit_seq. destruct hint as [n|].
  - destruct (n =? 0); [apply costs_bind_call; intros t _; apply costs_ok; [lia|exact I]|]. destruct (n =? 1).
    + apply costs_bind_call. intros [w s] E. destruct seq as [|x t]; [discriminate|]. injection E as -> ->. apply costs_bind_call. intros ? E.
      eapply costs_weaken; [apply costs_call|unfold len in *; cbn [length]; lia|auto].
    + apply costs_bind_free. intros m _. apply costs_bind_call. intros b E0. apply allocate_words in E0. assert (L0 : blen b = 0) by (unfold blen, len; now rewrite E0).
      eapply costs_bind; [apply read_hinted_costs|]. intros [b' s] [L1 L2]. apply costs_bind_call. intros ? E.
      eapply costs_weaken; [apply (from_buffer_costs b' (8 * Z.of_nat (Z.to_nat n) + 1)); lia|unfold len; lia|auto].
  - apply costs_bind_call. intros ws E. injection E as <-. apply costs_bind_free. intros m _. apply costs_bind_call. intros b E0. apply allocate_words in E0.
    assert (L0 : blen b = 0) by (unfold blen, len; now rewrite E0). eapply costs_bind; [apply push_all_costs|]. cbv beta. intros b' L1.
    eapply costs_weaken; [apply (from_buffer_costs b' (8 * len seq + 1)); lia|unfold len in *; lia|auto].
Qed.
Lemma ideserialize_costs s hint seq : costs (c_ibig_deserialize s hint seq) (15 * len seq + 3) (fun _ => True).
Proof. unfold c_ibig_deserialize. eapply costs_bind; [apply deserialize_costs|]. intros m _. apply costs_ok; [lia|exact I]. Qed.

End Bounds.

Section Api.
Context {A : Arch} {AOK : ArchOk A}.

Theorem convert_same (a b : ubig) (x y : ibig) (tb : Z) (f : ffmt) (s : sign) (hint : option Z) (seq : list Z) :
  (snd (c_ubig_cmp a b) = ubig_cmp a b /\ snd (c_ibig_cmp x y) = ibig_cmp x y /\
   snd (c_ubig_equal a b) = Ok (ubig_eqb a b) /\ snd (c_ibig_equal x y) = Ok (ibig_eqb x y)) /\
  (snd (c_ubig_try_to_unsigned tb a) = ubig_try_to_unsigned tb a /\ snd (c_ubig_try_to_signed tb a) = ubig_try_to_signed tb a /\
   snd (c_ibig_try_to_unsigned tb x) = ibig_try_to_unsigned tb x /\ snd (c_ibig_try_to_signed tb x) = ibig_try_to_signed tb x) /\
  (snd (c_ubig_to_float f a) = ubig_to_float f a /\ snd (c_ibig_to_float f x) = ibig_to_float f x) /\
  (snd (c_ubig_serialize a) = ubig_serialize a /\ snd (c_ibig_serialize x) = ibig_serialize x /\
   snd (c_ubig_deserialize hint seq) = ubig_deserialize hint seq /\ snd (c_ibig_deserialize s hint seq) = ibig_deserialize s hint seq).
Proof.
  split; [split; [apply ubig_cmp_erase|split; [apply ibig_cmp_erase|split; [apply ubig_equal_erase|apply ibig_equal_erase]]]|].
  split; [split; [apply try_u_erase|split; [apply try_s_erase|split; [apply itry_u_erase|apply itry_s_erase]]]|].
  split; [split; [apply float_erase|apply ifloat_erase]|].
  split; [apply serialize_erase|split; [apply iserialize_erase|split; [apply deserialize_erase|apply ideserialize_erase]]].
Qed.

Theorem ubig_cmp_steps a b k c : 1 <= ulen a -> 1 <= ulen b -> c_ubig_cmp a b = (k, Ok c) ->
  ubig_cmp a b = Ok c /\ 0 <= k <= Z.min (ulen a) (ulen b) + 1 /\ (ulen a <> ulen b -> k <= 1).
Proof.
  intros La Lb E. destruct (ubig_cmp_costs a b La Lb) as [C1 C2].
  destruct (conclude _ _ _ _ _ _ (ubig_cmp_erase a b) (ubig_cmp_nn a b) C1 E) as [R K]. split; [exact R|]. split; [exact K|].
  intros D. destruct (conclude _ _ _ _ _ _ (ubig_cmp_erase a b) (ubig_cmp_nn a b) (C2 D) E). lia.
Qed.
Theorem ubig_equal_steps a b k c : 1 <= ulen a -> 1 <= ulen b -> c_ubig_equal a b = (k, Ok c) ->
  ubig_eqb a b = c /\ 0 <= k <= Z.min (ulen a) (ulen b) + 1 /\ (ulen a <> ulen b -> k <= 1).
Proof.
  intros La Lb E. destruct (ubig_equal_costs a b La Lb) as [C1 C2].
  destruct (conclude _ _ _ _ _ _ (ubig_equal_erase a b) (ubig_equal_nn a b) C1 E) as [R K]. split; [congruence|]. split; [exact K|].
  intros D. destruct (conclude _ _ _ _ _ _ (ubig_equal_erase a b) (ubig_equal_nn a b) (C2 D) E). lia.
Qed.
Theorem ibig_cmp_steps x y k c : 1 <= ulen (imag x) -> 1 <= ulen (imag y) -> c_ibig_cmp x y = (k, Ok c) ->
  ibig_cmp x y = Ok c /\ 0 <= k <= Z.min (ulen (imag x)) (ulen (imag y)) + 1 /\ (isign x <> isign y \/ ulen (imag x) <> ulen (imag y) -> k <= 1).
Proof.
  intros La Lb E. destruct (ibig_cmp_costs x y La Lb) as [C1 C2].
  destruct (conclude _ _ _ _ _ _ (ibig_cmp_erase x y) (ibig_cmp_nn x y) C1 E) as [R K]. split; [exact R|]. split; [exact K|].
  intros D. destruct (conclude _ _ _ _ _ _ (ibig_cmp_erase x y) (ibig_cmp_nn x y) (C2 D) E). lia.
Qed.
Theorem ibig_equal_steps x y k c : 1 <= ulen (imag x) -> 1 <= ulen (imag y) -> c_ibig_equal x y = (k, Ok c) ->
  ibig_eqb x y = c /\ 0 <= k <= Z.min (ulen (imag x)) (ulen (imag y)) + 1 /\ (isign x <> isign y \/ ulen (imag x) <> ulen (imag y) -> k <= 1).
Proof.
  intros La Lb E. destruct (ibig_equal_costs x y La Lb) as [C1 C2].
  destruct (conclude _ _ _ _ _ _ (ibig_equal_erase x y) (ibig_equal_nn x y) C1 E) as [R K]. split; [congruence|]. split; [exact K|].
  intros D. destruct (conclude _ _ _ _ _ _ (ibig_equal_erase x y) (ibig_equal_nn x y) (C2 D) E). lia.
Qed.

Theorem ubig_primitive_steps (f : Z -> ubig -> counted (option Z)) (g : Z -> ubig -> res (option Z)) tb u k o :
  In (f, g) [(c_ubig_try_to_unsigned, ubig_try_to_unsigned); (c_ubig_try_to_signed, ubig_try_to_signed)] ->
  0 <= tb -> f tb u = (k, Ok o) -> g tb u = Ok o /\ 0 <= k <= tb / 2 + 2.
Proof.
  intros F T E. cbn [In] in F. destruct F as [F|[F|[]]]; injection F as <- <-.
  - exact (conclude _ _ _ _ _ _ (try_u_erase tb u) (try_u_nn tb u) (try_u_costs tb u T) E).
  - exact (conclude _ _ _ _ _ _ (try_s_erase tb u) (try_s_nn tb u) (try_s_costs tb u T) E).
Qed.
Theorem ibig_primitive_steps (f : Z -> ibig -> counted (option Z)) (g : Z -> ibig -> res (option Z)) tb x k o :
  In (f, g) [(c_ibig_try_to_unsigned, ibig_try_to_unsigned); (c_ibig_try_to_signed, ibig_try_to_signed)] ->
  0 <= tb -> f tb x = (k, Ok o) -> g tb x = Ok o /\ 0 <= k <= tb / 2 + 2.
Proof.
  intros F T E. cbn [In] in F. destruct F as [F|[F|[]]]; injection F as <- <-.
  - exact (conclude _ _ _ _ _ _ (itry_u_erase tb x) (itry_u_nn tb x) (itry_u_costs tb x T) E).
  - exact (conclude _ _ _ _ _ _ (itry_s_erase tb x) (itry_s_nn tb x) (itry_s_costs tb x T) E).
Qed.

Theorem ubig_float_steps f u k v : In f [f32; f64] -> c_ubig_to_float f u = (k, Ok v) -> ubig_to_float f u = Ok v /\ 0 <= k <= 400.
Proof. intros F. exact (conclude _ _ _ _ _ _ (float_erase f u) (float_nn f u) (float_costs f u F)). Qed.
Theorem ibig_float_steps f x k v : In f [f32; f64] -> c_ibig_to_float f x = (k, Ok v) -> ibig_to_float f x = Ok v /\ 0 <= k <= 400.
Proof. intros F. exact (conclude _ _ _ _ _ _ (ifloat_erase f x) (ifloat_nn f x) (ifloat_costs f x F)). Qed.

Theorem ubig_serialize_steps u k r : 1 <= ulen u -> c_ubig_serialize u = (k, Ok r) -> ubig_serialize u = Ok r /\ 0 <= k <= 2 * ulen u.
Proof. intros L. exact (conclude _ _ _ _ _ _ (serialize_erase u) (serialize_nn u) (serialize_costs u L)). Qed.
Theorem ibig_serialize_steps x k r : 1 <= ulen (imag x) -> c_ibig_serialize x = (k, Ok r) -> ibig_serialize x = Ok r /\ 0 <= k <= 2 * ulen (imag x).
Proof. intros L. exact (conclude _ _ _ _ _ _ (iserialize_erase x) (iserialize_nn x) (iserialize_costs x L)). Qed.
Theorem ubig_deserialize_steps hint seq k u : c_ubig_deserialize hint seq = (k, Ok u) ->
  ubig_deserialize hint seq = Ok u /\ 0 <= k <= 15 * Z.of_nat (length seq) + 3.
Proof. exact (conclude _ _ _ _ _ _ (deserialize_erase hint seq) (deserialize_nn hint seq) (deserialize_costs hint seq)). Qed.
Theorem ibig_deserialize_steps s hint seq k x : c_ibig_deserialize s hint seq = (k, Ok x) ->
  ibig_deserialize s hint seq = Ok x /\ 0 <= k <= 15 * Z.of_nat (length seq) + 3.
Proof. exact (conclude _ _ _ _ _ _ (ideserialize_erase s hint seq) (ideserialize_nn s hint seq) (ideserialize_costs s hint seq)). Qed.

End Api.
