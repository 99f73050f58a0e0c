(** Single bits, powers of two, signed bit operations and bytes (Model/CostBits.v). *)
From Coq Require Import Lia.
From Verif Require Import Model.Base Model.Words Model.Add Model.Memory Model.Buffer Model.UBig Model.IBig
  Model.Convert Model.AddOps Model.MulOps Model.Bits Model.Cost Model.CostDiv Model.CostOps Model.CostGcd Model.CostInverse Model.CostBits Spec.Val Spec.Num.
From Verif Require Import Proofs.Basics Proofs.BufferProofs Proofs.CostProofs Proofs.CostBounds Proofs.CostTheorems Proofs.CostRates Proofs.CostDivProofs
  Proofs.CostOpsProofs Proofs.CostOpsBounds Proofs.CostDivOps Proofs.CostGcdProofs Proofs.CostGcdSteps Proofs.CostGcdTheorems
  Proofs.CostInverseProofs Proofs.BitsProofs Proofs.CostBitsProofs Proofs.CostBitsSteps.

Section Single.
Context {A : Arch} {AOK : ArchOk A}.

Lemma push_zeros_words n : forall b b', push_zeros b n = Ok b' -> length (words b') = (length (words b) + n)%nat.
Proof.
  unfold push_zeros. intros b b' H. apply check_ok in H. destruct H as [_ H]. injection H as <-. cbn [words]. rewrite app_length, repeat_length. lia.
Qed.

Lemma set_bit_costs u n : 1 <= ulen u -> 0 <= n -> costs (c_set_bit u n) (2 * ulen u + 3 * (n / wbits) + 6) (fun _ => True).
Proof.
  intros L N0. assert (W0 : 0 < wbits) by (destruct AOK as [[->|[->| ->]] _]; lia). pose proof (Z.div_pos n wbits N0 W0) as Q.
  unfold c_set_bit. destruct u as [w|b]; cbn [ulen] in *.
  - destruct (n <? wbits); [eapply costs_weaken; [apply costs_call|cbn [Z.of_nat]; lia|auto]|]. unfold c_with_bit_word_slow. cbv zeta.
    apply costs_bind_free. intros t G. apply assert_ok in G. apply Z.leb_le in G. assert (Q1 : 1 <= n / wbits) by (apply Z.div_le_lower_bound; lia).
    apply costs_bind_free. intros m _. apply costs_bind_call. intros b0 E0. apply allocate_words in E0. apply costs_bind_call. intros b1 E1. apply push_words in E1.
    apply costs_bind_call. intros b2 E2. apply extend_words in E2. apply costs_bind_call. intros b3 E3. apply push_words in E3.
    assert (LB : blen b3 = n / wbits + 1) by (unfold blen, len; rewrite E3, E2, E1, E0, !app_length, repeat_length; cbn [length]; lia).
    eapply costs_weaken; [apply (from_buffer_costs b3 (2 * (n / wbits) + 3)); lia|cbn [Z.of_nat]; lia|auto].
  - unfold c_with_bit_large. cbv zeta. destruct (Z.ltb_spec (n / wbits) (blen b)) as [C|C].
    + apply (costs_bind _ _ 0 _ (fun b' => blen b' = blen b)).
      * apply costs_bind_free. intros w _. apply costs_bind_free. intros ws E. apply CostDivProofs.set_len in E. apply costs_ok; [lia|]. unfold blen, len. cbn [words]. now rewrite E.
      * intros b' E. eapply costs_weaken; [apply (from_buffer_costs b' (2 * blen b + 1)); lia|lia|auto].
    + apply (costs_bind _ _ (n / wbits + 3) _ (fun b' => blen b' = n / wbits + 1)).
      * apply costs_bind_free. intros m _. apply costs_bind_call. intros b1 E1. apply ensure_capacity_words in E1. apply costs_bind_call. intros b2 E2. apply push_zeros_words in E2.
        eapply costs_weaken; [apply costs_call|unfold blen, len in *; rewrite E1 in *; cbn [Z.of_nat]; lia|]. intros b3 E3. apply push_words in E3.
        unfold blen, len in *. rewrite E3, app_length, E2, E1. cbn [length]. lia.
      * intros b' E. eapply costs_weaken; [apply (from_buffer_costs b' (2 * (n / wbits) + 3)); lia|lia|auto].
Qed.

Lemma clear_bit_costs u n : 1 <= ulen u -> costs (c_clear_bit u n) (2 * ulen u + 1) (fun _ => True).
Proof.
  intros L. unfold c_clear_bit. destruct u as [w|b]; cbn [ulen] in *.
  - destruct (n <? wbits); (eapply costs_weaken; [apply costs_call|cbn [Z.of_nat]; lia|auto]).
  - unfold c_without_bit_large. cbv zeta. apply (costs_bind _ _ 0 _ (fun b' => blen b' = blen b)).
    + destruct (n / wbits <? blen b); [|apply costs_ok; [lia|reflexivity]].
      apply costs_bind_free. intros w _. apply costs_bind_free. intros ws E. apply CostDivProofs.set_len in E. apply costs_ok; [lia|]. unfold blen, len. cbn [words]. now rewrite E.
    + intros b' E. eapply costs_weaken; [apply (from_buffer_costs b' (2 * blen b + 1)); lia|lia|auto].
Qed.

Lemma is_power_costs u : 1 <= ulen u -> costs (c_is_power_of_two u) (ulen u) (fun _ => True).
Proof.
  intros L. unfold c_is_power_of_two. destruct u as [w|b]; cbn [ulen] in *.
  - eapply costs_weaken; [apply costs_call|cbn [Z.of_nat]; lia|auto].
  - unfold c_is_power_of_two_large. apply costs_bind_free. intros t _. apply costs_bind_free. intros lo E. apply slice_to_len in E. apply costs_bind_free. intros w _.
    eapply costs_weaken; [apply costs_call|unfold blen, len in *; lia|auto].
Qed.

Lemma clear_from_len ws : length (fst (clear_from_nonzero ws)) = length ws.
Proof.
  induction ws as [|w t IH]; [reflexivity|]. cbn [clear_from_nonzero]. destruct (w =? 0).
  - destruct (clear_from_nonzero t) as [t' c]. cbn [fst length] in *. lia.
  - cbn [fst length]. now rewrite repeat_length.
Qed.

Lemma next_power_costs u n : 1 <= ulen u <= n -> costs (c_next_power_of_two_v u) (4 * n + 6) (fun _ => True).
Proof.
  intros L. unfold c_next_power_of_two_v. destruct u as [w|b]; cbn [ulen] in *.
  - destruct (checked_next_power_of_two_w w); (eapply costs_weaken; [apply costs_call|cbn [Z.of_nat]; lia|auto]).
  - unfold c_next_power_of_two_large. apply costs_bind_free. intros t _. cbv zeta. apply costs_bind_call. intros [b1 carry] E1. cbv beta iota.
    apply on_buffer_len in E1. 2: { intros w w' x X. injection X as X. pose proof (clear_from_len w) as Y. rewrite X in Y. exact Y. }
    apply costs_bind_free. intros l _. apply (costs_bind _ _ (n + 2) _ (fun b' => blen b' <= n + 1)).
    + match goal with |- costs (match ?o with Some _ => _ | None => _ end) _ _ => destruct o as [p|] end.
      * apply costs_bind_free. intros ws E. apply CostDivProofs.set_len in E. apply costs_ok; [lia|]. unfold blen, len in *. cbn [words]. lia.
      * apply costs_bind_free. intros ws E. apply CostDivProofs.set_len in E. apply costs_bind_free. intros m _. apply costs_bind_call. intros b2 E2. apply ensure_capacity_words in E2. cbn [words] in E2.
        eapply costs_weaken; [apply costs_call|unfold blen, len in *; cbn [Z.of_nat]; lia|]. intros b3 E3. apply push_words in E3.
        unfold blen, len in *. rewrite E3, app_length, E2. cbn [length]. lia.
    + intros b' E. eapply costs_weaken; [apply (from_buffer_costs b' (2 * n + 3)); lia|unfold blen, len in *; lia|auto].
Qed.

Lemma next_power_r_costs u n : 1 <= ulen u <= n -> costs (c_next_power_of_two_r u) (5 * n + 7) (fun _ => True).
Proof.
  intros L. unfold c_next_power_of_two_r. eapply costs_bind; [apply (clone_costs u n); lia|]. intros v E. cbv beta in E.
  eapply costs_weaken; [apply (next_power_costs v n); lia|lia|auto].
Qed.

End Single.

Section Signed.
Context {A : Arch} {AOK : ArchOk A}.

Lemma costs_both {T} (m : counted T) r N P (Q : T -> Prop) : snd m = r -> costs m N P -> (forall x, r = Ok x -> Q x) -> costs m N (fun x => P x /\ Q x).
Proof. intros <- C F x E. destruct (C x E) as [C1 C2]. auto. Qed.

(** A bit operation on magnitudes: at most 5 n + 5 steps, and a result of at most n words. *)
Definition magnitude_op (c : ubig -> ubig -> counted ubig) : Prop := forall a b n, ubig_ok a -> ubig_ok b -> ulen a <= n -> ulen b <= n ->
  costs (c a b) (5 * n + 5) (fun u => lens_below n u /\ ubig_ok u).

Lemma yields_ok r z : yields r z -> forall u, r = Ok u -> ubig_ok u.
Proof.
  intros [Y1 Y2] u E. destruct (Z.lt_ge_cases z MAXV) as [C|C].
  - destruct (Y1 C) as (v & F & O & _). rewrite F in E. injection E as <-. exact O.
  - rewrite (Y2 C) in E. discriminate.
Qed.

Ltac magop Er Y tac := let a := fresh "a" in let b := fresh "b" in let n := fresh "n" in
  intros a b n Oa Ob La Lb; pose proof (ulen_pos a Oa) as Pa; pose proof (ulen_pos b Ob) as Pb;
  eapply costs_both; [apply Er| |apply (yields_ok _ _ (Y a b Oa Ob))];
  eapply costs_weaken; [tac a b n|lia|unfold lens_below; intros; lia].
Ltac by_and a b n := apply (and_costs a b); lia.
Ltac by_or a b n := apply (or_costs a b n); lia.
Ltac by_xor a b n := apply (xor_costs a b n); lia.
Ltac by_and_not a b n := apply (and_not_costs a b n); lia.

Lemma and_mags : magnitude_op c_ubig_and_vv /\ magnitude_op c_ubig_and_vr /\ magnitude_op c_ubig_and_rv /\ magnitude_op c_ubig_and_rr.
Proof.
  split; [|split; [|split]].
  - magop and_vv_erase ubig_and_vv_yields by_and.
  - magop and_vr_erase ubig_and_vr_yields by_and.
  - magop and_rv_erase ubig_and_rv_yields by_and.
  - magop and_rr_erase ubig_and_rr_yields by_and.
Qed.
Lemma or_mags : magnitude_op c_ubig_or_vv /\ magnitude_op c_ubig_or_vr /\ magnitude_op c_ubig_or_rv /\ magnitude_op c_ubig_or_rr.
Proof.
  split; [|split; [|split]].
  - magop or_vv_erase ubig_or_vv_yields by_or.
  - magop or_vr_erase ubig_or_vr_yields by_or.
  - magop or_rv_erase ubig_or_rv_yields by_or.
  - magop or_rr_erase ubig_or_rr_yields by_or.
Qed.
Lemma xor_mags : magnitude_op c_ubig_xor_vv /\ magnitude_op c_ubig_xor_vr /\ magnitude_op c_ubig_xor_rv /\ magnitude_op c_ubig_xor_rr.
Proof.
  split; [|split; [|split]].
  - magop xor_vv_erase ubig_xor_vv_yields by_xor.
  - magop xor_vr_erase ubig_xor_vr_yields by_xor.
  - magop xor_rv_erase ubig_xor_rv_yields by_xor.
  - magop xor_rr_erase ubig_xor_rr_yields by_xor.
Qed.
Lemma and_not_mags : magnitude_op c_ubig_and_not_vv /\ magnitude_op c_ubig_and_not_vr /\ magnitude_op c_ubig_and_not_rv /\ magnitude_op c_ubig_and_not_rr.
Proof.
  split; [|split; [|split]].
  - magop and_not_vv_erase ubig_and_not_vv_yields by_and_not.
  - magop and_not_vr_erase ubig_and_not_vr_yields by_and_not.
  - magop and_not_rv_erase ubig_and_not_rv_yields by_and_not.
  - magop and_not_rr_erase ubig_and_not_rr_yields by_and_not.
Qed.

Lemma ibig_of_costs m N P : costs m N P -> costs (c_ibig_of m) N (fun _ => True).
Proof. intros C. unfold c_ibig_of. eapply costs_bind; [exact C|]. intros u _. apply costs_ok; [lia|exact I]. Qed.
Lemma neg_res_costs m N P : costs m N P -> costs (c_neg_res m) N (fun _ => True).
Proof. intros C. unfold c_neg_res. eapply costs_bind; [exact C|]. intros u _. apply costs_ok; [lia|exact I]. Qed.

Lemma one_is_word : ibig_from_unsigned 8 1 = Ok (mkIBig Positive (Small 1)).
Proof.
  destruct one_spec as (one & E & [O S] & V). rewrite E. f_equal. destruct one as [s m]. cbn [isign imag] in *. unfold ival in V. cbn [isign imag] in V.
  pose proof (uval_nonneg m O) as M0. assert (M1 : uval m = 1 /\ s = Positive) by (destruct s; cbn [sign_val] in V; split; try reflexivity; lia).
  destruct M1 as [M1 ->]. f_equal. destruct m as [w|b]; cbn [uval] in *; [now subst w|]. pose proof (Large_ge _ O). pose proof B_ge. lia.
Qed.

Lemma add_one_costs x n : ibig_ok x -> ulen (imag x) <= n -> costs (c_ibig_add_vv x (mkIBig Positive (Small 1))) (7 * n + 9) (fun _ => True).
Proof.
  intros [O _] L. pose proof (ulen_pos _ O) as L1. unfold c_ibig_add_vv. cbn [isign imag]. destruct (isign x).
  - eapply costs_bind; [apply (add_costs (imag x) (Small 1) n); cbn [ulen]; lia|]. intros u _. apply costs_ok; [lia|exact I].
  - assert (O1 : ubig_ok (Small 1)) by (cbn; pose proof B_ge; lia).
    eapply costs_weaken; [apply (sub_val_val_costs (Small 1) (imag x) n); cbn [ulen]; auto; lia|lia|auto].
Qed.

Lemma one_add_costs x n : ibig_ok x -> ulen (imag x) <= n -> costs (c_ibig_add_rv x (mkIBig Positive (Small 1))) (8 * n + 10) (fun _ => True).
Proof.
  intros [O _] L. pose proof (ulen_pos _ O) as L1. unfold c_ibig_add_rv, c_ibig_add_vr. cbn [isign imag]. destruct (isign x).
  - eapply ibig_of_costs. apply (add_vr_costs (Small 1) (imag x) n); cbn [ulen]; lia.
  - unfold c_sub_ubig_val_ref. destruct (imag x) as [w|b]; cbn [ulen] in *.
    + eapply costs_weaken; [apply costs_call|cbn [Z.of_nat]; lia|auto].
    + eapply costs_bind; [apply clone_buffer_costs|]. intros b' E. cbv beta in E.
      eapply costs_weaken; [eapply neg_res_costs; apply (isub_large_word_costs b' 1 n); lia|lia|auto].
Qed.

Lemma not_v_costs x n : ibig_ok x -> ulen (imag x) <= n -> costs (c_ibig_not_v x) (8 * n + 11) (fun _ => True).
Proof.
  intros O L. pose proof (ulen_pos _ (proj1 O)) as L1. unfold c_ibig_not_v. apply costs_bind_call. intros one E. rewrite one_is_word in E. injection E as <-.
  eapply costs_weaken; [eapply neg_res_costs; apply (add_one_costs x n O L)|cbn [Z.of_nat]; lia|auto].
Qed.
Lemma not_r_costs x n : ibig_ok x -> ulen (imag x) <= n -> costs (c_ibig_not_r x) (8 * n + 11) (fun _ => True).
Proof.
  intros O L. pose proof (ulen_pos _ (proj1 O)) as L1. unfold c_ibig_not_r. apply costs_bind_call. intros one E. rewrite one_is_word in E. injection E as <-.
  eapply costs_weaken; [eapply neg_res_costs; apply (one_add_costs x n O L)|cbn [Z.of_nat]; lia|auto].
Qed.

Lemma not_mag_len x u : ibig_ok x -> isign x = Negative -> ubig_ok u -> uval u = Z.lnot (ival x) -> 1 <= ulen u <= ulen (imag x).
Proof.
  intros [O _] S Ou V. apply ulen_val; auto. rewrite V. unfold ival, Z.lnot. rewrite S. cbn [sign_val]. lia.
Qed.

Lemma not_mag_v_costs x n : ibig_ok x -> isign x = Negative -> ulen (imag x) <= n -> costs (c_not_mag_v x) (8 * n + 11) (fun u => ubig_ok u /\ ulen u <= n).
Proof.
  intros O S L. apply (costs_known _ (not_mag_v x) _ (fun _ => True)); [apply not_mag_v_erase| |].
  - unfold c_not_mag_v. eapply costs_bind; [apply (not_v_costs x n O L)|]. intros y _. apply costs_ok; [lia|exact I].
  - intros u E. destruct (not_mag_v_spec x O S) as (v & F & Ov & V & _). rewrite F in E. injection E as <-. pose proof (not_mag_len x v O S Ov V). split; [auto|lia].
Qed.
Lemma not_mag_r_costs x n : ibig_ok x -> isign x = Negative -> ulen (imag x) <= n -> costs (c_not_mag_r x) (8 * n + 11) (fun u => ubig_ok u /\ ulen u <= n).
Proof.
  intros O S L. apply (costs_known _ (not_mag_r x) _ (fun _ => True)); [apply not_mag_r_erase| |].
  - unfold c_not_mag_r. eapply costs_bind; [apply (not_r_costs x n O L)|]. intros y _. apply costs_ok; [lia|exact I].
  - intros u E. destruct (not_mag_r_spec x O S) as (v & F & Ov & V & _). rewrite F in E. injection E as <-. pose proof (not_mag_len x v O S Ov V). split; [auto|lia].
Qed.

Lemma from_ubig_ok u : ubig_ok u -> ibig_ok (ibig_from_ubig u).
Proof. intros O. now apply ibig_from_ubig_spec. Qed.

Lemma not_of_costs m N n : costs m N (fun u => lens_below n u /\ ubig_ok u) -> costs (c_not_of m) (N + 8 * n + 11) (fun _ => True).
Proof.
  intros C. unfold c_not_of, c_ibig_of. eapply (costs_bind _ _ N _ (fun y => ibig_ok y /\ ulen (imag y) <= n)).
  - eapply costs_bind; [exact C|]. intros u [L O]. apply costs_ok; [lia|]. split; [now apply from_ubig_ok|]. unfold lens_below in L. cbn [ibig_from_ubig from_sign_magnitude imag]. lia.
  - intros y [O L]. eapply costs_weaken; [apply (not_v_costs y n O L)|lia|auto].
Qed.

Ltac mags := first [apply and_mags | apply or_mags | apply xor_mags | apply and_not_mags].
Ltac iop n := match goal with
  | |- costs (cbind (c_not_mag_v _) _) _ _ => eapply costs_bind; [apply (not_mag_v_costs _ n); auto|]; intros ? [? ?]; iop n
  | |- costs (cbind (c_not_mag_r _) _) _ _ => eapply costs_bind; [apply (not_mag_r_costs _ n); auto|]; intros ? [? ?]; iop n
  | |- costs (c_ibig_of _) _ _ => eapply costs_weaken; [eapply ibig_of_costs; mags; eassumption|lia|auto]
  | |- costs (c_not_of _) _ _ => eapply costs_weaken; [apply (not_of_costs _ (5 * n + 5) n); mags; assumption|lia|auto]
  end.
Ltac signs x y n := let Sx := fresh "Sx" in let Sy := fresh "Sy" in destruct (isign x) eqn:Sx, (isign y) eqn:Sy; iop n.

(** A signed bit operation. *)
Definition signed_op (c : ibig -> ibig -> counted ibig) : Prop := forall x y n, ibig_ok x -> ibig_ok y -> ulen (imag x) <= n -> ulen (imag y) <= n ->
  costs (c x y) (29 * n + 38) (fun _ => True).

Ltac sop := let x := fresh "x" in let y := fresh "y" in let n := fresh "n" in intros x y n Ox Oy Lx Ly; pose proof (ulen_pos _ (proj1 Ox)) as Px; pose proof (proj1 Ox) as Ux; pose proof (proj1 Oy) as Uy.

Lemma iand_ops : signed_op c_ibig_and_vv /\ signed_op c_ibig_and_vr /\ signed_op c_ibig_and_rr.
Proof.
  split; [|split]; sop.
  - unfold c_ibig_and_vv. signs x y n.
  - unfold c_ibig_and_vr. signs x y n.
  - unfold c_ibig_and_rr. signs x y n.
Qed.
Lemma ior_ops : signed_op c_ibig_or_vv /\ signed_op c_ibig_or_vr /\ signed_op c_ibig_or_rr.
Proof.
  split; [|split]; sop.
  - unfold c_ibig_or_vv. signs x y n.
  - unfold c_ibig_or_vr. signs x y n.
  - unfold c_ibig_or_rr. signs x y n.
Qed.
Lemma ixor_ops : signed_op c_ibig_xor_vv /\ signed_op c_ibig_xor_vr /\ signed_op c_ibig_xor_rr.
Proof.
  split; [|split]; sop.
  - unfold c_ibig_xor_vv. signs x y n.
  - unfold c_ibig_xor_vr. signs x y n.
  - unfold c_ibig_xor_rr. signs x y n.
Qed.
Lemma iand_not_ops : signed_op c_ibig_and_not_vv /\ signed_op c_ibig_and_not_vr /\ signed_op c_ibig_and_not_rv /\ signed_op c_ibig_and_not_rr.
Proof.
  split; [|split; [|split]]; sop.
  - unfold c_ibig_and_not_vv. signs x y n.
  - unfold c_ibig_and_not_vr. signs x y n.
  - unfold c_ibig_and_not_rv. signs x y n.
  - unfold c_ibig_and_not_rr. signs x y n.
Qed.
Lemma swapped_op c : signed_op c -> signed_op (fun x y => c y x).
Proof. intros C x y n Ox Oy Lx Ly. apply C; assumption. Qed.

End Signed.

Section Bytes.
Context {A : Arch} {AOK : ArchOk A}.

Lemma word_bytes_range : (2 <= WORD_BYTES <= 8)%nat /\ Z.of_nat WORD_BYTES = wbits / 8.
Proof. unfold WORD_BYTES. destruct AOK as [[->|[->| ->]] _]; vm_compute; repeat constructor. Qed.

Lemma chunks_costs (loop : nat -> list Z -> Buffer -> counted Buffer) (one : list Z -> res Z) (get_word rest : list Z -> list Z) (conv : list Z -> Z) :
  (forall fuel bytes b, loop fuel bytes b =
    if (length bytes <? WORD_BYTES)%nat then
      match bytes with
      | [] => free (Ok b)
      | _ => w <+ call WORD_BYTES (one bytes) ;; call 0 (push b w)
      end
    else
      match fuel with
      | O => free (Panic Internal)
      | S fuel => b <+ call WORD_BYTES (push b (conv (get_word bytes))) ;; loop fuel (rest bytes) b
      end) ->
  (forall bytes, (WORD_BYTES <= length bytes)%nat -> (length (rest bytes) = length bytes - WORD_BYTES)%nat) ->
  forall fuel bytes b, costs (loop fuel bytes b) (2 * Z.of_nat (length bytes) + 10)
    (fun b' => 2 * blen b' <= 2 * blen b + Z.of_nat (length bytes) + 2).
Proof.
  intros Eq Rest. destruct word_bytes_range as [W _].
  assert (Tail : forall bytes b, costs (match bytes with [] => free (Ok b) | _ => w <+ call WORD_BYTES (one bytes) ;; call 0 (push b w) end)
    (2 * Z.of_nat (length bytes) + 10) (fun b' => 2 * blen b' <= 2 * blen b + Z.of_nat (length bytes) + 2)).
  { intros [|x bytes] b; [apply costs_ok; cbn [length]; lia|]. apply costs_bind_call. intros w _.
    eapply costs_weaken; [apply costs_call|cbn [Z.of_nat length]; lia|]. intros b' E. apply push_words in E. unfold blen, len. rewrite E, app_length. cbn [length]. lia. }
  induction fuel as [|fuel IH]; intros bytes b; rewrite Eq; destruct (Nat.ltb_spec (length bytes) WORD_BYTES) as [C|C].
  - apply Tail.
  - apply costs_panic.
  - apply Tail.
  - apply costs_bind_call. intros b1 E1. apply push_words in E1. pose proof (Rest bytes C) as R.
    assert (L1 : blen b1 = blen b + 1) by (unfold blen, len; rewrite E1, app_length; cbn [length]; lia).
    eapply costs_weaken; [apply IH|rewrite R; lia|]. cbv beta. intros b' L. rewrite R in L. lia.
Qed.

Lemma le_chunks_costs fuel bytes b : costs (c_le_chunks fuel bytes b) (2 * Z.of_nat (length bytes) + 10)
  (fun b' => 2 * blen b' <= 2 * blen b + Z.of_nat (length bytes) + 2).
Proof.
  apply (chunks_costs c_le_chunks word_from_le_bytes_partial (firstn WORD_BYTES) (skipn WORD_BYTES) prim_from_le_bytes).
  - intros [|f] l b'; reflexivity.
  - intros l L. apply skipn_length.
Qed.
Lemma be_chunks_costs fuel bytes b : costs (c_be_chunks fuel bytes b) (2 * Z.of_nat (length bytes) + 10)
  (fun b' => 2 * blen b' <= 2 * blen b + Z.of_nat (length bytes) + 2).
Proof.
  apply (chunks_costs c_be_chunks word_from_be_bytes_partial (fun l => skipn (length l - WORD_BYTES) l) (fun l => firstn (length l - WORD_BYTES) l) prim_from_be_bytes).
  - intros [|f] l b'; reflexivity.
  - intros l L. rewrite firstn_length. lia.
Qed.

Lemma from_bytes_costs bytes :
  costs (c_from_le_bytes bytes) (3 * Z.of_nat (length bytes) + 14) (fun _ => True) /\
  costs (c_from_be_bytes bytes) (3 * Z.of_nat (length bytes) + 14) (fun _ => True).
Proof.
  destruct word_bytes_range as [W _]. unfold c_from_le_bytes, c_from_be_bytes, c_from_le_bytes_large, c_from_be_bytes_large.
  split; (destruct (length bytes <=? WORD_BYTES)%nat; [apply costs_bind_call; intros w _; apply costs_ok; [lia|exact I]|]);
    apply costs_bind_free; intros t _; apply costs_bind_call; intros b0 E0; apply allocate_words in E0;
    (assert (L0 : blen b0 = 0) by (unfold blen, len; now rewrite E0)).
  - eapply costs_bind; [apply le_chunks_costs|]. intros b1 L1. cbv beta in L1.
    eapply costs_weaken; [apply (from_buffer_costs b1 (Z.of_nat (length bytes) + 3)); lia|cbn [Z.of_nat]; lia|auto].
  - eapply costs_bind; [apply be_chunks_costs|]. intros b1 L1. cbv beta in L1.
    eapply costs_weaken; [apply (from_buffer_costs b1 (Z.of_nat (length bytes) + 3)); lia|cbn [Z.of_nat]; lia|auto].
Qed.

Lemma words_bytes_costs f ws : costs (c_words_bytes f ws) ((wbits / 8 + 1) * len ws) (fun _ => True).
Proof.
  destruct word_bytes_range as [W WE]. induction ws as [|w ws IH]; cbn [c_words_bytes]; [apply costs_ok; [unfold len; cbn; lia|exact I]|].
  apply costs_bind_call. intros h _. assert (L : len (w :: ws) = len ws + 1) by (unfold len; cbn [length]; lia). rewrite L.
  eapply costs_bind; [exact IH|]. intros r _. apply costs_ok; [lia|exact I].
Qed.

Lemma to_bytes_costs u : 1 <= ulen u ->
  costs (c_to_le_bytes u) ((wbits / 8 + 1) * ulen u) (fun _ => True) /\ costs (c_to_be_bytes u) ((wbits / 8 + 1) * ulen u) (fun _ => True).
Proof.
  intros L. destruct word_bytes_range as [W WE]. unfold c_to_le_bytes, c_to_be_bytes. destruct u as [x|b]; cbn [ulen] in *.
  - split; (eapply costs_weaken; [apply costs_call|lia|auto]).
  - cbv zeta. split; apply costs_bind_free; intros l _; apply costs_bind_free; intros i E; apply slice_to_len in E; apply costs_bind_call; intros lb _;
      (eapply costs_bind; [apply words_bytes_costs|]; intros bs _; apply costs_ok; [|exact I]).
    + unfold blen, len in *. nia.
    + unfold blen, len in *. rewrite rev_length. nia.
Qed.

Lemma chunks_nn fuel : forall bytes b, 0 <= fst (c_le_chunks fuel bytes b) /\ 0 <= fst (c_be_chunks fuel bytes b).
Proof.
  induction fuel as [|fuel IH]; intros bytes b; cbn [c_le_chunks c_be_chunks].
  - split; onn.
  - assert (H1 : forall l b, 0 <= fst (c_le_chunks fuel l b)) by (intros; apply IH). assert (H2 : forall l b, 0 <= fst (c_be_chunks fuel l b)) by (intros; apply IH).
    clear IH. split; destruct (_ <? _)%nat; try (destruct bytes; onn); onn.
Qed.
Lemma from_bytes_nn bytes : 0 <= fst (c_from_le_bytes bytes) /\ 0 <= fst (c_from_be_bytes bytes).
Proof.
  assert (H1 : forall f l b, 0 <= fst (c_le_chunks f l b)) by (intros; apply chunks_nn). assert (H2 : forall f l b, 0 <= fst (c_be_chunks f l b)) by (intros; apply chunks_nn).
  unfold c_from_le_bytes, c_from_be_bytes, c_from_le_bytes_large, c_from_be_bytes_large, c_from_buffer. split; onn.
Qed.
Lemma words_bytes_nn f ws : 0 <= fst (c_words_bytes f ws).
Proof. induction ws as [|w ws IH]; cbn [c_words_bytes]; [apply nn_free|]. apply nn_bind; [apply nn_call|]. intros. apply nn_bind; [exact IH|]. intros. apply nn_free. Qed.
Lemma to_bytes_nn u : 0 <= fst (c_to_le_bytes u) /\ 0 <= fst (c_to_be_bytes u).
Proof. pose proof words_bytes_nn. unfold c_to_le_bytes, c_to_be_bytes. cbv zeta. split; onn. Qed.

End Bytes.
