(** The number of steps of bit operations and of conversions to and from bytes. *)
From Coq Require Import Lia.
From Verif Require Import Model.Base Model.Words Model.Add Model.Memory Model.Buffer Model.UBig Model.IBig
  Model.Convert Model.AddOps Model.MulOps Model.Bits Model.Cost Model.CostDiv Model.CostOps Model.CostGcd Model.CostInverse Model.CostBits Spec.Val Spec.Num.
From Verif Require Import Proofs.Basics Proofs.CostProofs Proofs.CostBounds Proofs.CostTheorems Proofs.CostRates Proofs.CostDivProofs
  Proofs.CostOpsProofs Proofs.CostOpsBounds Proofs.CostDivOps Proofs.CostGcdProofs Proofs.CostGcdSteps Proofs.CostGcdTheorems
  Proofs.CostInverseProofs Proofs.CostBitsProofs Proofs.CostBitsSteps Proofs.CostBitsTheorems.

Section Api.
Context {A : Arch} {AOK : ArchOk A}.

Lemma ibig_of_nn m : 0 <= fst m -> 0 <= fst (c_ibig_of m).
Proof. intros H. apply nn_bind; [exact H|]. intros. apply nn_free. Qed.
Lemma neg_res_nn m : 0 <= fst m -> 0 <= fst (c_neg_res m).
Proof. intros H. apply nn_bind; [exact H|]. intros. apply nn_free. Qed.
Lemma not_nn x : 0 <= fst (c_ibig_not_v x) /\ 0 <= fst (c_ibig_not_r x).
Proof.
  unfold c_ibig_not_v, c_ibig_not_r, c_ibig_add_rv, c_ibig_add_vr, c_ibig_add_vv, c_sub_ubig_val_val, c_sub_ubig_val_ref, c_buffer_clone, c_neg_res, c_ibig_of.
  pose proof add_vv_nn. pose proof add_vr_nn. pose proof isub_large_word_nn. pose proof isub_large_nn. split; onn.
Qed.
Lemma not_mag_nn x : 0 <= fst (c_not_mag_v x) /\ 0 <= fst (c_not_mag_r x).
Proof. unfold c_not_mag_v, c_not_mag_r. split; (apply nn_bind; [apply not_nn|]; intros; apply nn_free). Qed.
Lemma not_of_nn m : 0 <= fst m -> 0 <= fst (c_not_of m).
Proof. intros H. apply nn_bind; [now apply ibig_of_nn|]. intros. apply not_nn. Qed.

Ltac inn1 := first [ apply ibig_of_nn | apply not_of_nn | apply nn_bind; [apply not_mag_nn|intros ?]
  | apply and_nn | apply or_nn | apply xor_nn | apply and_not_nn ].
Ltac inn := match goal with |- context [isign ?x] => destruct (isign x) end; match goal with |- context [isign ?x] => destruct (isign x) end; repeat inn1.

Lemma iand_nn x y : 0 <= fst (c_ibig_and_vv x y) /\ 0 <= fst (c_ibig_and_vr x y) /\ 0 <= fst (c_ibig_and_rr x y).
Proof. unfold c_ibig_and_vv, c_ibig_and_vr, c_ibig_and_rr. split; [|split]; inn. Qed.
Lemma ior_nn x y : 0 <= fst (c_ibig_or_vv x y) /\ 0 <= fst (c_ibig_or_vr x y) /\ 0 <= fst (c_ibig_or_rr x y).
Proof. unfold c_ibig_or_vv, c_ibig_or_vr, c_ibig_or_rr. split; [|split]; inn. Qed.
Lemma ixor_nn x y : 0 <= fst (c_ibig_xor_vv x y) /\ 0 <= fst (c_ibig_xor_vr x y) /\ 0 <= fst (c_ibig_xor_rr x y).
Proof. unfold c_ibig_xor_vv, c_ibig_xor_vr, c_ibig_xor_rr. split; [|split]; inn. Qed.
Lemma iand_not_nn x y : 0 <= fst (c_ibig_and_not_vv x y) /\ 0 <= fst (c_ibig_and_not_vr x y) /\ 0 <= fst (c_ibig_and_not_rv x y) /\ 0 <= fst (c_ibig_and_not_rr x y).
Proof. unfold c_ibig_and_not_vv, c_ibig_and_not_vr, c_ibig_and_not_rv, c_ibig_and_not_rr. split; [|split; [|split]]; inn. Qed.

(** What a theorem about an operation says. *)
Lemma conclude {T} (m : counted T) (r : res T) N P k x : snd m = r -> 0 <= fst m -> costs m N P -> m = (k, Ok x) -> r = Ok x /\ 0 <= k <= N.
Proof. intros E NN C ->. cbn [fst snd] in *. split; [auto|]. split; [exact NN|]. apply (C x eq_refl). Qed.

Ltac each F tac := match type of F with
  | False => destruct F
  | _ => let G := fresh in destruct F as [G|F]; [injection G as <- <-; tac|each F tac] end.

Theorem unsigned_same (f : ubig -> ubig -> counted ubig) (g : ubig -> ubig -> res ubig) a b :
  In (f, g) [(c_ubig_and_vv, ubig_and_vv); (c_ubig_and_vr, ubig_and_vr); (c_ubig_and_rv, ubig_and_rv); (c_ubig_and_rr, ubig_and_rr);
             (c_ubig_or_vv, ubig_or_vv); (c_ubig_or_vr, ubig_or_vr); (c_ubig_or_rv, ubig_or_rv); (c_ubig_or_rr, ubig_or_rr);
             (c_ubig_xor_vv, ubig_xor_vv); (c_ubig_xor_vr, ubig_xor_vr); (c_ubig_xor_rv, ubig_xor_rv); (c_ubig_xor_rr, ubig_xor_rr);
             (c_ubig_and_not_vv, ubig_and_not_vv); (c_ubig_and_not_vr, ubig_and_not_vr); (c_ubig_and_not_rv, ubig_and_not_rv); (c_ubig_and_not_rr, ubig_and_not_rr)] ->
  snd (f a b) = g a b.
Proof.
  cbn [In]. intros F. each F ltac:(first [apply and_vv_erase | apply and_vr_erase | apply and_rv_erase | apply and_rr_erase | apply or_vv_erase | apply or_vr_erase | apply or_rv_erase | apply or_rr_erase
    | apply xor_vv_erase | apply xor_vr_erase | apply xor_rv_erase | apply xor_rr_erase | apply and_not_vv_erase | apply and_not_vr_erase | apply and_not_rv_erase | apply and_not_rr_erase]).
Qed.

Theorem signed_same (f : ibig -> ibig -> counted ibig) (g : ibig -> ibig -> res ibig) x y :
  In (f, g) [(c_ibig_and_vv, ibig_and_vv); (c_ibig_and_vr, ibig_and_vr); (c_ibig_and_rv, ibig_and_rv); (c_ibig_and_rr, ibig_and_rr);
             (c_ibig_or_vv, ibig_or_vv); (c_ibig_or_vr, ibig_or_vr); (c_ibig_or_rv, ibig_or_rv); (c_ibig_or_rr, ibig_or_rr);
             (c_ibig_xor_vv, ibig_xor_vv); (c_ibig_xor_vr, ibig_xor_vr); (c_ibig_xor_rv, ibig_xor_rv); (c_ibig_xor_rr, ibig_xor_rr);
             (c_ibig_and_not_vv, ibig_and_not_vv); (c_ibig_and_not_vr, ibig_and_not_vr); (c_ibig_and_not_rv, ibig_and_not_rv); (c_ibig_and_not_rr, ibig_and_not_rr)] ->
  snd (f x y) = g x y.
Proof.
  cbn [In]. intros F. each F ltac:(first [apply iand_vv_erase | apply iand_vr_erase | apply iand_rv_erase | apply iand_rr_erase | apply ior_vv_erase | apply ior_vr_erase | apply ior_rv_erase | apply ior_rr_erase
    | apply ixor_vv_erase | apply ixor_vr_erase | apply ixor_rv_erase | apply ixor_rr_erase | apply iand_not_vv_erase | apply iand_not_vr_erase | apply iand_not_rv_erase | apply iand_not_rr_erase]).
Qed.

Theorem and_steps (f : ubig -> ubig -> counted ubig) (g : ubig -> ubig -> res ubig) a b k x :
  In (f, g) [(c_ubig_and_vv, ubig_and_vv); (c_ubig_and_vr, ubig_and_vr); (c_ubig_and_rv, ubig_and_rv); (c_ubig_and_rr, ubig_and_rr)] ->
  1 <= ulen a -> 1 <= ulen b -> f a b = (k, Ok x) -> g a b = Ok x /\ 0 <= k <= 8 * Z.min (ulen a) (ulen b).
Proof.
  intros F La Lb E. assert (S : snd (f a b) = g a b) by (apply unsigned_same; cbn [In] in *; tauto).
  destruct (and_costs a b La Lb) as (C1 & C2 & C3 & C4). destruct (and_nn a b) as (N1 & N2 & N3 & N4).
  cut (g a b = Ok x /\ 0 <= k <= 4 * Z.min (ulen a) (ulen b) + 4); [intros [? ?]; split; [assumption|lia]|].
  cbn [In] in F. each F ltac:(eapply conclude; [exact S|assumption|eassumption|exact E]).
Qed.

Theorem or_steps (f : ubig -> ubig -> counted ubig) (g : ubig -> ubig -> res ubig) a b k x :
  In (f, g) [(c_ubig_or_vv, ubig_or_vv); (c_ubig_or_vr, ubig_or_vr); (c_ubig_or_rv, ubig_or_rv); (c_ubig_or_rr, ubig_or_rr);
             (c_ubig_xor_vv, ubig_xor_vv); (c_ubig_xor_vr, ubig_xor_vr); (c_ubig_xor_rv, ubig_xor_rv); (c_ubig_xor_rr, ubig_xor_rr)] ->
  1 <= ulen a -> 1 <= ulen b -> f a b = (k, Ok x) -> g a b = Ok x /\ 0 <= k <= 10 * Z.max (ulen a) (ulen b).
Proof.
  intros F La Lb E. assert (S : snd (f a b) = g a b) by (apply unsigned_same; cbn [In] in *; tauto).
  destruct (or_costs a b (Z.max (ulen a) (ulen b))) as (C1 & C2 & C3 & C4); [lia|lia|lia|]. destruct (or_nn a b) as (N1 & N2 & N3 & N4).
  destruct (xor_costs a b (Z.max (ulen a) (ulen b))) as (D1 & D2 & D3 & D4); [lia|lia|lia|]. destruct (xor_nn a b) as (M1 & M2 & M3 & M4).
  cut (g a b = Ok x /\ 0 <= k <= 5 * Z.max (ulen a) (ulen b) + 5); [intros [? ?]; split; [assumption|lia]|].
  cbn [In] in F. each F ltac:(eapply conclude; [exact S|assumption|eassumption|exact E]).
Qed.

Theorem and_not_steps (f : ubig -> ubig -> counted ubig) (g : ubig -> ubig -> res ubig) a b k x :
  In (f, g) [(c_ubig_and_not_vv, ubig_and_not_vv); (c_ubig_and_not_vr, ubig_and_not_vr); (c_ubig_and_not_rv, ubig_and_not_rv); (c_ubig_and_not_rr, ubig_and_not_rr)] ->
  1 <= ulen a -> f a b = (k, Ok x) -> g a b = Ok x /\ 0 <= k <= 7 * ulen a.
Proof.
  intros F La E. assert (S : snd (f a b) = g a b) by (apply unsigned_same; cbn [In] in *; tauto).
  destruct (and_not_costs a b (ulen a)) as (C1 & C2 & C3 & C4); [lia|lia|]. destruct (and_not_nn a b) as (N1 & N2 & N3 & N4).
  cut (g a b = Ok x /\ 0 <= k <= 4 * ulen a + 3); [intros [? ?]; split; [assumption|lia]|].
  cbn [In] in F. each F ltac:(eapply conclude; [exact S|assumption|eassumption|exact E]).
Qed.

Theorem signed_steps (f : ibig -> ibig -> counted ibig) (g : ibig -> ibig -> res ibig) x y k z :
  In (f, g) [(c_ibig_and_vv, ibig_and_vv); (c_ibig_and_vr, ibig_and_vr); (c_ibig_and_rv, ibig_and_rv); (c_ibig_and_rr, ibig_and_rr);
             (c_ibig_or_vv, ibig_or_vv); (c_ibig_or_vr, ibig_or_vr); (c_ibig_or_rv, ibig_or_rv); (c_ibig_or_rr, ibig_or_rr);
             (c_ibig_xor_vv, ibig_xor_vv); (c_ibig_xor_vr, ibig_xor_vr); (c_ibig_xor_rv, ibig_xor_rv); (c_ibig_xor_rr, ibig_xor_rr);
             (c_ibig_and_not_vv, ibig_and_not_vv); (c_ibig_and_not_vr, ibig_and_not_vr); (c_ibig_and_not_rv, ibig_and_not_rv); (c_ibig_and_not_rr, ibig_and_not_rr)] ->
  ibig_ok x -> ibig_ok y -> f x y = (k, Ok z) -> g x y = Ok z /\ 0 <= k <= 67 * Z.max (ulen (imag x)) (ulen (imag y)).
Proof.
  intros F Ox Oy E. pose proof (signed_same f g x y F) as S. pose proof (ulen_pos _ (proj1 Ox)) as Lx. pose proof (ulen_pos _ (proj1 Oy)) as Ly.
  cut (0 <= fst (f x y) /\ costs (f x y) (29 * Z.max (ulen (imag x)) (ulen (imag y)) + 38) (fun _ => True)).
  { intros [NN C]. destruct (conclude _ _ _ _ _ _ S NN C E) as [? ?]. split; [assumption|lia]. }
  clear E S. cbn [In] in F. each F ltac:(split; [first [apply iand_nn | apply ior_nn | apply ixor_nn | apply iand_not_nn]|first [apply iand_ops | apply ior_ops | apply ixor_ops | apply iand_not_ops]; auto; lia]).
Qed.

Theorem not_steps (f : ibig -> counted ibig) (g : ibig -> res ibig) x k z : In (f, g) [(c_ibig_not_v, ibig_not_v); (c_ibig_not_r, ibig_not_r)] ->
  ibig_ok x -> f x = (k, Ok z) -> g x = Ok z /\ 0 <= k <= 19 * ulen (imag x).
Proof.
  intros F Ox E. pose proof (ulen_pos _ (proj1 Ox)) as Lx. cut (g x = Ok z /\ 0 <= k <= 8 * ulen (imag x) + 11); [intros [? ?]; split; [assumption|lia]|].
  destruct (not_nn x) as [N1 N2]. pose proof (inot_v_erase x). pose proof (inot_r_erase x).
  cbn [In] in F. each F ltac:(eapply conclude; [eassumption|assumption|first [apply not_v_costs | apply not_r_costs]; auto; lia|exact E]).
Qed.

Theorem set_bit_steps u n k x : 1 <= ulen u -> 0 <= n -> c_set_bit u n = (k, Ok x) -> set_bit u n = Ok x /\ 0 <= k <= 2 * ulen u + 3 * (n / wbits) + 6.
Proof. intros L N. apply (conclude _ _ _ _ _ _ (set_bit_erase u n) (set_bit_nn u n) (set_bit_costs u n L N)). Qed.

Theorem clear_bit_steps u n k x : 1 <= ulen u -> c_clear_bit u n = (k, Ok x) -> clear_bit u n = Ok x /\ 0 <= k <= 2 * ulen u + 1.
Proof. intros L. apply (conclude _ _ _ _ _ _ (clear_bit_erase u n) (clear_bit_nn u n) (clear_bit_costs u n L)). Qed.

Theorem is_power_steps u k x : 1 <= ulen u -> c_is_power_of_two u = (k, Ok x) -> is_power_of_two u = Ok x /\ 0 <= k <= ulen u.
Proof. intros L. apply (conclude _ _ _ _ _ _ (is_power_erase u) (is_power_nn u) (is_power_costs u L)). Qed.

Theorem next_power_steps (f : ubig -> counted ubig) (g : ubig -> res ubig) u k x :
  In (f, g) [(c_next_power_of_two_v, next_power_of_two_v); (c_next_power_of_two_r, next_power_of_two_r)] ->
  1 <= ulen u -> f u = (k, Ok x) -> g u = Ok x /\ 0 <= k <= 12 * ulen u.
Proof.
  intros F L E. cut (g u = Ok x /\ 0 <= k <= 5 * ulen u + 7); [intros [? ?]; split; [assumption|lia]|]. cbn [In] in F. destruct F as [F|[F|[]]]; injection F as <- <-.
  - assert (C : costs (c_next_power_of_two_v u) (5 * ulen u + 7) (fun _ => True)) by (eapply costs_weaken; [apply (next_power_costs u (ulen u)); lia|lia|auto]).
    apply (conclude _ _ _ _ _ _ (next_power_erase u) (next_power_nn u) C E).
  - assert (C : costs (c_next_power_of_two_r u) (5 * ulen u + 7) (fun _ => True)) by (apply next_power_r_costs; lia).
    apply (conclude _ _ _ _ _ _ (next_power_r_erase u) (next_power_r_nn u) C E).
Qed.

Theorem from_bytes_steps (f : list Z -> counted ubig) (g : list Z -> res ubig) bytes k x :
  In (f, g) [(c_from_le_bytes, from_le_bytes); (c_from_be_bytes, from_be_bytes)] ->
  f bytes = (k, Ok x) -> g bytes = Ok x /\ 0 <= k <= 3 * Z.of_nat (length bytes) + 14.
Proof.
  intros F E. destruct (from_bytes_costs bytes) as [C1 C2]. destruct (from_bytes_nn bytes) as [N1 N2]. pose proof (from_le_erase bytes). pose proof (from_be_erase bytes).
  cbn [In] in F. each F ltac:(eapply conclude; [eassumption|assumption|eassumption|exact E]).
Qed.

Theorem to_bytes_steps (f : ubig -> counted (list Z)) (g : ubig -> res (list Z)) u k x :
  In (f, g) [(c_to_le_bytes, to_le_bytes); (c_to_be_bytes, to_be_bytes)] ->
  1 <= ulen u -> f u = (k, Ok x) -> g u = Ok x /\ 0 <= k <= (wbits / 8 + 1) * ulen u.
Proof.
  intros F L E. destruct (to_bytes_costs u L) as [C1 C2]. destruct (to_bytes_nn u) as [N1 N2]. pose proof (to_le_erase u). pose proof (to_be_erase u).
  cbn [In] in F. each F ltac:(eapply conclude; [eassumption|assumption|eassumption|exact E]).
Qed.

Theorem others_same u n bytes :
  snd (c_set_bit u n) = set_bit u n /\ snd (c_clear_bit u n) = clear_bit u n /\ snd (c_is_power_of_two u) = is_power_of_two u /\
  snd (c_next_power_of_two_v u) = next_power_of_two_v u /\ snd (c_next_power_of_two_r u) = next_power_of_two_r u /\
  snd (c_from_le_bytes bytes) = from_le_bytes bytes /\ snd (c_from_be_bytes bytes) = from_be_bytes bytes /\
  snd (c_to_le_bytes u) = to_le_bytes u /\ snd (c_to_be_bytes u) = to_be_bytes u.
Proof.
  split; [apply set_bit_erase|]. split; [apply clear_bit_erase|]. split; [apply is_power_erase|]. split; [apply next_power_erase|]. split; [apply next_power_r_erase|].
  split; [apply from_le_erase|]. split; [apply from_be_erase|]. split; [apply to_le_erase|]. apply to_be_erase.
Qed.

End Api.
