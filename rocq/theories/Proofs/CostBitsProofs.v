(** Bit operations and conversions to and from bytes take linear time (Model/CostBits.v). *)
From Coq Require Import Lia.
From Verif Require Import Model.Base Model.Words Model.Add Model.Memory Model.Buffer Model.UBig Model.IBig
  Model.Convert Model.AddOps Model.MulOps Model.Bits Model.Cost Model.CostDiv Model.CostOps Model.CostGcd Model.CostInverse Model.CostBits Spec.Val Spec.Num.
From Verif Require Import Proofs.Basics Proofs.CostProofs Proofs.CostBounds Proofs.CostTheorems Proofs.CostRates Proofs.CostDivProofs
  Proofs.CostOpsProofs Proofs.CostOpsBounds Proofs.CostDivOps Proofs.CostGcdProofs Proofs.CostGcdSteps Proofs.CostGcdTheorems
  Proofs.CostInverseProofs Proofs.BitsProofs.

Section Erase.
Context {A : Arch}.

Lemma zip_erase {T} f b rhs (k : Buffer -> counted T) :
  snd (cbind (c_zip_words f b rhs) k) = snd (k (mkBuffer (zip_words f (words b) rhs) (cap b))).
Proof. rewrite snd_cbind. reflexivity. Qed.

Lemma set_bit_erase u n : snd (c_set_bit u n) = set_bit u n.
Proof. unfold c_set_bit, set_bit, c_with_bit_word_slow, with_bit_word_slow, c_with_bit_large, with_bit_large, c_from_buffer. cbv zeta. oer. Qed.
Lemma clear_bit_erase u n : snd (c_clear_bit u n) = clear_bit u n.
Proof. unfold c_clear_bit, clear_bit, c_without_bit_large, without_bit_large, c_from_buffer. cbv zeta. oer. Qed.
Lemma is_power_erase u : snd (c_is_power_of_two u) = is_power_of_two u.
Proof. unfold c_is_power_of_two, is_power_of_two, c_is_power_of_two_large, is_power_of_two_large. oer. Qed.
Lemma next_power_erase u : snd (c_next_power_of_two_v u) = next_power_of_two_v u.
Proof. unfold c_next_power_of_two_v, next_power_of_two_v, c_next_power_of_two_large, next_power_of_two_large, c_from_buffer. cbv zeta. oer. Qed.
Lemma next_power_r_erase u : snd (c_next_power_of_two_r u) = next_power_of_two_r u.
Proof. unfold c_next_power_of_two_r, next_power_of_two_r, c_ubig_clone. pose proof next_power_erase. oer. Qed.

Lemma bitand_erase b r : snd (c_bitand_large b r) = bitand_large b r.
Proof. unfold c_bitand_large, bitand_large. rewrite snd_cbind. apply bind_ext; [oer|]. intros b'. rewrite zip_erase. reflexivity. Qed.
Lemma bitor_word_erase b r : snd (c_bitor_large_word b r) = bitor_large_word b r.
Proof. unfold c_bitor_large_word, bitor_large_word, c_from_buffer. oer. Qed.
Lemma bitor_erase b r : snd (c_bitor_large b r) = bitor_large b r.
Proof. unfold c_bitor_large, bitor_large, c_from_buffer. cbv zeta. rewrite zip_erase. oer. Qed.
Lemma bitxor_word_erase b r : snd (c_bitxor_large_word b r) = bitxor_large_word b r.
Proof. unfold c_bitxor_large_word, bitxor_large_word, c_from_buffer. oer. Qed.
Lemma bitxor_erase b r : snd (c_bitxor_large b r) = bitxor_large b r.
Proof. unfold c_bitxor_large, bitxor_large, c_from_buffer. cbv zeta. rewrite zip_erase. oer. Qed.
Lemma and_not_word_erase b r : snd (c_and_not_large_word b r) = and_not_large_word b r.
Proof. unfold c_and_not_large_word, and_not_large_word, c_from_buffer. oer. Qed.
Lemma and_not_erase b r : snd (c_and_not_large b r) = and_not_large b r.
Proof. unfold c_and_not_large, and_not_large. rewrite zip_erase. reflexivity. Qed.

Ltac ubits L1 L2 := unfold c_buffer_clone; pose proof L1; pose proof L2;
  match goal with |- context [match ?a with Small _ => _ | Large _ => _ end] => destruct a end;
  match goal with |- context [match ?a with Small _ => _ | Large _ => _ end] => destruct a end; first [reflexivity | oer].

Lemma and_vv_erase a b : snd (c_ubig_and_vv a b) = ubig_and_vv a b. Proof. unfold c_ubig_and_vv, ubig_and_vv. ubits bitand_erase bitand_erase. Qed.
Lemma and_vr_erase a b : snd (c_ubig_and_vr a b) = ubig_and_vr a b. Proof. unfold c_ubig_and_vr, ubig_and_vr. ubits bitand_erase bitand_erase. Qed.
Lemma and_rv_erase a b : snd (c_ubig_and_rv a b) = ubig_and_rv a b. Proof. apply and_vr_erase. Qed.
Lemma and_rr_erase a b : snd (c_ubig_and_rr a b) = ubig_and_rr a b. Proof. unfold c_ubig_and_rr, ubig_and_rr. ubits bitand_erase bitand_erase. Qed.
Lemma or_vv_erase a b : snd (c_ubig_or_vv a b) = ubig_or_vv a b. Proof. unfold c_ubig_or_vv, ubig_or_vv. ubits bitor_word_erase bitor_erase. Qed.
Lemma or_vr_erase a b : snd (c_ubig_or_vr a b) = ubig_or_vr a b. Proof. unfold c_ubig_or_vr, ubig_or_vr. ubits bitor_word_erase bitor_erase. Qed.
Lemma or_rv_erase a b : snd (c_ubig_or_rv a b) = ubig_or_rv a b. Proof. apply or_vr_erase. Qed.
Lemma or_rr_erase a b : snd (c_ubig_or_rr a b) = ubig_or_rr a b. Proof. unfold c_ubig_or_rr, ubig_or_rr. ubits bitor_word_erase bitor_erase. Qed.
Lemma xor_vv_erase a b : snd (c_ubig_xor_vv a b) = ubig_xor_vv a b. Proof. unfold c_ubig_xor_vv, ubig_xor_vv. ubits bitxor_word_erase bitxor_erase. Qed.
Lemma xor_vr_erase a b : snd (c_ubig_xor_vr a b) = ubig_xor_vr a b. Proof. unfold c_ubig_xor_vr, ubig_xor_vr. ubits bitxor_word_erase bitxor_erase. Qed.
Lemma xor_rv_erase a b : snd (c_ubig_xor_rv a b) = ubig_xor_rv a b. Proof. apply xor_vr_erase. Qed.
Lemma xor_rr_erase a b : snd (c_ubig_xor_rr a b) = ubig_xor_rr a b. Proof. unfold c_ubig_xor_rr, ubig_xor_rr. ubits bitxor_word_erase bitxor_erase. Qed.
Lemma and_not_vv_erase a b : snd (c_ubig_and_not_vv a b) = ubig_and_not_vv a b. Proof. unfold c_ubig_and_not_vv, ubig_and_not_vv. ubits and_not_word_erase and_not_erase. Qed.
Lemma and_not_vr_erase a b : snd (c_ubig_and_not_vr a b) = ubig_and_not_vr a b. Proof. unfold c_ubig_and_not_vr, ubig_and_not_vr. ubits and_not_word_erase and_not_erase. Qed.
Lemma and_not_rv_erase a b : snd (c_ubig_and_not_rv a b) = ubig_and_not_rv a b. Proof. unfold c_ubig_and_not_rv, ubig_and_not_rv. ubits and_not_word_erase and_not_erase. Qed.
Lemma and_not_rr_erase a b : snd (c_ubig_and_not_rr a b) = ubig_and_not_rr a b. Proof. unfold c_ubig_and_not_rr, ubig_and_not_rr. ubits and_not_word_erase and_not_erase. Qed.

Lemma ibig_of_erase m r : snd m = r -> snd (c_ibig_of m) = ibig_of r.
Proof. intros <-. unfold c_ibig_of, ibig_of. rewrite snd_cbind. reflexivity. Qed.
Lemma neg_res_erase m r : snd m = r -> snd (c_neg_res m) = neg_res r.
Proof. intros <-. unfold c_neg_res, neg_res. rewrite snd_cbind. reflexivity. Qed.
Lemma sub_val_ref_erase a b : snd (c_sub_ubig_val_ref a b) = sub_ubig_val_ref a b.
Proof.
  unfold c_sub_ubig_val_ref, sub_ubig_val_ref, c_buffer_clone. destruct a, b; try reflexivity.
  - rewrite snd_cbind. apply bind_ext; [reflexivity|]. intros. apply neg_res_erase, isub_large_word_erase.
  - apply isub_large_word_erase.
  - apply isub_large_erase.
Qed.
Lemma iadd_vr_erase x y : snd (c_ibig_add_vr x y) = ibig_add_vr x y.
Proof.
  unfold c_ibig_add_vr, ibig_add_vr. destruct (isign x), (isign y).
  - apply ibig_of_erase, add_vr_erase.
  - apply sub_val_ref_erase.
  - apply neg_res_erase, sub_val_ref_erase.
  - apply neg_res_erase, ibig_of_erase, add_vr_erase.
Qed.
Lemma inot_v_erase x : snd (c_ibig_not_v x) = ibig_not_v x.
Proof. unfold c_ibig_not_v, ibig_not_v. rewrite snd_cbind. apply bind_ext; [reflexivity|]. intros. apply neg_res_erase, iadd_erase. Qed.
Lemma inot_r_erase x : snd (c_ibig_not_r x) = ibig_not_r x.
Proof. unfold c_ibig_not_r, ibig_not_r. rewrite snd_cbind. apply bind_ext; [reflexivity|]. intros. apply neg_res_erase, iadd_vr_erase. Qed.
Lemma not_mag_v_erase x : snd (c_not_mag_v x) = not_mag_v x.
Proof. unfold c_not_mag_v, not_mag_v. rewrite snd_cbind, inot_v_erase. reflexivity. Qed.
Lemma not_mag_r_erase x : snd (c_not_mag_r x) = not_mag_r x.
Proof. unfold c_not_mag_r, not_mag_r. rewrite snd_cbind, inot_r_erase. reflexivity. Qed.
Lemma not_of_erase m r : snd m = r -> snd (c_not_of m) = not_of r.
Proof. intros E. unfold c_not_of, not_of. rewrite snd_cbind, (ibig_of_erase _ _ E). apply bind_ext; [reflexivity|]. intros. apply inot_v_erase. Qed.

Ltac isteps := repeat first
  [ apply ibig_of_erase | apply not_of_erase
  | rewrite snd_cbind; apply bind_ext; [first [apply not_mag_v_erase | apply not_mag_r_erase]|intros ?] ].
Ltac ibits := match goal with |- context [isign ?x] => destruct (isign x) end; match goal with |- context [isign ?x] => destruct (isign x) end; isteps;
  first [apply and_vv_erase | apply and_vr_erase | apply and_rv_erase | apply and_rr_erase | apply or_vv_erase | apply or_vr_erase | apply or_rv_erase | apply or_rr_erase
    | apply xor_vv_erase | apply xor_vr_erase | apply xor_rv_erase | apply xor_rr_erase | apply and_not_vv_erase | apply and_not_vr_erase | apply and_not_rv_erase | apply and_not_rr_erase].

Lemma iand_vv_erase x y : snd (c_ibig_and_vv x y) = ibig_and_vv x y. Proof. unfold c_ibig_and_vv, ibig_and_vv. ibits. Qed.
Lemma iand_vr_erase x y : snd (c_ibig_and_vr x y) = ibig_and_vr x y. Proof. unfold c_ibig_and_vr, ibig_and_vr. ibits. Qed.
Lemma iand_rv_erase x y : snd (c_ibig_and_rv x y) = ibig_and_rv x y. Proof. apply iand_vr_erase. Qed.
Lemma iand_rr_erase x y : snd (c_ibig_and_rr x y) = ibig_and_rr x y. Proof. unfold c_ibig_and_rr, ibig_and_rr. ibits. Qed.
Lemma ior_vv_erase x y : snd (c_ibig_or_vv x y) = ibig_or_vv x y. Proof. unfold c_ibig_or_vv, ibig_or_vv. ibits. Qed.
Lemma ior_vr_erase x y : snd (c_ibig_or_vr x y) = ibig_or_vr x y. Proof. unfold c_ibig_or_vr, ibig_or_vr. ibits. Qed.
Lemma ior_rv_erase x y : snd (c_ibig_or_rv x y) = ibig_or_rv x y. Proof. apply ior_vr_erase. Qed.
Lemma ior_rr_erase x y : snd (c_ibig_or_rr x y) = ibig_or_rr x y. Proof. unfold c_ibig_or_rr, ibig_or_rr. ibits. Qed.
Lemma ixor_vv_erase x y : snd (c_ibig_xor_vv x y) = ibig_xor_vv x y. Proof. unfold c_ibig_xor_vv, ibig_xor_vv. ibits. Qed.
Lemma ixor_vr_erase x y : snd (c_ibig_xor_vr x y) = ibig_xor_vr x y. Proof. unfold c_ibig_xor_vr, ibig_xor_vr. ibits. Qed.
Lemma ixor_rv_erase x y : snd (c_ibig_xor_rv x y) = ibig_xor_rv x y. Proof. apply ixor_vr_erase. Qed.
Lemma ixor_rr_erase x y : snd (c_ibig_xor_rr x y) = ibig_xor_rr x y. Proof. unfold c_ibig_xor_rr, ibig_xor_rr. ibits. Qed.
Lemma iand_not_vv_erase x y : snd (c_ibig_and_not_vv x y) = ibig_and_not_vv x y. Proof. unfold c_ibig_and_not_vv, ibig_and_not_vv. ibits. Qed.
Lemma iand_not_vr_erase x y : snd (c_ibig_and_not_vr x y) = ibig_and_not_vr x y. Proof. unfold c_ibig_and_not_vr, ibig_and_not_vr. ibits. Qed.
Lemma iand_not_rv_erase x y : snd (c_ibig_and_not_rv x y) = ibig_and_not_rv x y. Proof. unfold c_ibig_and_not_rv, ibig_and_not_rv. ibits. Qed.
Lemma iand_not_rr_erase x y : snd (c_ibig_and_not_rr x y) = ibig_and_not_rr x y. Proof. unfold c_ibig_and_not_rr, ibig_and_not_rr. ibits. Qed.

Lemma le_chunks_erase fuel : forall bytes b, snd (c_le_chunks fuel bytes b) = le_chunks fuel bytes b.
Proof. induction fuel as [|fuel IH]; intros; cbn [c_le_chunks le_chunks]; oer. Qed.
Lemma be_chunks_erase fuel : forall bytes b, snd (c_be_chunks fuel bytes b) = be_chunks fuel bytes b.
Proof. induction fuel as [|fuel IH]; intros; cbn [c_be_chunks be_chunks]; oer. Qed.
Lemma from_le_erase bytes : snd (c_from_le_bytes bytes) = from_le_bytes bytes.
Proof. unfold c_from_le_bytes, from_le_bytes, c_from_le_bytes_large, from_le_bytes_large, c_from_buffer. pose proof le_chunks_erase. oer. Qed.
Lemma from_be_erase bytes : snd (c_from_be_bytes bytes) = from_be_bytes bytes.
Proof. unfold c_from_be_bytes, from_be_bytes, c_from_be_bytes_large, from_be_bytes_large, c_from_buffer. pose proof be_chunks_erase. oer. Qed.
Lemma words_bytes_erase f ws : snd (c_words_bytes f ws) = Ok (flat_map f ws).
Proof. induction ws as [|w ws IH]; [reflexivity|]. cbn [c_words_bytes flat_map]. rewrite snd_cbind. cbn [snd call bind]. rewrite snd_cbind, IH. reflexivity. Qed.
Lemma to_le_erase u : snd (c_to_le_bytes u) = to_le_bytes u.
Proof.
  unfold c_to_le_bytes, to_le_bytes. cbv zeta. destruct u as [x|b]; [reflexivity|].
  do 3 (rewrite snd_cbind; apply bind_ext; [reflexivity|]; intros ?). rewrite snd_cbind, words_bytes_erase. reflexivity.
Qed.
Lemma to_be_erase u : snd (c_to_be_bytes u) = to_be_bytes u.
Proof.
  unfold c_to_be_bytes, to_be_bytes. cbv zeta. destruct u as [x|b]; [reflexivity|].
  do 3 (rewrite snd_cbind; apply bind_ext; [reflexivity|]; intros ?). rewrite snd_cbind, words_bytes_erase. reflexivity.
Qed.

End Erase.
