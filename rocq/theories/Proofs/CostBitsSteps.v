(** Bounds for the bit operations of [UBig] (Model/CostBits.v). *)
From Coq Require Import Lia.
From Verif Require Import Model.Base Model.Words Model.Add Model.Memory Model.Buffer Model.UBig Model.IBig
  Model.Convert Model.AddOps Model.MulOps Model.Bits Model.Cost Model.CostDiv Model.CostOps Model.CostGcd Model.CostInverse Model.CostBits Spec.Val Spec.Num.
From Verif Require Import Proofs.Basics Proofs.CostProofs Proofs.CostBounds Proofs.CostTheorems Proofs.CostRates Proofs.CostDivProofs
  Proofs.CostOpsProofs Proofs.CostOpsBounds Proofs.CostDivOps Proofs.CostGcdProofs Proofs.CostGcdSteps Proofs.CostGcdTheorems
  Proofs.CostInverseProofs Proofs.CostBitsProofs.

Section Nonneg.
Context {A : Arch}.

Lemma set_bit_nn u n : 0 <= fst (c_set_bit u n).
Proof. unfold c_set_bit, c_with_bit_word_slow, c_with_bit_large, c_from_buffer. cbv zeta. onn. Qed.
Lemma clear_bit_nn u n : 0 <= fst (c_clear_bit u n).
Proof. unfold c_clear_bit, c_without_bit_large, c_from_buffer. cbv zeta. onn. Qed.
Lemma is_power_nn u : 0 <= fst (c_is_power_of_two u).
Proof. unfold c_is_power_of_two, c_is_power_of_two_large. onn. Qed.
Lemma next_power_nn u : 0 <= fst (c_next_power_of_two_v u).
Proof. unfold c_next_power_of_two_v, c_next_power_of_two_large, c_from_buffer. cbv zeta. onn. Qed.
Lemma next_power_r_nn u : 0 <= fst (c_next_power_of_two_r u).
Proof. unfold c_next_power_of_two_r, c_ubig_clone. pose proof next_power_nn. onn. Qed.

Lemma and_nn a b : 0 <= fst (c_ubig_and_vv a b) /\ 0 <= fst (c_ubig_and_vr a b) /\ 0 <= fst (c_ubig_and_rv a b) /\ 0 <= fst (c_ubig_and_rr a b).
Proof.
  unfold c_ubig_and_rv, c_ubig_and_vv, c_ubig_and_vr, c_ubig_and_rr, c_buffer_clone, c_bitand_large, c_zip_words, c_from_buffer.
  split; [|split; [|split]]; onn.
Qed.
Lemma or_nn a b : 0 <= fst (c_ubig_or_vv a b) /\ 0 <= fst (c_ubig_or_vr a b) /\ 0 <= fst (c_ubig_or_rv a b) /\ 0 <= fst (c_ubig_or_rr a b).
Proof.
  unfold c_ubig_or_rv, c_ubig_or_vv, c_ubig_or_vr, c_ubig_or_rr, c_buffer_clone, c_bitor_large, c_bitor_large_word, c_zip_words, c_from_buffer.
  split; [|split; [|split]]; onn.
Qed.
Lemma xor_nn a b : 0 <= fst (c_ubig_xor_vv a b) /\ 0 <= fst (c_ubig_xor_vr a b) /\ 0 <= fst (c_ubig_xor_rv a b) /\ 0 <= fst (c_ubig_xor_rr a b).
Proof.
  unfold c_ubig_xor_rv, c_ubig_xor_vv, c_ubig_xor_vr, c_ubig_xor_rr, c_buffer_clone, c_bitxor_large, c_bitxor_large_word, c_zip_words, c_from_buffer.
  split; [|split; [|split]]; onn.
Qed.
Lemma and_not_nn a b : 0 <= fst (c_ubig_and_not_vv a b) /\ 0 <= fst (c_ubig_and_not_vr a b) /\ 0 <= fst (c_ubig_and_not_rv a b) /\ 0 <= fst (c_ubig_and_not_rr a b).
Proof.
  unfold c_ubig_and_not_rv, c_ubig_and_not_vv, c_ubig_and_not_vr, c_ubig_and_not_rr, c_buffer_clone, c_and_not_large, c_and_not_large_word, c_zip_words, c_from_buffer.
  split; [|split; [|split]]; onn.
Qed.

End Nonneg.

Section Steps.
Context {A : Arch}.

Lemma zip_len f xs ys : length (zip_words f xs ys) = length xs.
Proof. revert ys. induction xs as [|x xs IH]; intros [|y ys]; cbn [zip_words length]; auto. Qed.

Lemma zip_costs f b rhs : costs (c_zip_words f b rhs) (Z.min (blen b) (len rhs) + 1) (fun b' => blen b' = blen b).
Proof.
  unfold c_zip_words. eapply costs_weaken; [apply costs_call|unfold blen, len; lia|]. intros b' E. injection E as <-.
  unfold blen, len. cbn [words]. now rewrite zip_len.
Qed.

Lemma clone_buffer_costs b : costs (c_buffer_clone b) (blen b + 1) (fun b' => blen b' = blen b).
Proof.
  unfold c_buffer_clone. eapply costs_weaken; [apply costs_call|unfold blen, len; lia|]. intros b' E.
  apply buffer_clone_words in E. unfold blen, len. now rewrite E.
Qed.

Lemma on_first_len b f b' : on_first b f = Ok b' -> blen b' = blen b.
Proof.
  unfold on_first. intros H. apply bind_inv in H. destruct H as (w & _ & H). apply bind_inv in H. destruct H as (ws & E & H).
  injection H as <-. apply CostDivProofs.set_len in E. unfold blen, len. cbn [words]. now rewrite E.
Qed.

Lemma word_costs (w : Z) N n : 1 <= N -> 1 <= n -> costs (call 0 (Ok (from_word w))) N (lens_below n).
Proof. intros L1 L2. eapply costs_weaken; [apply costs_call|cbn [Z.of_nat]; lia|]. intros u E. injection E as <-. unfold lens_below. cbn. lia. Qed.

Lemma first_costs (m : res ubig) N n : (forall u, m = Ok u -> exists w, u = from_word w) -> 1 <= N -> 1 <= n -> costs (call 0 m) N (lens_below n).
Proof.
  intros F L1 L2. eapply costs_weaken; [apply costs_call|cbn [Z.of_nat]; lia|]. intros u E. apply F in E. destruct E as [w ->]. unfold lens_below. cbn. lia.
Qed.

Lemma and_first_word w b u : and_first w b = Ok u -> exists x, u = from_word x.
Proof. unfold and_first. intros H. apply bind_inv in H. destruct H as (x & _ & H). injection H as <-. eauto. Qed.
Lemma first_and_word w b u : first_and b w = Ok u -> exists x, u = from_word x.
Proof. unfold first_and. intros H. apply bind_inv in H. destruct H as (x & _ & H). injection H as <-. eauto. Qed.
Lemma and_not_first_word w b u : and_not_first w b = Ok u -> exists x, u = from_word x.
Proof. unfold and_not_first. intros H. apply bind_inv in H. destruct H as (x & _ & H). injection H as <-. eauto. Qed.

Lemma bitand_costs b rhs : let m := Z.min (blen b) (len rhs) in
  costs (c_bitand_large b rhs) (3 * m + 3) (fun u => 1 <= ulen u <= Z.max 1 m).
Proof.
  intros m. unfold c_bitand_large. apply (costs_bind _ _ 1 _ (fun b' => blen b' = m)).
  - destruct (Nat.ltb_spec (length rhs) (length (words b))) as [L|L].
    + eapply costs_weaken; [apply costs_call|cbn [Z.of_nat]; lia|]. intros b' E. unfold truncate in E. apply check_ok in E. destruct E as [_ E].
      injection E as <-. unfold m, blen, len. cbn [words]. rewrite firstn_length. lia.
    + apply costs_ok; [lia|]. unfold m, blen, len. lia.
  - intros b' Lb. eapply costs_bind; [apply zip_costs|]. intros b2 L2. cbv beta in L2.
    eapply costs_weaken; [apply (from_buffer_costs b2 (2 * m + 1)); lia|lia|]. cbv beta. intros u U. lia.
Qed.

Lemma and_costs a b : 1 <= ulen a -> 1 <= ulen b -> let m := Z.min (ulen a) (ulen b) in
  costs (c_ubig_and_vv a b) (4 * m + 4) (lens_below m) /\ costs (c_ubig_and_vr a b) (4 * m + 4) (lens_below m) /\
  costs (c_ubig_and_rv a b) (4 * m + 4) (lens_below m) /\ costs (c_ubig_and_rr a b) (4 * m + 4) (lens_below m).
Proof.
  intros La Lb m. assert (M : 1 <= m) by lia.
  assert (LL : forall x y : Buffer, Z.min (blen x) (len (words y)) = m -> costs (c_bitand_large x (words y)) (4 * m + 4) (lens_below m)).
  { intros x y E. eapply costs_weaken; [apply bitand_costs|lia|]. cbv beta. intros u U. unfold lens_below. lia. }
  assert (VR : forall a b, 1 <= ulen a -> 1 <= ulen b -> Z.min (ulen a) (ulen b) = m -> costs (c_ubig_and_vr a b) (4 * m + 4) (lens_below m)).
  { clearbody m. clear a b La Lb. intros a b La Lb E. unfold c_ubig_and_vr. destruct a as [x|x], b as [y|y].
    - apply word_costs; lia.
    - apply first_costs; [apply and_first_word|lia|lia].
    - apply first_costs; [apply first_and_word|lia|lia].
    - apply LL. exact E. }
  split; [|split; [|split]].
  - unfold c_ubig_and_vv. destruct a as [x|x], b as [y|y].
    + apply word_costs; lia.
    + apply first_costs; [apply and_first_word|lia|lia].
    + apply first_costs; [apply first_and_word|lia|lia].
    + cbn [ulen] in *. destruct (_ <=? _)%nat; apply LL; unfold m, blen; lia.
  - apply VR; auto.
  - unfold c_ubig_and_rv. apply VR; auto. unfold m. lia.
  - unfold c_ubig_and_rr. destruct a as [x|x], b as [y|y].
    + apply word_costs; lia.
    + apply first_costs; [apply and_first_word|lia|lia].
    + apply first_costs; [apply first_and_word|lia|lia].
    + cbn [ulen] in *. destruct (Nat.leb_spec (length (words x)) (length (words y))) as [L|L].
      * eapply costs_bind; [apply clone_buffer_costs|]. intros z E. cbv beta in E. eapply costs_weaken; [apply bitand_costs|unfold m, blen, len in *; lia|].
        cbv beta. intros u U. unfold lens_below, m, blen, len in *. lia.
      * eapply costs_bind; [apply clone_buffer_costs|]. intros z E. cbv beta in E. eapply costs_weaken; [apply bitand_costs|unfold m, blen, len in *; lia|].
        cbv beta. intros u U. unfold lens_below, m, blen, len in *. lia.
Qed.

Lemma large_word_costs f b (k : counted ubig) n : (k = (ensure (2 <=? length (words b))%nat ;; b <+ free (on_first b f) ;; c_from_buffer b)) ->
  blen b <= n -> 1 <= n -> costs k (2 * n + 1) (lens_below n).
Proof.
  intros -> L N1. step. apply costs_bind_free. intros b' E1. apply on_first_len in E1.
  eapply costs_weaken; [apply (from_buffer_costs b' (2 * n + 1)); lia|lia|]. cbv beta. intros u U. unfold lens_below. lia.
Qed.

Lemma extend_costs b rhs n : blen b <= n -> len rhs <= n ->
  costs (if (length (words b) <? length rhs)%nat then
          b <+ call (length (words b)) (ensure_capacity b (len rhs)) ;;
          hi <+ free (slice_from (length (words b)) rhs) ;;
          call (length hi) (extend b hi)
        else free (Ok b)) (n + 2) (fun b' => blen b' = Z.max (blen b) (len rhs)).
Proof.
  intros L1 L2. destruct (Nat.ltb_spec (length (words b)) (length rhs)) as [L|L].
  - apply costs_bind_call. intros b1 E1. apply ensure_capacity_words in E1. apply costs_bind_free. intros hi E2.
    unfold slice_from in E2. destruct (_ <=? _)%nat; [|discriminate]. injection E2 as <-.
    eapply costs_weaken; [apply costs_call|rewrite skipn_length, E1; unfold blen, len in *; lia|]. intros b3 E3. apply extend_words in E3.
    unfold blen, len in *. rewrite E3, app_length, skipn_length, E1. lia.
  - apply costs_ok; unfold blen, len in *; lia.
Qed.

Lemma or_large_costs f b rhs (k : counted ubig) n :
  k = (b <+ c_zip_words f b rhs ;;
       b <+ (if (length (words b) <? length rhs)%nat then
               b <+ call (length (words b)) (ensure_capacity b (len rhs)) ;;
               hi <+ free (slice_from (length (words b)) rhs) ;;
               call (length hi) (extend b hi)
             else free (Ok b)) ;;
       c_from_buffer b) ->
  blen b <= n -> len rhs <= n -> 1 <= n -> costs k (4 * n + 4) (lens_below n).
Proof.
  intros -> L1 L2 N1. eapply costs_bind; [apply zip_costs|]. intros b1 E1. cbv beta in E1.
  eapply costs_bind; [apply (extend_costs b1 rhs n); lia|]. intros b2 E2. cbv beta in E2.
  eapply costs_weaken; [apply (from_buffer_costs b2 (2 * n + 1)); lia|lia|]. cbv beta. intros u U. unfold lens_below. lia.
Qed.

Lemma or_word_costs b w n : blen b <= n -> 1 <= n -> costs (c_bitor_large_word b w) (2 * n + 1) (lens_below n).
Proof. apply (large_word_costs (fun x => Z.lor x w)). reflexivity. Qed.
Lemma xor_word_costs b w n : blen b <= n -> 1 <= n -> costs (c_bitxor_large_word b w) (2 * n + 1) (lens_below n).
Proof. apply (large_word_costs (fun x => Z.lxor x w)). reflexivity. Qed.
Lemma or_two_costs b r n : blen b <= n -> len r <= n -> 1 <= n -> costs (c_bitor_large b r) (4 * n + 4) (lens_below n).
Proof. apply (or_large_costs Z.lor). reflexivity. Qed.
Lemma xor_two_costs b r n : blen b <= n -> len r <= n -> 1 <= n -> costs (c_bitxor_large b r) (4 * n + 4) (lens_below n).
Proof. apply (or_large_costs Z.lxor). reflexivity. Qed.

Ltac upto L := match goal with
  | |- costs (call 0 _) _ _ => apply word_costs; lia
  | |- costs (cbind (c_buffer_clone ?b) _) _ (lens_below ?k) => eapply costs_bind; [apply clone_buffer_costs|]; intros ? ?;
      cbv beta in *; eapply costs_weaken; [apply L with (n := k); unfold blen in *; lia|unfold blen in *; lia|auto]
  | |- costs _ _ (lens_below ?k) => eapply costs_weaken; [apply L with (n := k); unfold blen in *; lia|unfold blen in *; lia|auto] end.
Ltac ors := match goal with |- costs (match ?a with Small _ => _ | Large _ => _ end) _ _ => destruct a end;
  match goal with |- costs (match ?a with Small _ => _ | Large _ => _ end) _ _ => destruct a end; cbn [ulen] in *;
  repeat match goal with |- costs (if ?c then _ else _) _ _ => destruct c end.

Lemma or_costs a b n : ulen a <= n -> ulen b <= n -> 1 <= n ->
  costs (c_ubig_or_vv a b) (5 * n + 5) (lens_below n) /\ costs (c_ubig_or_vr a b) (5 * n + 5) (lens_below n) /\
  costs (c_ubig_or_rv a b) (5 * n + 5) (lens_below n) /\ costs (c_ubig_or_rr a b) (5 * n + 5) (lens_below n).
Proof.
  intros La Lb N1. unfold c_ubig_or_rv, c_ubig_or_vv, c_ubig_or_vr, c_ubig_or_rr. split; [|split; [|split]]; ors;
    first [upto or_word_costs | upto or_two_costs].
Qed.

Lemma xor_costs a b n : ulen a <= n -> ulen b <= n -> 1 <= n ->
  costs (c_ubig_xor_vv a b) (5 * n + 5) (lens_below n) /\ costs (c_ubig_xor_vr a b) (5 * n + 5) (lens_below n) /\
  costs (c_ubig_xor_rv a b) (5 * n + 5) (lens_below n) /\ costs (c_ubig_xor_rr a b) (5 * n + 5) (lens_below n).
Proof.
  intros La Lb N1. unfold c_ubig_xor_rv, c_ubig_xor_vv, c_ubig_xor_vr, c_ubig_xor_rr. split; [|split; [|split]]; ors;
    first [upto xor_word_costs | upto xor_two_costs].
Qed.

Lemma and_not_word_costs b w n : blen b <= n -> 1 <= n -> costs (c_and_not_large_word b w) (2 * n + 1) (lens_below n).
Proof. apply (large_word_costs (fun x => Z.land x (not_w w))). reflexivity. Qed.
Lemma and_not_two_costs b r n : blen b <= n -> 1 <= n -> costs (c_and_not_large b r) (3 * n + 2) (lens_below n).
Proof.
  intros L N1. unfold c_and_not_large. eapply costs_bind; [apply zip_costs|]. intros b1 E1. cbv beta in E1.
  eapply costs_weaken; [apply (from_buffer_costs b1 (2 * n + 1)); lia|lia|]. cbv beta. intros u U. unfold lens_below. lia.
Qed.

Lemma and_not_costs a b n : ulen a <= n -> 1 <= n ->
  costs (c_ubig_and_not_vv a b) (4 * n + 3) (lens_below n) /\ costs (c_ubig_and_not_vr a b) (4 * n + 3) (lens_below n) /\
  costs (c_ubig_and_not_rv a b) (4 * n + 3) (lens_below n) /\ costs (c_ubig_and_not_rr a b) (4 * n + 3) (lens_below n).
Proof.
  intros La N1. unfold c_ubig_and_not_rv, c_ubig_and_not_vv, c_ubig_and_not_vr, c_ubig_and_not_rr. split; [|split; [|split]]; ors;
    first [apply word_costs; lia | apply first_costs; [apply and_not_first_word|lia|lia] | upto and_not_word_costs | upto and_not_two_costs].
Qed.

End Steps.
