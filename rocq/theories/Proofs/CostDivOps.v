(** How many steps the division operators take (Model/CostOps.v). *)
From Coq Require Import Lia.
From Verif Require Import Model.Base Model.Words Model.Add Model.Shift Model.FastDivide Model.DivWord Model.Memory
  Model.Mul Model.Div Model.RawMemory Model.Buffer Model.UBig Model.DivOps Model.Cost Model.CostDiv Model.CostOps Spec.Val.
From Verif Require Import Proofs.Basics Proofs.CostProofs Proofs.CostBounds Proofs.CostTheorems Proofs.CostRates Proofs.CostDivProofs
  Proofs.CostOpsProofs Proofs.CostOpsBounds.

Section DivOps.
Context {A : Arch}.

(** [W] is what division costs for each word of the dividend, if the divisor or the
    quotient has at most [d] words. *)
Definition divides (d W : Z) : Prop := forall depth lhs rhs fd mem, 2 <= len rhs <= len lhs ->
  Z.min (len rhs) (len lhs - len rhs + 1) <= d -> costs (c_div_rem_depth depth lhs rhs fd mem) (W * len lhs) (keeps (length lhs)).

Lemma divides_below d : 1 <= d -> exists W, 99 <= W /\ below W 1925 d /\ divides d W.
Proof.
  intros D1. destruct (drate_below d D1) as (W & WB & D). assert (DN : (1 <= Z.to_nat d)%nat) by lia.
  destruct (rate_below (Z.to_nat d) DN) as (H & R & HB). rewrite Z2Nat.id in HB by lia. assert (W0 : 0 <= W) by apply WB.
  exists (Z.max 99 (W + (2 * H + 20))). split; [clear WB HB; lia|]. split.
  { destruct (Z.max_spec 99 (W + (2 * H + 20))) as [[_ ->]|[_ ->]]; [|apply (below_const 99 1925 d 1); [lia|lia|clear WB HB; lia|consts]].
    apply (below_add _ _ 1677 248); [lia|lia|clear WB HB; lia|exact WB|]. apply (below_add _ _ (2 * 114) 20); [lia|lia|clear WB HB; lia|apply below_scale; [lia|exact HB]|].
    apply (below_const 20 20 d 1); [lia|lia|clear WB HB; lia|consts]. }
  clear WB HB. intros depth lhs rhs fd mem L M.
  assert (SM : len rhs <= 32 \/ len lhs - len rhs <= 32 -> costs (c_div_rem_depth depth lhs rhs fd mem) (Z.max 99 (W + (2 * H + 20)) * len lhs) (keeps (length lhs))).
  { intros S1. eapply costs_weaken; [apply div_rem_flat; exact S1| |auto]. apply Z.le_trans with (99 * len lhs); [destruct S1; nia|nia]. }
  destruct (Z.leb_spec (len rhs) 32) as [S1|S1]; [apply SM; left; exact S1|].
  destruct (Z.leb_spec (len lhs - len rhs) 32) as [S2|S2]; [apply SM; right; exact S2|]. clear SM.
  eapply costs_weaken; [apply (div_rem_costs depth (Z.min (len rhs) (len lhs - len rhs)) H W); [lia|lia|reflexivity|exact W0| |]| |auto].
  - eapply drate_le; [exact D|lia].
  - eapply rate_le; [exact R|lia].
  - nia.
Qed.

Lemma normalize_len ws rw s f : normalize_large ws = Ok (rw, s, f) -> length rw = length ws /\ (2 <= length ws)%nat.
Proof.
  unfold normalize_large. intros H. apply check_ok in H. destruct H as [G H]. apply Nat.leb_le in G. apply bind_inv in H. destruct H as (w & _ & H). cbv zeta in H.
  apply bind_inv in H. destruct H as ([w2 o] & E & H). apply check_ok in H. destruct H as [_ H]. apply bind_inv in H. destruct H as (t & _ & H).
  apply bind_inv in H. destruct H as (f' & _ & H). injection H as <- _ _. apply shl_len in E. lia.
Qed.

Lemma take_rem_len l r s b : take_rem l r s = Ok b -> length (words b) = length (words r).
Proof.
  unfold take_rem. intros H. apply bind_inv in H. destruct H as (lo & E & H). apply slice_to_len in E. apply bind_inv in H. destruct H as ([b2 x] & E2 & H).
  apply check_ok in H. destruct H as [_ H]. injection H as <-. apply on_words_len in E2; [cbn [words] in E2; lia|]. intros w w' y X. now apply shr_len in X.
Qed.

Lemma in_lhs_costs d W lhs rhs : 0 <= W -> divides d W -> (blen rhs <= d \/ blen lhs - blen rhs + 2 <= d) -> blen rhs <= blen lhs ->
  costs (c_div_rem_in_lhs lhs rhs) (W * (blen lhs + 1) + blen rhs + 3 * blen lhs + 9)
    (fun x => blen (fst (fst x)) <= blen lhs + 2 /\ blen (snd (fst x)) = blen rhs).
Proof.
  intros W0 D C L. unfold c_div_rem_in_lhs. set (m := blen lhs) in *. set (k := blen rhs) in *.
  apply costs_bind_call. intros [[rw s] f] E. apply normalize_len in E. destruct E as [LR L2]. cbv beta iota zeta. fold (len (words rhs)). fold (blen rhs). fold k.
  assert (K : len rw = k) by (unfold k, blen, len; lia). assert (K2 : 2 <= k) by (unfold k, blen, len; lia).
  eapply costs_bind_words; [apply (call_keeps (words lhs)); intros w' r E; now apply shl_len in E|]. intros b1 c E1. cbv beta iota.
  fold (len (words lhs)). fold (blen lhs). fold m. assert (M1 : blen b1 = m) by (unfold m, blen, len; lia).
  eapply costs_bind; [apply (push_costs (c =? 0) b1 c (m + 2)); lia|]. intros b2 M2. cbv beta in M2.
  apply costs_bind_free. intros l _. apply costs_bind_call. intros mem _.
  eapply (costs_bind_words _ _ _ (W * (m + 1)) _ _ (length (words b2))).
  - cbn [words]. unfold c_div_rem_in_place. eapply costs_weaken; [apply D| |auto].
    + rewrite K. fold (blen b2). lia.
    + rewrite K. fold (blen b2). lia.
    + fold (blen b2). nia.
  - intros b3 o E3. cbv beta iota. assert (M3 : blen b3 = blen b2) by (unfold blen, len; lia).
    eapply costs_bind; [apply (push_costs' o b3 1 (m + 3)); lia|]. intros b4 M4. cbv beta in M4.
    apply costs_ok; [lia|]. cbn [fst snd]. split; [lia|]. unfold blen. cbn [words]. exact K.
Qed.

Lemma div_rem_large_costs d W lhs rhs : 0 <= W -> divides d W -> (blen rhs <= d \/ blen lhs - blen rhs + 2 <= d) -> blen rhs <= blen lhs -> 1 <= blen lhs ->
  costs (c_div_rem_large lhs rhs) ((W + 15) * (blen lhs + 1) + 4) (fun _ => True).
Proof.
  intros W0 D C L L1. unfold c_div_rem_large. eapply costs_bind; [apply (in_lhs_costs d W lhs rhs); assumption|].
  intros [[b1 r1] s] [M1 K1]. cbn [fst snd] in M1, K1. cbv zeta. unfold c_take_rem. apply costs_bind_call. intros r2 E2. apply take_rem_len in E2.
  assert (K2 : blen r2 = blen rhs) by (unfold blen, len in *; lia).
  apply costs_bind_call. intros b2 E3. assert (M2 : blen b2 <= blen b1).
  { unfold erase_front in E3. apply check_ok in E3. destruct E3 as [_ E3]. injection E3 as <-. unfold blen, len. cbn [words]. rewrite skipn_length. lia. }
  eapply costs_bind; [apply (from_buffer_costs b2 (2 * (blen lhs + 2) + 1)); lia|]. intros q _.
  eapply costs_bind; [apply (from_buffer_costs r2 (2 * blen rhs + 1)); lia|]. intros r _. apply costs_ok; [|exact I].
  unfold blen, len in *. nia.
Qed.

Lemma rem_div_large_costs d W lhs rhs : 0 <= W -> divides d W -> (blen rhs <= d \/ blen lhs - blen rhs + 2 <= d) -> blen rhs <= blen lhs -> 1 <= blen lhs ->
  costs (c_div_large lhs rhs) ((W + 15) * (blen lhs + 1) + 4) (fun _ => True) /\
  costs (c_rem_large lhs rhs) ((W + 15) * (blen lhs + 1) + 4) (fun _ => True).
Proof.
  intros W0 D C L L1. split.
  - unfold c_div_large. eapply costs_bind; [apply (in_lhs_costs d W lhs rhs); assumption|]. intros [[b1 r1] s] [M1 K1]. cbn [fst snd] in M1, K1.
    apply costs_bind_call. intros b2 E3. assert (M2 : blen b2 <= blen b1).
    { unfold erase_front in E3. apply check_ok in E3. destruct E3 as [_ E3]. injection E3 as <-. unfold blen, len. cbn [words]. rewrite skipn_length. lia. }
    eapply costs_weaken; [apply (from_buffer_costs b2 (2 * (blen lhs + 2) + 1)); lia| |auto]. unfold blen, len in *. nia.
  - unfold c_rem_large. eapply costs_bind; [apply (in_lhs_costs d W lhs rhs); assumption|]. intros [[b1 r1] s] [M1 K1]. cbn [fst snd] in M1, K1.
    unfold c_take_rem. apply costs_bind_call. intros r2 E2. apply take_rem_len in E2. assert (K2 : blen r2 = blen rhs) by (unfold blen, len in *; lia).
    eapply costs_weaken; [apply (from_buffer_costs r2 (2 * blen rhs + 1)); lia| |auto]. unfold blen, len in *. nia.
Qed.

Lemma large_word_costs b w : 1 <= blen b -> costs (c_div_rem_large_word b w) (4 * blen b + 2) (fun _ => True).
Proof.
  intros L. unfold c_div_rem_large_word. destruct (w =? 0); [apply costs_panic|].
  eapply costs_bind_words; [apply (call_keeps (words b)); intros w' r E; now apply div_by_word_len in E|]. intros b1 c E1. cbv beta iota.
  assert (M1 : blen b1 = blen b) by (unfold blen, len; lia). eapply costs_bind; [apply (from_buffer_costs b1 (2 * blen b + 1)); lia|]. intros q _.
  apply costs_ok; [unfold blen, len in *; lia|exact I].
Qed.

Lemma div_rem_ops_costs d W a b : 0 <= W -> divides d W -> (ulen b <= d \/ ulen a - ulen b + 2 <= d) -> 1 <= ulen a ->
  costs (c_ubig_div_rem_vv a b) ((W + 20) * (ulen a + 1)) (fun _ => True) /\
  costs (c_ubig_div_rem_vr a b) ((W + 20) * (ulen a + 1)) (fun _ => True) /\
  costs (c_ubig_div_rem_rr a b) ((W + 20) * (ulen a + 1)) (fun _ => True).
Proof.
  intros W0 D C L1. unfold c_ubig_div_rem_vv, c_ubig_div_rem_vr, c_ubig_div_rem_rr, c_buffer_clone.
  destruct a as [x|x], b as [y|y]; cbn [ulen] in *.
  - assert (X : costs (call 0 (div_rem_word x y)) ((W + 20) * (1 + 1)) (fun _ => True)) by (eapply costs_weaken; [apply costs_call|cbn; lia|auto]). auto.
  - assert (X : costs (free (Ok (from_word 0, from_word x))) ((W + 20) * (1 + 1)) (fun _ => True)) by (apply costs_ok; [lia|exact I]). auto.
  - split; [|split].
    + eapply costs_weaken; [apply large_word_costs; exact L1|nia|auto].
    + eapply costs_weaken; [apply large_word_costs; exact L1|nia|auto].
    + apply costs_bind_call. intros x' E. apply buffer_clone_words in E. assert (M : blen x' = blen x) by (unfold blen; now rewrite E).
      eapply costs_weaken; [apply large_word_costs; lia|unfold blen, len in *; nia|auto].
  - destruct (Z.leb_spec (blen y) (blen x)) as [G|G].
    + split; [|split].
      * eapply costs_weaken; [apply (div_rem_large_costs d W); assumption|nia|auto].
      * apply costs_bind_call. intros y' E. apply buffer_clone_words in E. assert (M : blen y' = blen y) by (unfold blen; now rewrite E).
        eapply costs_weaken; [apply (div_rem_large_costs d W); rewrite ?M; assumption|unfold blen, len in *; nia|auto].
      * apply costs_bind_call. intros x' E. apply buffer_clone_words in E. assert (M : blen x' = blen x) by (unfold blen; now rewrite E).
        apply costs_bind_call. intros y' E'. apply buffer_clone_words in E'. assert (M' : blen y' = blen y) by (unfold blen; now rewrite E').
        eapply costs_weaken; [apply (div_rem_large_costs d W); rewrite ?M, ?M'; assumption|rewrite ?M; unfold blen, len in *; nia|auto].
    + assert (X : costs (r <+ c_from_buffer x ;; free (Ok (from_word 0, r))) ((W + 20) * (blen x + 1)) (fun _ => True)).
      { eapply costs_bind; [apply (from_buffer_costs x (2 * blen x + 1)); lia|]. intros r _. apply costs_ok; [nia|exact I]. }
      split; [exact X|split; [exact X|]]. apply costs_bind_call. intros r _. apply costs_ok; [|exact I]. cbn [as_words]. unfold blen, len in *. nia.
Qed.

End DivOps.
