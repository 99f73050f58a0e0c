(** How many steps the operators of [UBig] take (Model/CostOps.v). *)
From Coq Require Import Lia.
From Verif Require Import Model.Base Model.Words Model.Add Model.Shift Model.FastDivide Model.DivWord Model.Memory
  Model.Mul Model.Div Model.RawMemory Model.Buffer Model.UBig Model.IBig Model.Convert Model.AddOps Model.MulOps
  Model.DivOps Model.Bits Model.Pow Model.Cost Model.CostDiv Model.CostOps Spec.Val.
From Verif Require Import Proofs.Basics Proofs.CostProofs Proofs.CostBounds Proofs.CostTheorems Proofs.CostRates Proofs.CostDivProofs
  Proofs.CostOpsProofs.

Section Lengths.
Context {A : Arch}.

Lemma drop_zeros_len l : (length (drop_zeros l) <= length l)%nat.
Proof. induction l as [|x l IH]; [cbn; lia|]. cbn [drop_zeros]. destruct (x =? 0); cbn [length]; lia. Qed.

Lemma buffer_clone_from_words b ws b' : buffer_clone_from b ws = Ok b' -> words b' = ws.
Proof. unfold buffer_clone_from. intros H. apply check_ok in H. destruct H as [_ H]. now injection H as <-. Qed.

Lemma reallocate_words b n b' : reallocate b n = Ok b' -> words b' = words b.
Proof.
  unfold reallocate. intros H. apply check_ok in H. destruct H as [_ H]. apply bind_inv in H. destruct H as (c & _ & H).
  now apply buffer_clone_from_words in H.
Qed.

Lemma ensure_capacity_words b n b' : ensure_capacity b n = Ok b' -> words b' = words b.
Proof. unfold ensure_capacity. destruct (cap b <? n); intros H; [now apply reallocate_words in H|now injection H as <-]. Qed.

Lemma shrink_words b b' : shrink b = Ok b' -> words b' = words b.
Proof.
  unfold shrink. intros H. apply bind_inv in H. destruct H as (m & _ & H).
  destruct (m <? cap b); [now apply reallocate_words in H|now injection H as <-].
Qed.

Lemma buffer_clone_words b b' : buffer_clone b = Ok b' -> words b' = words b.
Proof. unfold buffer_clone. intros H. apply bind_inv in H. destruct H as (c & _ & H). now apply buffer_clone_from_words in H. Qed.

Lemma push_words b w b' : push b w = Ok b' -> words b' = words b ++ [w].
Proof. unfold push. intros H. apply check_ok in H. destruct H as [_ H]. now injection H as <-. Qed.

Lemma push_may_words b w b' : push_may_reallocate b w = Ok b' -> words b' = words b ++ [w].
Proof.
  unfold push_may_reallocate. intros H. apply bind_inv in H. destruct H as (n & _ & H). apply bind_inv in H. destruct H as (c & E & H).
  apply push_words in H. apply ensure_capacity_words in E. now rewrite H, E.
Qed.

Lemma extend_words ws : forall b b', extend b ws = Ok b' -> words b' = words b ++ ws.
Proof.
  induction ws as [|w ws IH]; intros b b' H; cbn [extend] in H.
  - injection H as <-. now rewrite app_nil_r.
  - apply bind_inv in H. destruct H as (c & E & H). apply IH in H. apply push_words in E. now rewrite H, E, <- app_assoc.
Qed.

Lemma allocate_words n b : allocate n = Ok b -> words b = [].
Proof.
  unfold allocate. destruct (MAX_CAPACITY <? n); [discriminate|]. intros H. apply bind_inv in H. destruct H as (c & _ & H). now injection H as <-.
Qed.

Lemma from_buffer_len b u : from_buffer b = Ok u -> 1 <= ulen u <= Z.max 1 (blen b).
Proof.
  unfold from_buffer, blen. cbv zeta.
  assert (L : (length (words (pop_leading_zeros b)) <= length (words b))%nat).
  { unfold pop_leading_zeros. cbn [words]. rewrite rev_length. pose proof (drop_zeros_len (rev (words b))). rewrite rev_length in H. exact H. }
  destruct (words (pop_leading_zeros b)) as [|x [|y l]] eqn:E.
  - intros H. injection H as <-. cbn. lia.
  - intros H. injection H as <-. cbn. lia.
  - unfold blen. destruct (MAX_LEN <? _); [discriminate|]. intros H. apply bind_inv in H. destruct H as (b' & S & H). injection H as <-.
    apply shrink_words in S. unfold ulen, blen, len. rewrite S, E. cbn [length] in *. unfold len. lia.
Qed.

Lemma on_words_len {R} b (f : list Z -> res (list Z * R)) b' r : (forall w w' r, f w = Ok (w', r) -> length w' = length w) ->
  on_words b f = Ok (b', r) -> length (words b') = length (words b).
Proof.
  intros F H. unfold on_words in H. apply bind_inv in H. destruct H as ([w x] & E & H). injection H as <- _. cbn [words]. now apply F in E.
Qed.

Lemma costs_on_words {R} b (f : list Z -> counted (list Z * R)) N n :
  costs (f (words b)) N (keeps n) -> costs (c_on_words b f) N (fun x => length (words (fst x)) = n).
Proof.
  intros F. unfold c_on_words. eapply costs_bind; [exact F|]. intros [w r] K. unfold keeps in K. cbn [fst] in K.
  apply costs_ok; [lia|exact K].
Qed.

Lemma costs_bind_words {R T} b (f : list Z -> counted (list Z * R)) (k : Buffer * R -> counted T) X N P n :
  costs (f (words b)) X (keeps n) -> (forall b' r, length (words b') = n -> costs (k (b', r)) (N - X) P) ->
  costs (cbind (c_on_words b f) k) N P.
Proof. intros F K. eapply costs_bind; [apply costs_on_words; exact F|]. intros [b' r] L. apply K. exact L. Qed.

Lemma call_keeps {R} (ws : list Z) n (m : res (list Z * R)) : (forall w' r, m = Ok (w', r) -> length w' = length ws) ->
  costs (call n m) (Z.of_nat n + 1) (keeps (length ws)).
Proof. intros F. eapply costs_weaken; [apply costs_call|lia|]. intros [w' r] E. apply F in E. exact E. Qed.

Lemma from_buffer_costs b N : 2 * blen b + 1 <= N -> costs (c_from_buffer b) N (fun u => 1 <= ulen u <= Z.max 1 (blen b)).
Proof.
  intros L. unfold c_from_buffer. eapply costs_weaken; [apply costs_call|unfold blen, len in L; lia|]. intros u E. now apply from_buffer_len.
Qed.

(** A carry may be pushed. *)
Lemma push_costs (c : bool) b w N : blen b + 2 <= N ->
  costs (if c then free (Ok b) else c_push_may_reallocate b w) N (fun b' => blen b <= blen b' <= blen b + 1).
Proof.
  intros L. destruct c; [apply costs_ok; unfold blen, len in *; lia|]. unfold c_push_may_reallocate.
  eapply costs_weaken; [apply costs_call|unfold blen, len in L; lia|]. intros b' E. apply push_may_words in E. unfold blen, len in *. rewrite E, app_length. cbn [length]. lia.
Qed.

Lemma push_costs' (c : bool) b w N : blen b + 2 <= N ->
  costs (if c then c_push_may_reallocate b w else free (Ok b)) N (fun b' => blen b <= blen b' <= blen b + 1).
Proof. intros L. pose proof (push_costs (negb c) b w N L) as H. destruct c; exact H. Qed.

Definition lens_below (n : Z) (u : ubig) : Prop := 1 <= ulen u <= n.

Lemma mul_large_word_costs b a n : blen b <= n -> 1 <= n -> costs (c_mul_large_word b a) (4 * n + 6) (lens_below (n + 1)).
Proof.
  intros L N1. unfold c_mul_large_word. pose proof (Nat2Z.is_nonneg (length (words b))) as Z0. fold (len (words b)) in Z0. fold (blen b) in Z0.
  destruct (a =? 0); [apply costs_ok; [lia|unfold lens_below; cbn; lia]|].
  destruct (a =? 1); [eapply costs_weaken; [apply (from_buffer_costs b (2 * blen b + 1)); lia|lia|unfold lens_below; intros; lia]|].
  eapply costs_bind_words; [apply (call_keeps (words b)); intros w' r E; now apply mul_word_len in E|]. intros b' c E. cbv beta iota.
  assert (LB : blen b' = blen b) by (unfold blen, len; lia).
  eapply costs_bind; [apply (push_costs (c =? 0) b' c (blen b + 2)); lia|]. intros b2 L2. cbv beta in L2.
  eapply costs_weaken; [apply (from_buffer_costs b2 (2 * (n + 1) + 1)); lia| |unfold lens_below; intros; lia]. fold (blen b). unfold blen, len in *. lia.
Qed.

Lemma mul_large_costs l r H : rate (Nat.min (length l) (length r)) H ->
  costs (c_mul_large l r) ((H + 4) * (Z.max (len l) (len r) + 2 * Z.min (len l) (len r)) + 3 * (len l + len r) + 6) (lens_below (len l + len r)).
Proof.
  intros R. unfold c_mul_large. step. apply costs_bind_free. intros rl _. apply costs_bind_call. intros b0 E1. apply allocate_words in E1. apply costs_bind_call. intros b E2.
  assert (LB : length (words b) = (length l + length r)%nat).
  { unfold push_zeros in E2. apply check_ok in E2. destruct E2 as [_ E2]. injection E2 as <-. cbn [words]. rewrite E1, app_length, repeat_length. reflexivity. }
  step. step. eapply costs_bind_words.
  - unfold c_add_signed_mul. apply (mul_costs _ _ _ _ _ _ H). exact R.
  - intros b' o L. cbv beta iota. step.
    eapply costs_weaken; [apply (from_buffer_costs b' (2 * (len l + len r) + 1)); unfold blen, len in *; lia| |].
    + unfold len. lia.
    + unfold lens_below. intros u U. unfold blen, len in *. lia.
Qed.

End Lengths.

Section Words.
Context {A : Arch} {AOK : ArchOk A}.

Lemma word_bytes_pos : (1 <= WORD_BYTES)%nat /\ Z.to_nat (2 * wbits / 8) = (2 * WORD_BYTES)%nat.
Proof. unfold WORD_BYTES. destruct AOK as [[->|[->| ->]] _]; split; vm_compute; try reflexivity; repeat constructor. Qed.

Lemma le_chunks_len fuel : forall bytes b b', le_chunks fuel bytes b = Ok b' ->
  (length (words b') * WORD_BYTES < length (words b) * WORD_BYTES + length bytes + WORD_BYTES)%nat.
Proof.
  destruct word_bytes_pos as [P _].
  induction fuel as [|fuel IH]; intros bytes b b'; cbn [le_chunks]; destruct (length bytes <? WORD_BYTES)%nat eqn:G; try discriminate.
  1, 2: destruct bytes as [|x bytes]; intros H; [injection H as <-; cbn [length]; lia|]; apply bind_inv in H; destruct H as (w & _ & H);
    apply push_words in H; rewrite H, app_length; cbn [length]; lia.
  intros H. apply bind_inv in H. destruct H as (c & E & H). apply push_words in E. apply IH in H. rewrite E, app_length, skipn_length in H.
  apply Nat.ltb_ge in G. cbn [length] in H. lia.
Qed.

Lemma le_bytes_length n x : length (prim_to_le_bytes n x) = n.
Proof. revert x. induction n as [|n IH]; intros x; [reflexivity|]. cbn [prim_to_le_bytes length]. now rewrite IH. Qed.

Lemma from_dword_len x u : ubig_from_dword x = Ok u -> lens_below 2 u.
Proof.
  unfold ubig_from_dword, ubig_from_unsigned. destruct (x <? B); [intros H; injection H as <-; unfold lens_below; cbn; lia|].
  unfold from_le_bytes. destruct word_bytes_pos as [P ->]. rewrite le_bytes_length.
  destruct (2 * WORD_BYTES <=? WORD_BYTES)%nat.
  - intros H. apply bind_inv in H. destruct H as (w & _ & H). injection H as <-. unfold lens_below. cbn. lia.
  - unfold from_le_bytes_large. intros H. apply check_ok in H. destruct H as [_ H]. apply bind_inv in H. destruct H as (b & E & H).
    apply bind_inv in H. destruct H as (c & E2 & H). apply allocate_words in E. apply le_chunks_len in E2. apply from_buffer_len in H.
    rewrite E, le_bytes_length in E2. cbn [length] in E2. unfold lens_below, blen, len in *. nia.
Qed.

Lemma mul_word_costs x y : costs (c_mul_word x y) 1 (lens_below 2).
Proof.
  unfold c_mul_word. eapply costs_weaken; [apply costs_call|lia|]. intros u E. unfold mul_word in E. apply bind_inv in E.
  destruct E as (w & _ & E). now apply from_dword_len in E.
Qed.

(** Numbers of at most [m] and [n] words. *)
Definition mul_bound (H m n : Z) : Z := (H + 4) * (Z.max m n + 2 * Z.min m n) + 3 * (m + n) + 8.

Lemma mul_bound_mono H m m' n n' : 0 <= H -> 0 <= m <= m' -> 0 <= n <= n' -> mul_bound H m n <= mul_bound H m' n'.
Proof.
  intros H0 M N. unfold mul_bound.
  assert (Z.max m n + 2 * Z.min m n <= Z.max m' n' + 2 * Z.min m' n') by lia. nia.
Qed.

Lemma large_word_bound H b x : 1 <= H -> 1 <= blen b ->
  costs (c_mul_large_word b x) (mul_bound H (blen b) 1 - (blen b + 1)) (lens_below (blen b + 1)).
Proof.
  intros H1 L. eapply costs_weaken; [apply (mul_large_word_costs b x (blen b)); lia| |auto].
  unfold mul_bound. nia.
Qed.

Lemma mul_ops_costs H a b m n : 1 <= ulen a <= m -> 1 <= ulen b <= n -> rate (Z.to_nat (Z.min m n)) H ->
  costs (c_ubig_mul_vv a b) (mul_bound H m n) (lens_below (ulen a + ulen b)) /\
  costs (c_ubig_mul_vr a b) (mul_bound H m n) (lens_below (ulen a + ulen b)) /\
  costs (c_ubig_mul_rr a b) (mul_bound H m n) (lens_below (ulen a + ulen b)).
Proof.
  intros La Lb R. assert (H1 : 1 <= H) by (destruct R as [R _]; lia).
  assert (MB : mul_bound H (ulen a) (ulen b) <= mul_bound H m n) by (apply mul_bound_mono; lia).
  assert (MS : forall x y, mul_bound H x y = mul_bound H y x) by (intros; unfold mul_bound; rewrite Z.max_comm, Z.min_comm; ring).
  assert (B1 : forall x, mul_bound H x 1 = (H + 4) * (Z.max x 1 + 2 * Z.min x 1) + 3 * (x + 1) + 8) by reflexivity.
  destruct a as [x|x], b as [y|y]; cbn [ulen] in *.
  - assert (C : costs (c_mul_word x y) (mul_bound H m n) (lens_below 2)).
    { eapply costs_weaken; [apply mul_word_costs| |auto]. unfold mul_bound in *. nia. }
    split; [|split]; exact C.
  - assert (C : costs (c_mul_large_word y x) (mul_bound H m n) (lens_below (1 + blen y))).
    { eapply costs_weaken; [apply (large_word_bound H y x); lia|rewrite MS in MB; lia|unfold lens_below; intros; lia]. }
    assert (D : costs (y <+ c_buffer_clone y;; c_mul_large_word y x) (mul_bound H m n) (lens_below (1 + blen y))).
    { unfold c_buffer_clone. apply costs_bind_call. intros y' E. apply buffer_clone_words in E.
      assert (EY : blen y' = blen y) by (unfold blen; now rewrite E).
      eapply costs_weaken; [apply (large_word_bound H y' x); lia| |unfold lens_below; intros; lia]. rewrite EY. rewrite MS in MB. unfold blen, len in *. lia. }
    split; [exact C|split; [exact D|exact D]].
  - assert (C : costs (c_mul_large_word x y) (mul_bound H m n) (lens_below (blen x + 1))).
    { eapply costs_weaken; [apply (large_word_bound H x y); lia|lia|unfold lens_below; intros; lia]. }
    assert (D : costs (x <+ c_buffer_clone x;; c_mul_large_word x y) (mul_bound H m n) (lens_below (blen x + 1))).
    { unfold c_buffer_clone. apply costs_bind_call. intros x' E. apply buffer_clone_words in E.
      assert (EX : blen x' = blen x) by (unfold blen; now rewrite E).
      eapply costs_weaken; [apply (large_word_bound H x' y); lia| |unfold lens_below; intros; lia]. rewrite EX. unfold blen, len in *. lia. }
    split; [exact C|split; [exact C|exact D]].
  - assert (C : costs (c_mul_large (words x) (words y)) (mul_bound H m n) (lens_below (blen x + blen y))).
    { eapply costs_weaken; [apply (mul_large_costs (words x) (words y) H)| |auto].
      - eapply rate_le; [exact R|]. unfold blen, len in *. lia.
      - unfold mul_bound, blen in *. lia. }
    split; [|split]; exact C.
Qed.

(** Numbers of at most [m] words. *)
Lemma mul_bound_same H m : 1 <= m -> 0 <= H -> mul_bound H m m <= (3 * H + 26) * m.
Proof. intros M H0. unfold mul_bound. rewrite Z.max_id, Z.min_id. nia. Qed.

Lemma add_word_len a b u : add_word a b = Ok u -> lens_below 2 u.
Proof.
  unfold add_word. destruct (overflowing_add a b) as [r [|]]; [|intros H; injection H as <-; unfold lens_below; cbn; lia].
  intros H. apply bind_inv in H. destruct H as (b0 & E & H). apply bind_inv in H. destruct H as (b1 & E1 & H). apply bind_inv in H.
  destruct H as (b2 & E2 & H). apply allocate_words in E. apply push_words in E1, E2. apply from_buffer_len in H.
  unfold lens_below, blen, len in *. rewrite E2, E1, E in H. cbn in H. lia.
Qed.

Lemma add_large_word_costs b a n : blen b <= n -> costs (c_add_large_word b a) (4 * n + 6) (lens_below (n + 1)).
Proof.
  intros L. unfold c_add_large_word. step.
  eapply costs_bind_words; [apply (call_keeps (words b)); intros w' r E'; now apply CostProofs.add_word_len in E'|]. intros b' o E'. cbv beta iota.
  assert (LB : blen b' = blen b) by (unfold blen, len; lia).
  eapply costs_bind; [apply (push_costs' o b' 1 (blen b + 2)); lia|]. intros b2 L2. cbv beta in L2.
  eapply costs_weaken; [apply (from_buffer_costs b2 (2 * (n + 1) + 1)); lia| |unfold lens_below, blen, len in *; intros; lia]. unfold blen, len in *. lia.
Qed.

Lemma on_window_len {R} i j c (f : list Z -> res (list Z * R)) c' r : (forall w w' r, f w = Ok (w', r) -> length w' = length w) ->
  on_window i j c f = Ok (c', r) -> length c' = length c.
Proof.
  intros F. unfold on_window. destruct ((i <=? j)%nat && (j <=? length c)%nat) eqn:G; [|discriminate]. bits.
  intros HX. apply bind_inv in HX. destruct HX as ([w x] & E & HX). injection HX as <- _. apply F in E.
  rewrite !app_length, E, !firstn_length, !skipn_length. lia.
Qed.

Lemma on_buffer_len {R} i j b (f : list Z -> res (list Z * R)) b' r : (forall w w' r, f w = Ok (w', r) -> length w' = length w) ->
  on_buffer i j b f = Ok (b', r) -> length (words b') = length (words b).
Proof. intros F. unfold on_buffer. apply on_words_len. intros w w' x. apply on_window_len. exact F. Qed.

Lemma add_large_costs b r n : blen b <= n -> len r <= n -> 1 <= n -> costs (c_add_large b r) (7 * n + 9) (lens_below (n + 1)).
Proof.
  intros L1 L2 N1. unfold c_add_large. cbv zeta. step. destruct E as [E _]. apply costs_bind_call. intros [b1 o] E1. cbv beta iota.
  apply on_buffer_len in E1; [|intros w w' x X; now apply add_same_len in X].
  match goal with |- costs (cbind ?m ?k) ?N _ => apply (costs_bind m k (2 * n + 2) N (fun b => blen b <= n)) end.
  { match goal with |- costs (if ?c then _ else _) _ _ => destruct c end; [|apply costs_ok; unfold blen, len in *; lia].
    apply costs_bind_call. intros b2 E2. apply ensure_capacity_words in E2. step. destruct E0 as [E0 _].
    eapply costs_weaken; [apply costs_call|unfold blen, len in *; lia|]. intros b3 E3. apply extend_words in E3.
    unfold blen, len in *. rewrite E3, app_length, E0, E2, E1. lia. }
  intros b2 B2. cbv beta in B2.
  match goal with |- costs (cbind ?m ?k) ?N _ => apply (costs_bind m k (n + 1) N (fun x => blen (fst x) <= n)) end.
  { destruct o; [|apply costs_ok; cbn [fst]; lia]. eapply costs_weaken; [apply costs_call|unfold blen, len in *; lia|].
    intros [b3 o3] E3. cbn [fst]. apply on_buffer_len in E3; [unfold blen, len in *; lia|].
    intros w w' x X. injection X as X. pose proof (add_one_len w) as AL. rewrite X in AL. exact AL. }
  intros [b3 o3] B3. cbn [fst] in B3. cbv beta iota.
  eapply costs_bind; [apply (push_costs' o3 b3 1 (n + 2)); lia|]. intros b4 B4. cbv beta in B4.
  eapply costs_weaken; [apply (from_buffer_costs b4 (2 * (n + 1) + 1)); lia| |unfold lens_below; intros; lia]. unfold blen, len in *. lia.
Qed.

Lemma add_costs a b n : ulen a <= n -> ulen b <= n -> 1 <= n -> costs (c_ubig_add_vv a b) (7 * n + 9) (lens_below (n + 1)).
Proof.
  intros La Lb N1. destruct a as [x|x], b as [y|y]; cbn [ulen c_ubig_add_vv] in *.
  - unfold c_add_word. eapply costs_weaken; [apply costs_call|lia|]. intros u E. apply add_word_len in E. unfold lens_below in *. lia.
  - eapply costs_weaken; [apply (add_large_word_costs y x n); lia|lia|auto].
  - eapply costs_weaken; [apply (add_large_word_costs x y n); lia|lia|auto].
  - destruct (length (words y) <=? length (words x))%nat; apply add_large_costs; unfold blen in *; lia.
Qed.

(** *** Powers *)

Lemma set_bit_len n u : 0 <= n -> set_bit (from_word 0) n = Ok u -> lens_below (n / wbits + 1) u.
Proof.
  intros N0. assert (W0 : 0 < wbits) by (destruct AOK as [[->|[->| ->]] _]; lia).
  pose proof (Z.div_pos n wbits N0 W0) as Q. cbn [set_bit from_word]. destruct (n <? wbits).
  - intros H. injection H as <-. unfold lens_below. cbn [ulen from_word]. lia.
  - unfold with_bit_word_slow. cbv zeta. intros H. apply check_ok in H. destruct H as [G H]. apply Z.leb_le in G.
    assert (Q1 : 1 <= n / wbits) by (apply Z.div_le_lower_bound; lia).
    apply bind_inv in H. destruct H as (m & _ & H). apply bind_inv in H. destruct H as (b0 & E0 & H). apply bind_inv in H. destruct H as (b1 & E1 & H).
    apply bind_inv in H. destruct H as (b2 & E2 & H). apply bind_inv in H. destruct H as (b3 & E3 & H).
    apply allocate_words in E0. apply push_words in E1, E3. apply extend_words in E2. apply from_buffer_len in H.
    unfold lens_below, blen, len in *. rewrite E3, E2, E1, E0, !app_length, repeat_length in H. cbn [length] in H. lia.
Qed.

Lemma shiftr_double n p : 0 <= n -> 0 <= p -> Z.shiftr n p = 2 * Z.shiftr n (p + 1) + Z.b2z (Z.testbit n p).
Proof.
  intros N P. rewrite <- (Z.shiftr_shiftr n p 1) by lia. rewrite <- Z.div2_spec.
  rewrite (Z.div2_odd (Z.shiftr n p)) at 1. f_equal. f_equal. rewrite <- Z.bit0_odd, Z.shiftr_spec by lia. f_equal.
Qed.

Lemma pow_loop_costs H w self exp : 1 <= ulen self <= w -> 0 <= exp -> rate (Z.to_nat (w * exp)) H -> forall p r,
  1 <= Z.shiftr exp (Z.of_nat p + 1) -> 1 <= ulen r <= w * (2 * Z.shiftr exp (Z.of_nat p + 1)) ->
  costs (c_pow_loop p self exp r) ((3 * H + 26) * (2 * w) * (2 * exp - Z.shiftr exp (Z.of_nat p))) (lens_below (w * exp)).
Proof.
  intros L X0 R. assert (H1 : 1 <= H) by (destruct R as [R _]; lia). set (K := 3 * H + 26). assert (K1 : 1 <= K) by lia.
  assert (RB : forall n, n <= w * exp -> rate (Z.to_nat n) H) by (intros n N; eapply rate_le; [exact R|lia]).
  induction p as [|p IH]; intros r E L2; cbn [c_pow_loop].
  - change (Z.of_nat 0) with 0 in *. pose proof (shiftr_double exp 0 X0 ltac:(lia)) as D. rewrite Z.add_0_l in *. rewrite Z.shiftr_0_r in *.
    set (e := Z.shiftr exp 1) in *. assert (XE : 2 * e <= exp) by (destruct (Z.testbit exp 0); cbn [Z.b2z] in D; lia).
    match goal with |- costs (cbind ?m ?k) ?N _ => apply (costs_bind m k (K * (2 * w * e)) N (lens_below (w * exp))) end.
    + destruct (Z.testbit exp 0); cbn [Z.b2z] in D.
      * eapply costs_weaken; [apply (mul_ops_costs H r self (2 * w * e) (2 * w * e)); [lia|nia|apply RB; nia]| |].
        -- apply Z.le_trans with (mul_bound H (2 * w * e) (2 * w * e)); [lia|]. apply mul_bound_same; nia.
        -- unfold lens_below. intros u U. nia.
      * apply costs_ok; [nia|]. unfold lens_below. nia.
    + intros v V. apply costs_ok; [nia|exact V].
  - rewrite Nat2Z.inj_succ in *. pose proof (shiftr_double exp (Z.succ (Z.of_nat p)) X0 ltac:(lia)) as D.
    pose proof (shiftr_double exp (Z.of_nat p) X0 ltac:(lia)) as D2. replace (Z.of_nat p + 1) with (Z.succ (Z.of_nat p)) in D2 by lia.
    set (e := Z.shiftr exp (Z.succ (Z.of_nat p) + 1)) in *. set (e1 := Z.shiftr exp (Z.succ (Z.of_nat p))) in *. set (e2 := Z.shiftr exp (Z.of_nat p)) in *.
    assert (XE : e1 <= exp).
    { unfold e1. rewrite Z.shiftr_div_pow2 by lia. apply Z.div_le_upper_bound; [apply Z.pow_pos_nonneg; lia|].
      pose proof (Z.pow_pos_nonneg 2 (Z.succ (Z.of_nat p)) ltac:(lia) ltac:(lia)). nia. }
    assert (E21 : 2 * e1 <= e2) by (destruct (Z.testbit exp (Z.of_nat p)); cbn [Z.b2z] in D2; lia).
    assert (B01 : 0 <= Z.b2z (Z.testbit exp (Z.succ (Z.of_nat p))) <= 1) by (destruct (Z.testbit _ _); cbn; lia).
    match goal with |- costs (cbind ?m ?k) ?N _ => apply (costs_bind m k (K * (2 * w * e)) N (lens_below (w * e1))) end.
    + destruct (Z.testbit exp (Z.succ (Z.of_nat p))); cbn [Z.b2z] in D.
      * eapply costs_weaken; [apply (mul_ops_costs H r self (2 * w * e) (2 * w * e)); [lia|nia|apply RB; nia]| |].
        -- apply Z.le_trans with (mul_bound H (2 * w * e) (2 * w * e)); [lia|]. apply mul_bound_same; nia.
        -- unfold lens_below. intros u U. nia.
      * apply costs_ok; [nia|]. unfold lens_below. nia.
    + intros v V. unfold lens_below in V.
      eapply costs_bind; [apply (mul_ops_costs H v v (w * e1) (w * e1)); [lia|lia|apply RB; nia]|]. intros r2 V2. unfold lens_below in V2.
      eapply costs_weaken; [apply IH| |auto].
      * replace (Z.of_nat p + 1) with (Z.succ (Z.of_nat p)) by lia. fold e1. lia.
      * replace (Z.of_nat p + 1) with (Z.succ (Z.of_nat p)) by lia. fold e1. lia.
      * fold e2. pose proof (mul_bound_same H (w * e1) ltac:(nia) ltac:(lia)) as MB. fold K in MB.
        apply Z.le_trans with (K * (2 * w) * (2 * exp - e1) - K * (2 * w * e) - K * (w * e1)); [|lia].
        assert (X : 2 * w * e <= w * e1) by nia. assert (X2 : 2 * w * (2 * e1) <= 2 * w * e2) by nia. nia.
Qed.

Lemma pow_costs H w u exp : 1 <= ulen u <= w -> 2 <= exp -> rate (Z.to_nat (w * exp)) H ->
  costs (c_ubig_pow u exp) ((3 * H + 26) * (4 * w * exp)) (lens_below (w * exp)).
Proof.
  intros L X R. assert (H1 : 1 <= H) by (destruct R as [R _]; lia). unfold c_ubig_pow.
  destruct (Z.eqb_spec exp 0); [lia|]. destruct (Z.eqb_spec exp 1); [lia|].
  assert (SQ : costs (c_ubig_mul_rr u u) ((3 * H + 26) * w) (lens_below (2 * w))).
  { eapply costs_weaken; [apply (mul_ops_costs H u u w w); [lia|lia|eapply rate_le; [exact R|nia]]| |].
    - apply mul_bound_same; lia.
    - unfold lens_below. intros x U. lia. }
  destruct (Z.eqb_spec exp 2) as [->|].
  { eapply costs_weaken; [exact SQ|nia|]. unfold lens_below. intros x U. lia. }
  assert (LG : costs (c_pow_large u exp) ((3 * H + 26) * (4 * w * exp)) (lens_below (w * exp))).
  { unfold c_pow_large. eapply costs_bind; [exact SQ|]. intros r V. unfold lens_below in V.
    assert (BL : 2 <= bitlen exp /\ Z.shiftr exp (bitlen exp - 1) = 1).
    { unfold bitlen. destruct (Z.eqb_spec exp 0); [lia|]. pose proof (Z.log2_spec exp ltac:(lia)) as [L1 L2].
      assert (1 <= Z.log2 exp) by (apply Z.log2_le_pow2; lia). split; [lia|]. replace (Z.log2 exp + 1 - 1) with (Z.log2 exp) by lia.
      rewrite Z.shiftr_div_pow2 by lia. rewrite Z.pow_succ_r in L2 by lia. symmetry. apply Z.div_unique with (exp - 2 ^ Z.log2 exp); lia. }
    destruct BL as [BL SH]. assert (PE : Z.of_nat (Z.to_nat (bitlen exp - 2)) + 1 = bitlen exp - 1) by lia.
    eapply costs_weaken; [apply (pow_loop_costs H w u exp)| |auto]; [lia|lia|exact R|rewrite PE, SH; lia|rewrite PE, SH; lia|].
    pose proof (shiftr_double exp (Z.of_nat (Z.to_nat (bitlen exp - 2))) ltac:(lia) ltac:(lia)) as D. rewrite PE, SH in D.
    assert (0 <= Z.b2z (Z.testbit exp (Z.of_nat (Z.to_nat (bitlen exp - 2)))) <= 1) by (destruct (Z.testbit _ _); cbn; lia). nia. }
  assert (PX : exp <= w * exp) by nia.
  assert (PK : 29 * (4 * exp) <= (3 * H + 26) * (4 * w * exp)) by (apply Z.mul_le_mono_nonneg; lia).
  destruct u as [x|b]; [|exact LG].
  destruct (x =? 0); [apply costs_ok; [lia|unfold lens_below; cbn [ulen from_word]; lia]|].
  destruct (x =? 1); [apply costs_ok; [lia|unfold lens_below; cbn [ulen from_word]; lia]|].
  destruct (x =? 2); [|exact LG].
  assert (W16 : 16 <= wbits) by (destruct AOK as [[->|[->| ->]] _]; lia).
  assert (Q : 0 <= exp / wbits <= exp / 16) by (split; [apply Z.div_pos; lia|apply Z.div_le_compat_l; lia]).
  assert (Q2 : exp / 16 + 1 <= exp) by (pose proof (Z.div_mod exp 16 ltac:(lia)); pose proof (Z.mod_pos_bound exp 16); lia).
  eapply costs_weaken; [apply costs_call| |].
  - lia.
  - intros v V. apply set_bit_len in V; [|lia]. unfold lens_below in *. lia.
Qed.

End Words.
